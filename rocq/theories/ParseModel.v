(** Parser and writer of simulation definition files.
    Models /repo/MAPLEAF/IO/simDefinition.py lines 218-468, 582-645, 915-959. *)
From Coq Require Import List Ascii String Bool Arith ZArith.
From Verif Require Import Base KeyModel.
Import ListNotations.

Definition hash : ascii := "#"%char.
Definition backslash : ascii := "\"%char.
Definition lbrace : ascii := "{"%char.
Definition rbrace : ascii := "}"%char.
Definition colon : ascii := ":"%char.
Definition bang : ascii := "!"%char.

(** [currDictName + "." + name], or [name] at the root (simDefinition.py:264-267, 276-279, 289-292). *)
Definition qualify (cur name : str) : str :=
  match cur with [] => name | _ => cur ++ dot :: name end.

(** Last character test [line[-1] == c] (IndexError on the empty string is excluded by the callers:
    blank lines have been removed). *)
Definition lastc (s : str) : option ascii := nth_error s (List.length s - 1).
Definition ends_with (c : ascii) (s : str) : bool :=
  match lastc s with Some x => eqc x c | None => false end.

(** simDefinition.py:452-454: regex [(?<!\\)#.*] deleted.
    [pb]: previous character is a backslash; [inc]: inside a comment. *)
Fixpoint rm_comments (pb inc : bool) (s : str) : str :=
  match s with
  | [] => []
  | c :: cs =>
      if inc then
        if eqc c nl then nl :: rm_comments false false cs else rm_comments false true cs
      else if eqc c hash && negb pb then rm_comments false true cs
      else c :: rm_comments (eqc c backslash) false cs
  end.

(** simDefinition.py:457: regex [\\(?=#)] deleted. *)
Fixpoint rm_escapes (s : str) : str :=
  match s with
  | [] => []
  | c :: cs =>
      if eqc c backslash && match cs with x :: _ => eqc x hash | [] => false end
      then rm_escapes cs else c :: rm_escapes cs
  end.

(** simDefinition.py:460 *)
Definition nonblank (l : str) : bool := match strip l with [] => false | _ => true end.
Definition working_lines (text : str) : list str :=
  filter nonblank (split_on nl (rm_escapes (rm_comments false false text))).

(** [removeQuotes], simDefinition.py:366-368 *)
Definition quote1 : ascii := "'"%char.
Definition quote2 : ascii := ascii_of_nat 34.
Definition removeQuotes (s : str) : str := replace [quote2] [] (replace [quote1] [] s).

(** [line.index(" ")]: position of the first space, ValueError if there is none;
    returns the rest of the line from there (simDefinition.py:259). *)
Fixpoint from_first_space (s : str) : res str :=
  match s with
  | [] => Err ValueError
  | c :: cs => if eqc c space then Ok s else from_first_space cs
  end.

(** First element of a Python list, IndexError if absent. *)
Definition nth_res {A} (l : list A) (n : nat) : res A :=
  match nth_error l n with Some a => Ok a | None => Err IndexError end.

Section Parser.
  (** [shlex.split] (Python standard library): oracle. *)
  Variable shlex : str -> res (list str).
  (** [self._loadSubSimDefinition(path).dict] : oracle here, instantiated in [loadFile]. *)
  Variable load : str -> res (dict str).

  (** simDefinition.py:354-357: rename all keys of the parent dictionary. *)
  Definition deriveKeys (source : dict str) (keysInParentDict : list str) (dictPath derivedDictName : str)
    : dict str :=
    fold_left (fun dd parentKey =>
                 match dget source parentKey with
                 | Some v => dset dd (replace dictPath derivedDictName parentKey) v
                 | None => dd (* unreachable: keysInParentDict are keys of source *)
                 end) keysInParentDict [].

  (** simDefinition.py:370-382 *)
  Definition cmdReplace (toReplace replaceWith : str) (derivedDict : dict str) : dict str :=
    fold_left (fun dd kv => dset dd (replace toReplace replaceWith (fst kv))
                                    (replace toReplace replaceWith (snd kv))) derivedDict [].

  (** simDefinition.py:384-394 *)
  Definition cmdRemove (stringToDelete : str) (derivedDict : dict str) : dict str :=
    filter (fun kv => negb (containsb stringToDelete (fst kv))) derivedDict.

  (** simDefinition.py:360-402: apply !replace / !removeKeysContaining commands. *)
  Fixpoint applyCommands (derivedDict : dict str) (lines : list str) : res (dict str * list str) :=
    match lines with
    | [] => Ok (derivedDict, [])
    | line :: rest =>
        do command <- shlex line;
        do c0 <- nth_res command 0;
        if eqs c0 (lit "!replace") then
          do c1 <- nth_res command 1;
          do cl <- nth_res command (List.length command - 1);
          applyCommands (cmdReplace (removeQuotes c1) (removeQuotes cl) derivedDict) rest
        else if eqs c0 (lit "!removeKeysContaining") then
          do c1 <- nth_res command 1;
          applyCommands (cmdRemove c1 derivedDict) rest
        else match line with
             | x :: _ => if eqc x bang then Err ValueError else Ok (derivedDict, lines)
             | [] => Err IndexError (* unreachable: blank lines were removed *)
             end
    end.

  (** simDefinition.py:404-410: add derived keys, refuse to clobber. *)
  Fixpoint mergeNew (D derivedDict : dict str) : res (dict str) :=
    match derivedDict with
    | [] => Ok D
    | (k, v) :: rest => if dmem D k then Err ValueError else mergeNew (dset D k v) rest
    end.

  (** simDefinition.py:319-410: everything in [_parseDerivedDictionary] before the final recursive
      call; returns the updated dictionary, the remaining lines and the derived dictionary's name. *)
  Definition deriveHeader (D : dict str) (initLine : str) (rest : list str) (cur : str)
    : res (dict str * list str * str) :=
    do definitionLine <- shlex initLine;
    do name <- nth_res definitionLine 1;
    let derivedDictName := qualify cur name in
    do last <- nth_res definitionLine (List.length definitionLine - 1);
    do _ <- nth_res last 0;
    let dictPath := if ends_with lbrace last then removelast last else last in
    do '(dictPath, sourceDict, keysInParentDict) <-
      (if memb [colon] (map (fun c => [c]) dictPath) then
         do fileName <- nth_res (split_on colon dictPath) 0;
         do sub <- load fileName;
         do p <- nth_res (split_on colon dictPath) 1;
         Ok (p, sub, getSubKeys sub p)
       else Ok (dictPath, D, getSubKeys D dictPath));
    match keysInParentDict with
    | [] => Err ValueError
    | _ =>
        do '(dd, rest') <- applyCommands (deriveKeys sourceDict keysInParentDict dictPath derivedDictName) rest;
        do D' <- mergeNew D dd;
        Ok (D', rest', derivedDictName)
    end.

  (** simDefinition.py:262-269: include all keys of another definition. *)
  Definition includeKeys (D sub : dict str) (cur : str) : dict str :=
    fold_left (fun D kv => dset D (qualify cur (fst kv)) (snd kv)) sub D.

  (** simDefinition.py:237-305 [_parseDictionaryContents].
      Returns the updated dictionary and [Some rest] (lines after the closing bracket) or
      [None] when the text ended first (the Python function then returns None).
      One unit of fuel per line/recursive call. *)
  Fixpoint parseContents (fuel : nat) (D : dict str) (lines : list str) (cur : str) (allow : bool)
    : res (dict str * option (list str)) :=
    match fuel with
    | O => Err OutOfFuel
    | S f =>
        match lines with
        | [] => Ok (D, None)
        | raw :: rest =>
            let line := strip raw in
            match words line with
            | [] => Err IndexError (* unreachable: blank lines were removed *)
            | w0 :: ws =>
                if eqs w0 (lit "!create") then
                  do '(D1, rest1, name) <- deriveHeader D raw rest cur;
                  do '(D2, r) <- parseContents f D1 rest1 name true;
                  match r with
                  | None => Err TypeError (* i = None; i += 1 *)
                  | Some rest' => parseContents f D2 rest' cur allow
                  end
                else if eqs w0 (lit "!include") then
                  do tl <- from_first_space line;
                  do sub <- load (strip tl);
                  parseContents f (includeKeys D sub cur) rest cur allow
                else if ends_with lbrace line then
                  do '(D1, r) <- parseContents f D rest (qualify cur (removelast line)) allow;
                  match r with
                  | None => Err TypeError
                  | Some rest' => parseContents f D1 rest' cur allow
                  end
                else if eqs line [rbrace] then Ok (D, Some rest)
                else match ws with
                     | [] => Err ValueError
                     | _ =>
                         let keyString := qualify cur w0 in
                         if negb (dmem D keyString) || allow
                         then parseContents f (dset D keyString (join [space] ws)) rest cur allow
                         else Err ValueError
                     end
            end
        end
    end.

  (** simDefinition.py:444-463: parse a whole text (a top-level closing bracket or the end of the
      text both end the parse successfully: the return value is ignored at line 463). *)
  Definition parseText (text : str) : res (dict str) :=
    let lines := working_lines text in
    do '(D, _) <- parseContents (S (List.length lines)) [] lines [] false;
    Ok D.
End Parser.

(** simDefinition.py:915-921 [isFileName] *)
Definition isFileName (v : str) : bool :=
  existsb (fun e => containsb e v)
    [lit ".csv"; lit ".pdf"; lit ".mapleaf"; lit ".txt"; lit ".py"; lit ".eng"].
(** simDefinition.py:923-924 *)
Definition pathIsRelativeToRepository (v : str) : bool :=
  (8 <? List.length v) && eqs (firstn 8 v) (lit "MAPLEAF/").

Section FixPaths.
  (** [getAbsoluteFilePath] and "path joined to the definition's directory, if it exists": oracles. *)
  Variable absPath : str -> str.
  Variable inFileDir : str -> option str.
  (** simDefinition.py:425-442, for one value. *)
  Definition fixValue (v : str) : str :=
    let val := if eqs (firstn 2 v) (lit "./") then skipn 2 v else v in
    let v1 := if pathIsRelativeToRepository val then absPath val else v in
    if isFileName val then match inFileDir val with Some p => p | None => v1 end else v1.
  Definition fixPaths (D : dict str) : dict str := map (fun kv => (fst kv, fixValue (snd kv))) D.
End FixPaths.

(** simDefinition.py:444-468 [_parseSimDefinitionFile] on the text of a file. *)
Definition parseFileText (shlex : str -> res (list str)) (load : str -> res (dict str))
           (absPath : str -> str) (inFileDir : str -> option str) (text : str) : res (dict str) :=
  do D <- parseText shlex load text;
  Ok (fixPaths absPath inFileDir D).

(** Loading with includes, simDefinition.py:183-190 and 218-235.
    [fs]: the definition files; [resolve cur path]: [getAbsoluteFilePath(path, parent of cur)];
    [fix_ cur]: path fixing plus the sampling done by the constructor of the sub-definition
    (lines 197-216), which rewrites values.  [depth] bounds the nesting of file loads. *)
Section Load.
  Variable shlex : str -> res (list str).
  Variable fs : dict str.
  Variable resolve : str -> str -> str.
  Variable post : str -> dict str -> dict str.

  Fixpoint loadFile (depth : nat) (stack : list str) (fileName : str) : res (dict str) :=
    match depth with
    | O => Err OutOfFuel
    | S d =>
        match dget fs fileName with
        | None => Err OtherError (* FileNotFoundError *)
        | Some text =>
            do D <- parseText shlex
                      (fun path =>
                         let filePath := resolve fileName path in
                         if memb filePath stack then Err CircularRef
                         else loadFile d (filePath :: stack) filePath)
                      text;
            Ok (post fileName D)
        end
    end.

  (** [SimDefinition(fileName)] with [simDefParseStack = { fileName }]. *)
  Definition loadTop (depth : nat) (fileName : str) : res (dict str) :=
    loadFile depth [fileName] fileName.
End Load.

(** * Writer: simDefinition.py:582-645 *)

(** Python comparison of strings (code-point order). *)
Fixpoint str_leb (a b : str) : bool :=
  match a, b with
  | [], _ => true
  | _ :: _, [] => false
  | x :: xs, y :: ys =>
      let nx := nat_of_ascii x in let ny := nat_of_ascii y in
      if nx <? ny then true else if ny <? nx then false else str_leb xs ys
  end.
(** [sorted(self.dict.items())]: keys are unique, so the order is that of the keys. *)
Fixpoint insert_sorted (kv : str * str) (l : dict str) : dict str :=
  match l with
  | [] => [kv]
  | kv' :: l' => if str_leb (fst kv) (fst kv') then kv :: l else kv' :: insert_sorted kv l'
  end.
Definition sort_items (D : dict str) : dict str := fold_right insert_sorted [] D.

(** [key.split('.')[:-1]] and the name after the last dot (lines 604, 638). *)
Definition dictsOf (key : str) : list str := removelast (split_on dot key).
Definition realKey (key : str) : str := last (split_on dot key) [].

Definition tabs (n : nat) : str := repeat tab n.

(** Lines 610-619: returns the text written and the depth at which the loop stops. *)
Fixpoint closeDicts (currDicts dicts : list str) (depth : nat) : str * nat :=
  match depth with
  | O => ([], O)
  | S m =>
      if (List.length dicts <? depth) || negb (eqs (nth m currDicts []) (nth m dicts []))
      then let '(out, d) := closeDicts currDicts dicts m in
           (tabs m ++ [rbrace; nl] ++ out, d)
      else ([], depth)
  end.

(** Lines 623-628: open [dicts[depth:]]. *)
Fixpoint openDicts (depth : nat) (names : list str) : str :=
  match names with
  | [] => []
  | n :: ns => [nl] ++ tabs depth ++ n ++ [lbrace; nl] ++ openDicts (S depth) ns
  end.

(** Lines 641-645 *)
Fixpoint closeAll (depth : nat) : str :=
  match depth with O => [] | S m => tabs m ++ [rbrace; nl] ++ closeAll m end.

(** Lines 602-639, the loop over the sorted items, followed by lines 641-645. *)
Fixpoint writeItems (currDicts : list str) (items : dict str) : str :=
  match items with
  | [] => closeAll (List.length currDicts)
  | (key, value) :: rest =>
      let dicts := dictsOf key in
      (if list_eq_dec str_eq_dec dicts currDicts then []
       else let '(closed, depth) := closeDicts currDicts dicts (List.length currDicts) in
            let names := skipn depth dicts in
            closed ++ openDicts depth names ++ (match names with [] => [nl] | _ => [] end))
      ++ tabs (List.length dicts) ++ realKey key ++ [tab] ++ value ++ [nl]
      ++ writeItems dicts rest
  end.

(** Lines 593-597; [now] is [str(datetime.now())]. *)
Definition header (fileName now : str) : str :=
  lit "# MAPLEAF" ++ [nl] ++ lit "# File: " ++ fileName ++ [nl]
  ++ lit "# Autowritten on: " ++ now ++ [nl].

Definition writeToFile (writeHeader : bool) (fileName now : str) (D : dict str) : str :=
  (if writeHeader then header fileName now else []) ++ writeItems [] (sort_items D).
