(** Model of the end of a batch run that recorded results (SimulationRunners/Batch.py:130-133, 844-852) and of reading them again.
    What a case records is modelled in BatchModel (Batch.py:348-357, 462-486). *)
From Coq Require Import Ascii String List Bool Arith QArith.
From Verif Require Import Base EventModel BatchModel.
Import ListNotations.

(** Batch.py:844-852 [_writeModifiedTestDefinitionFile]: the path written *)
Definition newDefinitionPath (fileName : option str) : res str :=
  match fileName with None => Err AttributeError | Some f => Ok (replace (lit ".mapleaf") (lit "_newExpectedResultsRecorded.mapleaf") f) end.
(** Batch.py:130-133 (in [printResult]): the files after a batch; [recorded]: the cases of [casesWithNewRecordedResults]; [text]: the definition with the
    recorded values, written by [SimDefinition.writeToFile] (C03) *)
Definition finishBatch (files : dict str) (fileName : option str) (recorded : list str) (text : str) : res (dict str) :=
  match recorded with
  | [] => Ok files
  | _ => do f <- newDefinitionPath fileName; Ok (dset files f text)
  end.
(** Batch.py:472, 328-332: a recorded value as it is read in the next run ([float] of the text written by [str], which is exact) *)
Definition flightAgain (recorded : list (str * option fl)) : list (str * expectation) :=
  map (fun r => (fst r, match snd r with Some v => Numeric v | None => Text end)) recorded.
(** Batch.py:348-352: each results dictionary gets all values of its column *)
Definition sweepAgain (columns : list (str * list fl)) : list (str * sweepExpectation) := map (fun c => (fst c, Values (snd c))) columns.
