-Q theories Verif

theories/Base.v
theories/BaseFacts.v
theories/KeyModel.v
theories/KeyProofs.v
theories/KeyProps.v
theories/ParseModel.v
theories/ParseProofs.v
theories/WriteProofs.v
theories/TreeProofs.v
theories/IncludeProofs.v
theories/ParseProps.v
theories/DefModel.v
theories/DefProofs.v
theories/SampleProofs.v
theories/DefProps.v
theories/GeomModel.v
theories/GeomProofs.v
theories/QuatProofs.v
theories/GeomProps.v
theories/OrientProps.v
theories/CacheModel.v
theories/CacheProps.v
theories/MechModel.v
theories/MechProps.v
theories/InterpModel.v
theories/InterpProps.v
theories/IntegModel.v
theories/IntegProps.v
theories/AdaptProps.v
theories/StateModel.v
theories/StateProps.v
theories/EventModel.v
theories/EventProps.v
theories/MotorModel.v
theories/MotorProps.v
theories/EnvModel.v
theories/RailProps.v
theories/GravityProps.v
theories/GeodesyProps.v
theories/FrameProps.v
theories/MotionProps.v
theories/AtmosModel.v
theories/AtmosProps.v
theories/TurbModel.v
theories/TurbProps.v
theories/GncModel.v
theories/GncProps.v
theories/LogModel.v
theories/LogProps.v
theories/LogWriteProps.v
theories/RunModel.v
theories/RunProps.v
theories/ParallelModel.v
theories/ParallelProps.v
theories/BatchModel.v
theories/BatchProps.v
theories/RecoveryModel.v
theories/RecoveryProps.v
theories/FlightModel.v
theories/FlightProps.v
theories/GridModel.v
theories/GridProps.v
theories/HilModel.v
theories/HilProps.v
theories/OptModel.v
theories/OptProps.v
theories/StartModel.v
theories/StartProps.v
theories/FinModel.v
theories/FinProps.v
theories/FinForceProps.v
theories/FinCPProps.v
theories/AeroModel.v
theories/AeroForceProps.v
theories/AeroDragProps.v
theories/AeroGeomProps.v
theories/WindModel.v
theories/WindProps.v
theories/RocketModel.v
theories/RocketProps.v
theories/DeriveProps.v
theories/ConvModel.v
theories/ConvProps.v
theories/SweepModel.v
theories/SweepProps.v
theories/CoeffModel.v
theories/CoeffProps.v
theories/ControlModel.v
theories/ControlProps.v
theories/PlotModel.v
theories/PlotProps.v
theories/VecTextModel.v
theories/VecTextProps.v
theories/CaseModel.v
theories/CaseProps.v
theories/WindRoseModel.v
theories/WindRoseProps.v
theories/BallisticModel.v
theories/BallisticProps.v
theories/FactoryModel.v
theories/FactoryProps.v
theories/AssemblyModel.v
theories/AssemblyProps.v
theories/FinDragModel.v
theories/FinDragProps.v
theories/ConsoleModel.v
theories/ConsoleProps.v
theories/ReportModel.v
theories/ReportProps.v
theories/MotorFileModel.v
theories/MotorFileProps.v
theories/ContinueModel.v
theories/ContinueProps.v
theories/CostModel.v
theories/CostProps.v
theories/UncertainModel.v
theories/UncertainProps.v
theories/AnimModel.v
theories/AnimProps.v
theories/RecordModel.v
theories/RecordProps.v
theories/BatchPlotModel.v
theories/BatchPlotProps.v
theories/StateLogModel.v
theories/StateLogProps.v
theories/ShapeModel.v
theories/ShapeProps.v
theories/SixModel.v
theories/SixProps.v
theories/SixAeroProps.v
theories/RelProofs.v
theories/DriftProps.v
theories/DescentModel.v
theories/DescentProps.v
theories/StraightProps.v
theories/UprightProps.v
theories/RollProps.v
theories/HilLoopModel.v
theories/HilLoopProps.v
theories/PidCostModel.v
theories/PidCostProps.v
theories/ConvPlotModel.v
theories/ConvPlotProps.v
theories/EllipsoidProps.v
theories/EqModel.v
theories/EqProps.v
