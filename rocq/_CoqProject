-Q theories Verif
theories/TimeModel.v
theories/TimeSpec.v
theories/TimeProofs.v
theories/TimeStrModel.v
theories/TimeStrProofs.v
theories/TimeProofs2.v
theories/TimeProps.v
theories/RunModel.v
theories/RunSpec.v
theories/RunProofs.v
theories/RunProps.v
theories/ArrModel.v
theories/ArrSpec.v
theories/ArrProofs.v
theories/ArrProps.v
theories/MathModel.v
theories/MathProofs.v
theories/MathProps.v
theories/PanelModel.v
theories/PanelSpec.v
theories/PanelProps.v
theories/LayoutModel.v
theories/LayoutSpec.v
theories/LayoutProofs.v
theories/LayoutProps.v
theories/ExchModel.v
theories/ExchSpec.v
theories/ExchProofs.v
theories/ExchProps.v
theories/ProtoModel.v
theories/ProtoProofs.v
theories/ProtoProps.v
theories/DssModel.v
theories/DssSpec.v
theories/DssProofs.v
theories/DssGeom.v
theories/DssProps.v
theories/StepModel.v
theories/StepSpec.v
theories/StepProofs.v
theories/StepErk.v
theories/StepImex.v
theories/StepFlow.v
theories/StepMore.v
theories/StepAcc.v
theories/StepStale.v
theories/StepProps.v
theories/CmdModel.v
theories/CmdSpec.v
theories/CmdProofs.v
theories/CmdProps.v
theories/PrefModel.v
theories/PrefSpec.v
theories/PrefProofs.v
theories/PrefProps.v
theories/AnnModel.v
theories/AnnSpec.v
theories/AnnProofs.v
theories/AnnProps.v
theories/PhysModel.v
theories/PhysSpec.v
theories/PhysProps.v
theories/QuadModel.v
theories/QuadSpec.v
theories/QuadProofs.v
theories/QuadProps.v
theories/SpacModel.v
theories/SpacSpec.v
theories/SpacProps.v
theories/InterpModel.v
theories/InterpSpec.v
theories/InterpProofs.v
theories/InterpProps.v
theories/ColModel.v
theories/ColSpec.v
theories/ColProofs.v
theories/ColProps.v
theories/FemModel.v
theories/FemSpec.v
theories/FemProofs.v
theories/FemProofs2.v
theories/FemProps.v
theories/DiagModel.v
theories/DiagSpec.v
theories/DiagProofs.v
theories/DiagProps.v
theories/ShallowModel.v
theories/ShallowSpec.v
theories/ShallowProofs.v
theories/ShallowProps.v
theories/ShallowGlobalProps.v
theories/CsTransModel.v
theories/CsTransSpec.v
theories/CsTransProofs.v
theories/CsTransVecProofs.v
theories/CsTransPanelProofs.v
theories/CsTransProps.v
theories/KrylovModel.v
theories/KrylovSpec.v
theories/KrylovProofs.v
theories/KrylovProps.v
theories/RestartModel.v
theories/RestartSpec.v
theories/RestartProofs.v
theories/RestartProps.v
theories/ConsolModel.v
theories/ConsolSpec.v
theories/ConsolProofs.v
theories/ConsolProps.v
theories/FluxModel.v
theories/FluxSpec.v
theories/FluxProofs.v
theories/FluxProofs2.v
theories/FluxProofs3.v
theories/FluxProofs4.v
theories/FluxProofs5.v
theories/FluxProofs6.v
theories/FluxProofs7.v
theories/FluxProps.v
theories/VelModel.v
theories/VelSpec.v
theories/VelProofs.v
theories/VelProps.v
theories/LegModel.v
theories/LegSpec.v
theories/LegProofs.v
theories/LegProofs2.v
theories/LegProofs3.v
theories/LegProofs4.v
theories/LegProps.v
theories/ViscModel.v
theories/ViscSpec.v
theories/ViscProofs.v
theories/ViscProps.v
theories/ViscGlobalProps.v
theories/NonhModel.v
theories/NonhSpec.v
theories/NonhProofs.v
theories/NonhProps.v
theories/NonhGlobalProps.v
theories/VertModel.v
theories/VertSpec.v
theories/VertProofs.v
theories/VertOps.v
theories/VertProofs2.v
theories/VertProofs3.v
theories/VertProofs4.v
theories/VertProofs5.v
theories/VertBand.v
theories/VertBand2.v
theories/VertProps.v
theories/LevModel.v
theories/LevSpec.v
theories/LevProofs.v
theories/LevProofs2.v
theories/LevTables.v
theories/LevProps.v
theories/GeomModel.v
theories/GeomSpec.v
theories/GeomProofs.v
theories/GeomProofs2.v
theories/GeomProps.v
theories/VertLevelProps.v
theories/StepCombModel.v
theories/StepCombProps.v
theories/HsModel.v
theories/HsSpec.v
theories/HsProofs.v
theories/HsProps.v
theories/HsExplProps.v
theories/HeldModel.v
theories/HeldSpec.v
theories/HeldProofs.v
theories/HeldProps.v
theories/ChemModel.v
theories/ChemSpec.v
theories/ChemProofs.v
theories/ChemProps.v
theories/KessModel.v
theories/KessSpec.v
theories/KessProofs.v
theories/KessProps.v
theories/SchedModel.v
theories/SchedProps.v
theories/SampModel.v
theories/SampSpec.v
theories/SampProofs.v
theories/SampProps.v
theories/SampPatchProps.v
theories/BcModel.v
theories/BcSpec.v
theories/BcProofs.v
theories/BcProps.v
theories/DlimProofs.v
theories/InitModel.v
theories/InitSpec.v
theories/InitProofs.v
theories/InitProps.v
theories/BalModel.v
theories/BalSpec.v
theories/BalProofs.v
theories/BalProps.v
theories/EtaModel.v
theories/EtaSpec.v
theories/EtaProofs.v
theories/EtaProps.v
theories/SwtModel.v
theories/SwtSpec.v
theories/SwtProofs.v
theories/SwtWaveProofs.v
theories/SwtProps.v
theories/SplModel.v
theories/SplSpec.v
theories/SplProofs.v
theories/SplProps.v
theories/SplStepProps.v
theories/SplForceProps.v
theories/BicgModel.v
theories/BicgSpec.v
theories/BicgProps.v
theories/SchurModel.v
theories/SchurSpec.v
theories/SchurProofs.v
theories/SchurProps.v
theories/SchurJacModel.v
theories/SchurJacProps.v
theories/SchurFModel.v
theories/SchurFSpec.v
theories/SchurFProofs.v
theories/SchurFProps.v
theories/SchurTracerModel.v
theories/SchurTracerSpec.v
theories/SchurTracerProps.v
theories/TimerModel.v
theories/TimerSpec.v
theories/TimerProps.v
theories/DcmModel.v
theories/DcmSpec.v
theories/DcmProofs.v
theories/DcmProps.v
theories/DcmFluxProps.v
theories/OptModel.v
theories/OptSpec.v
theories/OptProps.v
theories/HexModel.v
theories/HexSpec.v
theories/HexProps.v
theories/TcModel.v
theories/TcSpec.v
theories/TcProofs.v
theories/TcProps.v
theories/BwModel.v
theories/BwSpec.v
theories/BwProofs.v
theories/BwProps.v
theories/ScModel.v
theories/ScSpec.v
theories/ScProps.v
