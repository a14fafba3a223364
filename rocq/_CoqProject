-Q theories Verif
theories/Base.v
theories/SplitModel.v
theories/SplitSpec.v
theories/SplitProofs.v
theories/SplitProps.v
theories/MemoryModel.v
theories/MemorySpec.v
theories/MemoryProofs.v
theories/MemoryProps.v
theories/Gauss.v
theories/FlagsModel.v
theories/FlagsSpec.v
theories/FlagsProofs.v
theories/FlagsProps.v
theories/AssocModel.v
theories/AssocSpec.v
theories/AssocProofs.v
theories/AssocProps.v
theories/SeqModel.v
theories/SeqSpec.v
theories/SeqProofs.v
theories/SeqProps.v
theories/ContextModel.v
theories/ContextSpec.v
theories/ContextProofs.v
theories/ContextProps.v
theories/Algebra.v
theories/IndexModel.v
theories/IndexSpec.v
theories/IndexProofs.v
theories/IndexProps.v
theories/IterModel.v
theories/IterSpec.v
theories/IterProofs.v
theories/IterProps.v
theories/ProxyModel.v
theories/ProxySpec.v
theories/ProxyProofs.v
theories/ProxyProps.v
theories/RuleModel.v
theories/RuleSpec.v
theories/RuleProofs.v
theories/RuleProps.v
theories/EngineModel.v
theories/EngineSpec.v
theories/EngineProofs.v
theories/SliceModel.v
theories/EngineProps.v
theories/CalcModel.v
theories/CalcSpec.v
theories/CalcProofs.v
theories/CalcProps.v
theories/BufferModel.v
theories/BufferSpec.v
theories/BufferProofs.v
theories/BufferProps.v
theories/BlockModel.v
theories/BlockSpec.v
theories/BlockProofs.v
theories/BlockRules.v
theories/BlockProps.v
theories/ShapeModel.v
theories/ShapeSpec.v
theories/ShapeProofs.v
theories/ShapeCompose.v
theories/ShapeRun.v
theories/ShapeSum.v
theories/ShapeProps.v
theories/BlockShapeModel.v
theories/BlockShapeSpec.v
theories/BlockShapeProofs.v
theories/BlockShapeProps.v
theories/DiagModel.v
theories/DiagRulesModel.v
theories/DiagSpec.v
theories/DiagProofs.v
theories/DiagRules.v
theories/DiagProps.v
theories/BandModel.v
theories/BandSpec.v
theories/BandProofs.v
theories/BandProps.v
theories/Dft.v
theories/DftExamples.v
theories/DftComplex.v
theories/ToepModel.v
theories/ToepSpec.v
theories/ToepProofs.v
theories/ToepProps.v
theories/FftModel.v
theories/FftSpec.v
theories/FftProofs.v
theories/FftProps.v
theories/RotModel.v
theories/RotSpec.v
theories/RotProofs.v
theories/RotProps.v
theories/NlModel.v
theories/NlSpec.v
theories/NlProofs.v
theories/NlProps.v
theories/Ofield.v
theories/CgModel.v
theories/CgSpec.v
theories/CgProofs.v
theories/CgProps.v
theories/RedModel.v
theories/RedSpec.v
theories/RedProofs.v
theories/DenseModel.v
theories/DenseSpec.v
theories/DenseProofs.v
theories/RedProps.v
theories/TodModel.v
theories/TodSpec.v
theories/TodProofs.v
theories/TodProps.v
theories/PowModel.v
theories/PowSpec.v
theories/PowProofs.v
theories/PowProps.v
theories/RealField.v
theories/LanModel.v
theories/LanSpec.v
theories/LanProofs.v
theories/LanProps.v
theories/CritModel.v
theories/CritSpec.v
theories/CritProofs.v
theories/CritSums.v
theories/CritCalc.v
theories/CritProps.v
theories/Matrix.v
theories/AcgModel.v
theories/AcgSpec.v
theories/AcgProofs.v
theories/AcgFacts.v
theories/AcgProps.v
theories/AttrModel.v
theories/AttrSpec.v
theories/AttrProofs.v
theories/AttrProps.v
theories/SpmdModel.v
theories/SpmdSpec.v
theories/SpmdProofs.v
theories/SpmdOps.v
theories/SpmdPcg.v
theories/SpmdProps.v
theories/DtypeModel.v
theories/DtypeSpec.v
theories/DtypeProofs.v
theories/DtypeProps.v
theories/SparseModel.v
theories/SparseSpec.v
theories/SparseProofs.v
theories/SparseProps.v
theories/SphereModel.v
theories/SphereSpec.v
theories/SphereProofs.v
theories/SphereProps.v
theories/DliModel.v
theories/DliSpec.v
theories/DliProofs.v
theories/DliProps.v
theories/CommsModel.v
theories/CommsSpec.v
theories/CommsProofs.v
theories/CommsProps.v
theories/EqModel.v
theories/EqSpec.v
theories/EqProofs.v
theories/EqProps.v
theories/WaveModel.v
theories/WaveSpec.v
theories/WaveProofs.v
theories/WaveProps.v
theories/DistModel.v
theories/DistSpec.v
theories/DistProofs.v
theories/DistBlocks.v
theories/DistProps.v
theories/CalcBlocks.v
theories/NexModel.v
theories/NexSpec.v
theories/NexProofs.v
theories/NexProps.v
theories/CmpModel.v
theories/CmpSpec.v
theories/CmpProofs.v
theories/CmpProps.v
theories/CalcEnds.v
theories/LgmModel.v
theories/LgmSpec.v
theories/LgmProofs.v
theories/LgmProps.v
theories/AdjModel.v
theories/AdjSpec.v
theories/AdjProofs.v
theories/AdjProps.v
theories/AriModel.v
theories/AriSpec.v
theories/AriProofs.v
theories/AriProps.v
theories/StrModel.v
theories/StrSpec.v
theories/StrProofs.v
theories/StrProps.v
theories/LifeModel.v
theories/LifeSpec.v
theories/LifeProofs.v
theories/LifeProps.v
theories/VarModel.v
theories/VarSpec.v
theories/VarProofs.v
theories/VarProps.v
theories/ReshModel.v
theories/ReshSpec.v
theories/ReshProofs.v
theories/ReshProps.v
theories/ExtrModel.v
theories/ExtrSpec.v
theories/ExtrProofs.v
theories/ExtrProps.v
theories/StopModel.v
theories/StopSpec.v
theories/StopProofs.v
theories/StopProps.v
theories/RecurModel.v
theories/RecurSpec.v
theories/RecurProofs.v
theories/RecurProps.v
theories/EnvModel.v
theories/EnvSpec.v
theories/EnvProofs.v
theories/EnvProps.v
theories/NormModel.v
theories/NormSpec.v
theories/NormProofs.v
theories/NormProps.v
theories/ReportModel.v
theories/ReportSpec.v
theories/ReportProofs.v
theories/ReportProps.v
theories/LabelModel.v
theories/LabelSpec.v
theories/LabelProofs.v
theories/LabelProps.v
theories/ReprModel.v
theories/ReprSpec.v
theories/ReprProofs.v
theories/ReprProps.v
theories/EigModel.v
theories/EigSpec.v
theories/EigProofs.v
theories/EigProps.v
theories/FootModel.v
theories/FootSpec.v
theories/FootProofs.v
theories/FootProps.v
theories/MsgModel.v
theories/MsgSpec.v
theories/MsgProofs.v
theories/MsgProps.v
