-Q theories Verif
theories/AngularModel.v
theories/AngularProps.v
theories/AntModel.v
theories/AntProofs.v
theories/AntProps.v
theories/AntSpec.v
theories/AxesProps.v
theories/BeamAxisProps.v
theories/BeamPModel.v
theories/BeamPProps.v
theories/BettiModel.v
theories/BinModel.v
theories/BinProofs.v
theories/BinProps.v
theories/BinSpec.v
theories/BinningModel.v
theories/BinningProofs.v
theories/BinningProps.v
theories/BinningSpec.v
theories/BispecModel.v
theories/BispecProps.v
theories/BubbleModel.v
theories/BubbleProps.v
theories/CallModel.v
theories/CallProps.v
theories/CoevalModel.v
theories/CoevalProps.v
theories/ConstInitProps.v
theories/ConstModel.v
theories/ConstProps.v
theories/ConstSpec.v
theories/ConvModel.v
theories/ConvProofs.v
theories/ConvProps.v
theories/ConvSpec.v
theories/CorrModel.v
theories/CorrProps.v
theories/CubeEuler.v
theories/CubeModel.v
theories/CubeOneProofs.v
theories/CubeOneProps.v
theories/CubeProofs.v
theories/CubeProps.v
theories/CubeSpec.v
theories/CubepModel.v
theories/CubepProps.v
theories/DftLib.v
theories/DiagModel.v
theories/DiagProps.v
theories/DimsModel.v
theories/DimsProps.v
theories/DistModel.v
theories/DistProps.v
theories/FastCylModel.v
theories/FastCylProps.v
theories/FastModel.v
theories/FastProps.v
theories/FastSlowProps.v
theories/FindIdxModel.v
theories/FindIdxProps.v
theories/FindIdxSpec.v
theories/FitModel.v
theories/FitProps.v
theories/FitsModel.v
theories/FitsProps.v
theories/FloodModel.v
theories/FloodProps.v
theories/FofModel.v
theories/FofProofs.v
theories/FofProps.v
theories/FofSpec.v
theories/ForegroundModel.v
theories/ForegroundProps.v
theories/FourierModel.v
theories/FourierProofs.v
theories/FourierProps.v
theories/FourierSpec.v
theories/GainCountModel.v
theories/GainCountProps.v
theories/GainInModel.v
theories/GainInProps.v
theories/GainModel.v
theories/GainProps.v
theories/GenusHoleProps.v
theories/GenusModel.v
theories/GenusProps.v
theories/GeoModel.v
theories/GeoProps.v
theories/GrfModel.v
theories/GrfProps.v
theories/HaloCellProps.v
theories/HaloFullProps.v
theories/HaloGridModel.v
theories/HaloGridProps.v
theories/HaloModel.v
theories/HaloProps.v
theories/HaloValueModel.v
theories/HaloValueProps.v
theories/IntDistModel.v
theories/IntDistProps.v
theories/KGridModel.v
theories/KGridProps.v
theories/KGridSpec.v
theories/LcCellModel.v
theories/LcCellProps.v
theories/LcDistProps.v
theories/LcFreqProps.v
theories/LcInterpModel.v
theories/LcInterpProps.v
theories/LcModel.v
theories/LcProofs.v
theories/LcProps.v
theories/LcSpec.v
theories/LcWholeModel.v
theories/LcWholeProps.v
theories/LineModel.v
theories/LineProps.v
theories/LosModel.v
theories/LosProps.v
theories/LsqModel.v
theories/LsqProps.v
theories/LyaModel.v
theories/LyaProps.v
theories/MagModel.v
theories/MagProps.v
theories/MassProps.v
theories/MeshModel.v
theories/MeshProps.v
theories/MetricModel.v
theories/MetricProps.v
theories/MfpModel.v
theories/MfpProps.v
theories/MfpSpec.v
theories/MorphModel.v
theories/MorphProps.v
theories/NamesModel.v
theories/NamesProps.v
theories/NbodyModel.v
theories/NbodyProps.v
theories/NoiseEdgesProps.v
theories/NoiseModel.v
theories/NoiseProps.v
theories/NoisePsModel.v
theories/NoisePsProps.v
theories/ObjModel.v
theories/ObjProps.v
theories/PadModel.v
theories/PadProps.v
theories/PercModel.v
theories/PercProps.v
theories/PercSpec.v
theories/PhaseModel.v
theories/PhaseProps.v
theories/PkdIoModel.v
theories/PkdIoProps.v
theories/PkdModel.v
theories/PkdProps.v
theories/PlotModel.v
theories/PlotProps.v
theories/PointModel.v
theories/PointProps.v
theories/ProbLib.v
theories/PvBoxModel.v
theories/PvBoxProps.v
theories/PvModel.v
theories/PvPeriodicProps.v
theories/PvProps.v
theories/PvShiftProps.v
theories/PyBase.v
theories/PyBaseProofs.v
theories/QLib.v
theories/RLib.v
theories/RegionModel.v
theories/RegionProps.v
theories/RockModel.v
theories/RockProps.v
theories/RollModel.v
theories/RollProps.v
theories/RotModel.v
theories/RotProps.v
theories/RotSpec.v
theories/ScopeModel.v
theories/ScopeProps.v
theories/SegModel.v
theories/SegProps.v
theories/SizeDistModel.v
theories/SizeDistProps.v
theories/SizeDistSpec.v
theories/SizeMoreProps.v
theories/SlicModel.v
theories/SlicProps.v
theories/SlideModel.v
theories/SlideProps.v
theories/SmoothLcModel.v
theories/SmoothLcProps.v
theories/SmoothModel.v
theories/SmoothProps.v
theories/SnapModel.v
theories/SnapProps.v
theories/SourceModel.v
theories/SourceProps.v
theories/SpaBallProps.v
theories/SpaModel.v
theories/SpaProps.v
theories/SpecModel.v
theories/SpecProps.v
theories/StatsModel.v
theories/StatsProps.v
theories/StatsSpec.v
theories/StepCellModel.v
theories/StepCellProps.v
theories/SubboxModel.v
theories/SubboxProps.v
theories/SubvolModel.v
theories/SubvolProps.v
theories/SuperScoreModel.v
theories/SuperScoreProps.v
theories/SuperpixelModel.v
theories/SuperpixelProps.v
theories/SuperpixelSpec.v
theories/SynchModel.v
theories/SynchProps.v
theories/TauModel.v
theories/TauProps.v
theories/TempLcModel.v
theories/TempLcProps.v
theories/TempModel.v
theories/TempProps.v
theories/TriModel.v
theories/TriProps.v
theories/UnitsModel.v
theories/UnitsProps.v
theories/UvCacheModel.v
theories/UvCacheProofs.v
theories/UvCacheProps.v
theories/UvCacheSpec.v
theories/UvCutProps.v
theories/UvGridModel.v
theories/UvGridProofs.v
theories/UvGridProps.v
theories/UvGridSpec.v
theories/UvImageModel.v
theories/UvImageProps.v
theories/UvOldModel.v
theories/UvOldProps.v
theories/UvSmoothModel.v
theories/UvSmoothProps.v
theories/VoigtModel.v
theories/VoigtProps.v
theories/WedgeModel.v
theories/WedgeProps.v
theories/WindowModel.v
theories/WindowProps.v
theories/WsBinsProps.v
theories/WsModel.v
theories/WsProps.v
theories/XfObjModel.v
theories/XfObjProps.v
