-Q theories Verif
theories/Base.v
theories/BaseProofs.v
theories/CalDBModel.v
theories/CalDBSpec.v
theories/CalDBProofs.v
theories/CalDBQueryProofs.v
theories/CalDBDiskProofs.v
theories/CalDBProps.v
theories/DatasetModel.v
theories/DatasetSpec.v
theories/DatasetProofs.v
theories/DatasetCopyProofs.v
theories/DatasetSliceProofs.v
theories/DatasetErrProofs.v
theories/DatasetQuadProofs.v
theories/DatasetProps.v
theories/SplitModel.v
theories/SplitSpec.v
theories/SplitProofs.v
theories/SplitProps.v
theories/LevelModel.v
theories/LevelSpec.v
theories/LevelProofs.v
theories/LevelProps.v
theories/CombineModel.v
theories/CombineSpec.v
theories/CombineProofs.v
theories/CombineProps.v
theories/CosmicModel.v
theories/CosmicSpec.v
theories/CosmicProofs.v
theories/CosmicProps.v
theories/FloatModel.v
theories/NonlinModel.v
theories/NonlinSpec.v
theories/NonlinProofs.v
theories/NonlinProps.v
theories/DqModel.v
theories/DqSpec.v
theories/DqProofs.v
theories/DqProps.v
theories/BitsModel.v
theories/BitsProofs.v
theories/BitsProps.v
theories/SelectModel.v
theories/SelectSpec.v
theories/SelectProofs.v
theories/SelectProps.v
theories/DesmearModel.v
theories/DesmearSpec.v
theories/DesmearProofs.v
theories/DesmearProps.v
theories/GeomModel.v
theories/GeomSpec.v
theories/GeomProofs.v
theories/GeomBiasProofs.v
theories/GeomProps.v
theories/DarkModel.v
theories/DarkSpec.v
theories/DarkProofs.v
theories/DarkTradProofs.v
theories/DarkSynthProofs.v
theories/DarkProps.v
theories/UnitsModel.v
theories/UnitsSpec.v
theories/UnitsProofs.v
theories/UnitsProps.v
theories/StackModel.v
theories/StackSpec.v
theories/StackProofs.v
theories/StackKgProofs.v
theories/StackCorProofs.v
theories/DriftModel.v
theories/DriftSpec.v
theories/DriftProofs.v
theories/StackProps.v
theories/WalkModel.v
theories/WalkSpec.v
theories/WalkStrProofs.v
theories/WalkProofs.v
theories/WalkRunProofs.v
theories/WalkGenProofs.v
theories/WalkProps.v
theories/RecipeData.v
theories/RecipeModel.v
theories/RecipeSpec.v
theories/RecipeProofs.v
theories/RecipeCheckProofs.v
theories/RecipeProps.v
theories/TimeModel.v
theories/TimeSpec.v
theories/TimeProofs.v
theories/TimeTextProofs.v
theories/TimeProps.v
theories/PcModel.v
theories/PcSpec.v
theories/PcMathProofs.v
theories/PcProofs.v
theories/PcBinProofs.v
theories/PcRunProofs.v
theories/PcTopProofs.v
theories/PcFactsProofs.v
theories/PcExProofs.v
theories/PcProps.v
theories/SortModel.v
theories/SortSpec.v
theories/SortNameProofs.v
theories/SortRunProofs.v
theories/SortGroupProofs.v
theories/SortSeqProofs.v
theories/SortTopProofs.v
theories/SortFactsProofs.v
theories/SortProps.v
theories/CropModel.v
theories/CropSpec.v
theories/CropProofs.v
theories/CropProps.v
theories/AngleModel.v
theories/AngleSpec.v
theories/AngleProofs.v
theories/AngleProps.v
theories/ComboModel.v
theories/ComboSpec.v
theories/ComboGenProofs.v
theories/ComboProofs.v
theories/ComboFactsProofs.v
theories/ComboProps.v
theories/BpmModel.v
theories/BpmSpec.v
theories/BpmProofs.v
theories/BpmProps.v
theories/NearModel.v
theories/NearSpec.v
theories/NearProofs.v
theories/NearFactsProofs.v
theories/NearProps.v
theories/FindModel.v
theories/FindSpec.v
theories/FindProofs.v
theories/FindSubProofs.v
theories/FindLoopProofs.v
theories/FindExProofs.v
theories/FindProps.v
theories/CardModel.v
theories/CardSpec.v
theories/CardProofs.v
theories/CardProps.v
theories/IllModel.v
theories/IllSpec.v
theories/IllProofs.v
theories/IllProps.v
theories/DipoleModel.v
theories/DipoleSpec.v
theories/DipoleProofs.v
theories/DipoleSumProofs.v
theories/DipoleTopProofs.v
theories/DipoleProps.v
theories/TrapModel.v
theories/TrapSpec.v
theories/TrapProofs.v
theories/TrapProps.v
theories/StarModel.v
theories/StarSpec.v
theories/StarProofs.v
theories/StarRunProofs.v
theories/StarProps.v
theories/NdModel.v
theories/NdSpec.v
theories/NdProofs.v
theories/NdRunProofs.v
theories/NdTopProofs.v
theories/NdEndProofs.v
theories/NdFactsProofs.v
theories/NdProps.v
theories/LocModel.v
theories/LocSpec.v
theories/LocProofs.v
theories/LocRunProofs.v
theories/LocFactsProofs.v
theories/LocProps.v
theories/TrackModel.v
theories/TrackSpec.v
theories/TrackProofs.v
theories/TrackRunProofs.v
theories/TrackTopProofs.v
theories/TrackProps.v
theories/KlipModel.v
theories/KlipSpec.v
theories/KlipProofs.v
theories/KlipTopProofs.v
theories/KlipNameProofs.v
theories/KlipProps.v
theories/FlatModel.v
theories/FlatSpec.v
theories/FlatProofs.v
theories/FlatRunProofs.v
theories/FlatTopProofs.v
theories/FlatDemoProofs.v
theories/FlatProps.v
theories/FluxModel.v
theories/FluxSpec.v
theories/FluxProofs.v
theories/FluxBandProofs.v
theories/FluxTopProofs.v
theories/FluxRunProofs.v
theories/FluxLawProofs.v
theories/FluxDemoProofs.v
theories/FluxProps.v
theories/CtModel.v
theories/CtSpec.v
theories/CtProofs.v
theories/CtSetProofs.v
theories/CtDataProofs.v
theories/CtInterpProofs.v
theories/CtMapProofs.v
theories/CtLawProofs.v
theories/CtFactProofs.v
theories/CtDemoProofs.v
theories/CtProps.v
theories/NoiseModel.v
theories/NoiseSpec.v
theories/NoiseFitProofs.v
theories/NoiseProofs.v
theories/NoiseTopProofs.v
theories/NoiseMainProofs.v
theories/NoiseLawProofs.v
theories/NoiseMoreProofs.v
theories/NoiseDemoProofs.v
theories/NoiseProps.v
theories/SetupModel.v
theories/SetupSpec.v
theories/SetupProofs.v
theories/SetupConfigProofs.v
theories/SetupDbProofs.v
theories/SetupStartProofs.v
theories/SetupRefuteProofs.v
theories/SetupProps.v
theories/ThruModel.v
theories/ThruSpec.v
theories/ThruProofs.v
theories/ThruInjectProofs.v
theories/ThruTableProofs.v
theories/ThruRunProofs.v
theories/ThruLawProofs.v
theories/ThruProps.v
theories/FrnModel.v
theories/FrnSpec.v
theories/FrnProofs.v
theories/FrnRunProofs.v
theories/FrnLawProofs.v
theories/FrnProps.v
theories/KgainModel.v
theories/KgainSpec.v
theories/KgainProofs.v
theories/KgainCurveProofs.v
theories/KgainRunProofs.v
theories/KgainLawProofs.v
theories/KgainTopProofs.v
theories/KgainProps.v
theories/DriveModel.v
theories/DriveSpec.v
theories/DriveProofs.v
theories/DriveLawProofs.v
theories/DriveProps.v
theories/DiskModel.v
theories/DiskSpec.v
theories/DiskProofs.v
theories/DiskLawProofs.v
theories/DiskProps.v
theories/ProdModel.v
theories/ProdSpec.v
theories/ProdTextProofs.v
theories/ProdProofs.v
theories/ProdLawProofs.v
theories/ProdNewProofs.v
theories/ProdParsProofs.v
theories/ProdProps.v
theories/PumpModel.v
theories/PumpSpec.v
theories/PumpProofs.v
theories/PumpRunProofs.v
theories/PumpTopProofs.v
theories/PumpLawProofs.v
theories/PumpUseProofs.v
theories/PumpCaseProofs.v
theories/PumpProps.v
theories/TauModel.v
theories/TauSpec.v
theories/TauProofs.v
theories/TauLawProofs.v
theories/TauFitProofs.v
theories/TauBinProofs.v
theories/TauCaseProofs.v
theories/TauProps.v
theories/SpotModel.v
theories/SpotSpec.v
theories/SpotProofs.v
theories/SpotFitProofs.v
theories/SpotSearchProofs.v
theories/SpotTopProofs.v
theories/SpotMoveProofs.v
theories/SpotNumpyProofs.v
theories/SpotFoundProofs.v
theories/SpotCaseProofs.v
theories/SpotProps.v
theories/BendModel.v
theories/BendSpec.v
theories/BendProofs.v
theories/BendFitProofs.v
theories/BendCaseProofs.v
theories/BendProps.v
theories/PeakModel.v
theories/PeakSpec.v
theories/PeakProofs.v
theories/PeakTopProofs.v
theories/PeakProps.v
theories/BoreModel.v
theories/BoreSpec.v
theories/BoreProofs.v
theories/BoreCaseProofs.v
theories/BoreProps.v
theories/ShiftModel.v
theories/ShiftSpec.v
theories/ShiftProofs.v
theories/ShiftProps.v
theories/OdModel.v
theories/OdSpec.v
theories/OdProofs.v
theories/OdProps.v
theories/UtcModel.v
theories/UtcSpec.v
theories/UtcProofs.v
theories/UtcTextProofs.v
theories/UtcMainProofs.v
theories/UtcProps.v
theories/CompModel.v
theories/CompSpec.v
theories/CompProofs.v
theories/CompMainProofs.v
theories/CompLawProofs.v
theories/CompProps.v
theories/PhotModel.v
theories/PhotSpec.v
theories/PhotProofs.v
theories/PhotCalProofs.v
theories/PhotLawProofs.v
theories/PhotProps.v
theories/PsubModel.v
theories/PsubSpec.v
theories/PsubProofs.v
theories/PsubMainProofs.v
theories/PsubLawProofs.v
theories/PsubProps.v
theories/NlTabModel.v
theories/NlTabSpec.v
theories/NlTabProofs.v
theories/NlTabColProofs.v
theories/NlTabLawProofs.v
theories/NlTabCaseProofs.v
theories/NlTabProps.v
theories/ChkValModel.v
theories/ChkValSpec.v
theories/ChkValProofs.v
theories/ChkValMainProofs.v
theories/ChkValLawProofs.v
theories/ChkValProps.v
theories/AliasModel.v
theories/AliasSpec.v
theories/AliasProofs.v
theories/AliasMainProofs.v
theories/AliasValProofs.v
theories/AliasExample.v
theories/AliasLawProofs.v
theories/AliasProps.v
theories/RnHistModel.v
theories/RnHistSpec.v
theories/RnHistProofs.v
theories/RnHistMainProofs.v
theories/RnHistLawProofs.v
theories/RnHistExample.v
theories/RnHistProps.v
theories/InjModel.v
theories/InjSpec.v
theories/InjProofs.v
theories/InjLawProofs.v
theories/InjProps.v
theories/ReuseModel.v
theories/ReuseSpec.v
theories/ReuseProofs.v
theories/ReuseLawProofs.v
theories/ReuseProps.v
