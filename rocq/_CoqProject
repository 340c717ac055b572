-Q theories Verif
theories/ActModel.v
theories/ActProps.v
theories/ActSpec.v
theories/BatModel.v
theories/BatProofs.v
theories/BatProps.v
theories/BatSpec.v
theories/BatchModel.v
theories/BatchProofs.v
theories/BatchProofs2.v
theories/BatchProps.v
theories/BatchSpec.v
theories/BestProps.v
theories/BndModel.v
theories/BndProps.v
theories/BoxProps.v
theories/BudModel.v
theories/BudProps.v
theories/CBagModel.v
theories/CBagProofs.v
theories/CBagSpec.v
theories/CListLanes.v
theories/CListProofs.v
theories/CListRefine.v
theories/CMemProofs.v
theories/CemModel.v
theories/CemProofs.v
theories/CfgModel.v
theories/CfgProps.v
theories/CfgSpec.v
theories/ChainProps.v
theories/CinModel.v
theories/CinProps.v
theories/ClipUpModel.v
theories/ClipUpProofs.v
theories/ClipUpProps.v
theories/ClipUpSpec.v
theories/CloneModel.v
theories/CloneProofs.v
theories/CloneProofs2.v
theories/CloneProofs3.v
theories/CloneProps.v
theories/CloneSpec.v
theories/CmaModel.v
theories/CmaProofs.v
theories/CmaProofs2.v
theories/CmaProofs3.v
theories/CmaProofs4.v
theories/CmaProps.v
theories/CmaSpec.v
theories/CoeProps.v
theories/ConModel.v
theories/ConProofs.v
theories/ConProofs2.v
theories/ConProofs3.v
theories/ConProps.v
theories/ConProps2.v
theories/ConSpec.v
theories/ConstrModel.v
theories/ConstrProofs.v
theories/ConstrProps.v
theories/ConstrSpec.v
theories/CtrModel.v
theories/CtrProps.v
theories/CutProps.v
theories/DevModel.v
theories/DevProps.v
theories/DevSpec.v
theories/DistModel.v
theories/DistProofs.v
theories/DistProps.v
theories/DistSpec.v
theories/DivProps.v
theories/DsModel.v
theories/DsProps.v
theories/DualProps.v
theories/EnvModel.v
theories/EnvProofs.v
theories/EnvProps.v
theories/EnvSpec.v
theories/EstModel.v
theories/EstProofs.v
theories/EstProps.v
theories/EstSpec.v
theories/EvalModel.v
theories/EvalProofs.v
theories/EvalProofs2.v
theories/EvalProps.v
theories/EvalSpec.v
theories/EvpProps.v
theories/ExpProps.v
theories/ExtQ.v
theories/ExtR.v
theories/FlatProps.v
theories/FlatcProps.v
theories/FlatxProps.v
theories/FloatLib.v
theories/FpModel.v
theories/FpProofs.v
theories/FpProps.v
theories/FrModel.v
theories/FrProofs.v
theories/FrProps.v
theories/FuncModel.v
theories/FuncProofs.v
theories/FuncProofs2.v
theories/FuncProofs3.v
theories/FuncProps.v
theories/FuncSpec.v
theories/GaModel.v
theories/GaProofs.v
theories/GaProofs2.v
theories/GaProofs3.v
theories/GaProofs4.v
theories/GaProps.v
theories/GaSpec.v
theories/ImmModel.v
theories/ImmProps.v
theories/KeepProps.v
theories/LayModel.v
theories/LayProofs.v
theories/LayProofs2.v
theories/LayProps.v
theories/LaySpec.v
theories/LgModel.v
theories/LgProps.v
theories/LgSpec.v
theories/LifeModel.v
theories/LifeProofs.v
theories/LifeProps.v
theories/LoopModel.v
theories/LoopProofs.v
theories/LoopProofs2.v
theories/LoopProps.v
theories/LoopSpec.v
theories/MakeModel.v
theories/MakeProps.v
theories/MakeSpec.v
theories/MapModel.v
theories/MapProofs.v
theories/MapProofs2.v
theories/MapProps.v
theories/MapSpec.v
theories/MatLib.v
theories/MonProps.v
theories/MonxProps.v
theories/MoveProps.v
theories/MrProps.v
theories/NarModel.v
theories/NarProps.v
theories/NdimModel.v
theories/NdimProofs.v
theories/NdimProps.v
theories/NdimSpec.v
theories/NeModel.v
theories/NeProofs.v
theories/NeProps.v
theories/NetModel.v
theories/NetProofs.v
theories/NetProofs2.v
theories/NetProps.v
theories/NetSpec.v
theories/NewModel.v
theories/NewProps.v
theories/NewSpec.v
theories/NiModel.v
theories/NiProps.v
theories/NiSpec.v
theories/NormModel.v
theories/NormProofs.v
theories/NormProofs2.v
theories/NormProofs3.v
theories/NormProps.v
theories/NormSpec.v
theories/ObjModel.v
theories/ObjProofs.v
theories/ObjProofs2.v
theories/ObjProps.v
theories/ObjSpec.v
theories/OneProps.v
theories/OperModel.v
theories/OperProofs.v
theories/OperProofs2.v
theories/OperProofs3.v
theories/OperProofs4.v
theories/OperProps.v
theories/OperSpec.v
theories/OrdProps.v
theories/OvlProps.v
theories/ParamModel.v
theories/ParamProofs.v
theories/ParamProps.v
theories/ParamSpec.v
theories/ParetoModel.v
theories/ParetoProofs.v
theories/ParetoProofs2.v
theories/ParetoProofs3.v
theories/ParetoProps.v
theories/ParetoSpec.v
theories/PgpeModel.v
theories/PgpeProofs.v
theories/PgpeProofs2.v
theories/PgpeProofs3.v
theories/PgpeProps.v
theories/PgpeSpec.v
theories/PolModel.v
theories/PolProofs.v
theories/PolProofs2.v
theories/PolProofs3.v
theories/PolProofs4.v
theories/PolProps.v
theories/PolSpec.v
theories/Prelude.v
theories/PrnModel.v
theories/PrnProps.v
theories/PrnSpec.v
theories/PyModel.v
theories/PyProps.v
theories/PySpec.v
theories/RandModel.v
theories/RandProofs.v
theories/RandProps.v
theories/RandSpec.v
theories/RankModel.v
theories/RankProofs.v
theories/RankProps.v
theories/RankSpec.v
theories/ReachProps.v
theories/RecProps.v
theories/ReevProps.v
theories/RepModel.v
theories/RepProofs.v
theories/RepProps.v
theories/RepSpec.v
theories/RoModel.v
theories/RoProofs.v
theories/RoProps.v
theories/RoSpec.v
theories/RollModel.v
theories/RollProofs.v
theories/RollProofs2.v
theories/RollProps.v
theories/RollSpec.v
theories/SafModel.v
theories/SafProps.v
theories/ScoreProofs.v
theories/ScoreProps.v
theories/SeedModel.v
theories/SeedProps.v
theories/SepProps.v
theories/SigmaModel.v
theories/SigmaProofs.v
theories/SigmaProofs2.v
theories/SigmaProps.v
theories/SigmaSpec.v
theories/SortLib.v
theories/SpaceModel.v
theories/SpaceProps.v
theories/SpaceSpec.v
theories/StaleModel.v
theories/StaleProofs.v
theories/StructExtra.v
theories/StructModel.v
theories/StructMultiBatchModel.v
theories/StructMultiBatchProofs.v
theories/StructProps.v
theories/StructSpec.v
theories/SupModel.v
theories/SupProofs.v
theories/SupProps.v
theories/SupSpec.v
theories/SvModel.v
theories/SvProps.v
theories/SymProps.v
theories/SyncModel.v
theories/SyncProofs.v
theories/SyncProofs2.v
theories/SyncSpec.v
theories/TestModel.v
theories/TestProps.v
theories/TestSpec.v
theories/TmModel.v
theories/TmProps.v
theories/TmSpec.v
theories/TyModel.v
theories/TyProps.v
theories/TySpec.v
theories/UniProps.v
theories/UpProps.v
theories/VecModel.v
theories/VecProps.v
theories/VecSpec.v
theories/VgModel.v
theories/VgProps.v
theories/VgSpec.v
theories/WorkModel.v
theories/WorkProofs.v
theories/WorkProofs2.v
theories/WorkProps.v
theories/WorkSpec.v
theories/WrapModel.v
theories/WrapProps.v
theories/WrapSpec.v
theories/XafModel.v
theories/XafProps.v
theories/XnesModel.v
theories/XnesProofs.v
theories/XnesProps.v
theories/XnesSpec.v
theories/XscProps.v
