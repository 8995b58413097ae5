-Q theories Verif
theories/Base.v
theories/RList.v
theories/Ext.v
theories/Sums.v
theories/SmcModel.v
theories/SmcSpec.v
theories/SmcProofs.v
theories/SmcProofs2.v
theories/RiskModel.v
theories/RiskSpec.v
theories/RiskProofs.v
theories/RiskProps.v
theories/RiskProps2.v
theories/ConjSpec.v
theories/ConjProofs.v
theories/ConjProps.v
theories/DecSpec.v
theories/DecProofs.v
theories/DecProps.v
theories/NearProps.v
theories/DirSpec.v
theories/DirProofs.v
theories/DirProps.v
theories/RepSpec.v
theories/RepProps.v
theories/RiskProofs2.v
theories/SmcProofs3.v
theories/SmcDemo.v
theories/SmcProps.v
theories/PartModel.v
theories/PartSpec.v
theories/PartProofs.v
theories/PartProps.v
theories/LwModel.v
theories/LwProofs.v
theories/LwSpec.v
theories/LwProofs2.v
theories/LwProofs3.v
theories/LwProofs4.v
theories/LwProps.v
theories/DomModel.v
theories/DomSpec.v
theories/DomProofs.v
theories/DomProofs2.v
theories/DomProps.v
theories/SimModel.v
theories/SimSpec.v
theories/SimProofs.v
theories/StackModel.v
theories/StackSpec.v
theories/StackProofs.v
theories/StackProps.v
theories/TwoModel.v
theories/TwoProofs.v
theories/TwoProofs2.v
theories/TwoProps.v
theories/FishProps.v
theories/DerModel.v
theories/DerSpec.v
theories/DerProofs.v
theories/DerProofs2.v
theories/DerProps.v
theories/UtilModel.v
theories/UtilSpec.v
theories/UtilProofs.v
theories/UtilProps.v
theories/DistModel.v
theories/DistSpec.v
theories/DistProofs.v
theories/DistProofs2.v
theories/DistProps.v
theories/DesModel.v
theories/DesProps.v
theories/ParModel.v
theories/ParProofs.v
theories/ParProps.v
theories/Cplx.v
theories/TomoModel.v
theories/TomoSpec.v
theories/TomoProofs.v
theories/TomoProofs2.v
theories/TomoProofs3.v
theories/TomoProps.v
theories/TomoProps2.v
theories/MiscModel.v
theories/MiscSpec.v
theories/MiscProofs.v
theories/MiscProofs2.v
theories/MiscProofs3.v
theories/MiscProps.v
theories/LinAlg.v
theories/LinProofs.v
theories/RegSpec.v
theories/RegModel.v
theories/RegProofs.v
theories/RegProofs2.v
theories/RegProps.v
theories/RoSpec.v
theories/RoModel.v
theories/RoProofs.v
theories/RoProofs2.v
theories/RoProps.v
theories/RoProofs3.v
theories/RoProps2.v
theories/SmcProps2.v
theories/MomModel.v
theories/MomSpec.v
theories/MomProofs.v
theories/MomProofs2.v
theories/MomProps.v
theories/StackProps2.v
theories/TwoProps2.v
theories/StateModel.v
theories/StateProps.v
theories/InterpModel.v
theories/InterpProps.v
theories/HeurModel.v
theories/HeurProofs.v
theories/HeurProps.v
theories/SimpleModel.v
theories/SimpleProofs.v
theories/SimpleProps.v
theories/SimpleProps2.v
theories/DesProps2.v
theories/MultModel.v
theories/MultSpec.v
theories/MultProofs.v
theories/MultProps.v
theories/RegSpec2.v
theories/RegProofs3.v
theories/RegProofs4.v
theories/RegProps2.v
theories/FmtModel.v
theories/FmtSpec.v
theories/FmtProofs.v
theories/FmtProps.v
theories/CountProofs.v
theories/CountProps.v
theories/LearnSpec.v
theories/LearnProofs.v
theories/LearnProps.v
theories/LegModel.v
theories/LegProofs.v
theories/LegProps.v
theories/MatModel.v
theories/MatSpec.v
theories/MatProofs.v
theories/MatProofs2.v
theories/MatProps.v
theories/ReModel.v
theories/ReSpec.v
theories/ReProofs.v
theories/ReProofs2.v
theories/ReProofs3.v
theories/ReProps.v
theories/VarProps.v
theories/PartProofs2.v
theories/PartProofs3.v
theories/PartProps2.v
theories/PerfModel.v
theories/PerfSpec.v
theories/PerfProofs.v
theories/PerfProps.v
theories/PlotModel.v
theories/PlotSpec.v
theories/PlotProofs.v
theories/PlotProps.v
theories/PlotProps2.v
theories/MixModel.v
theories/MixSpec.v
theories/MixProofs.v
theories/MixProps.v
theories/RateSpec.v
theories/RateProofs.v
theories/RateProps.v
theories/FltModel.v
theories/FltSpec.v
theories/FltProofs.v
theories/FltProps.v
theories/FltSpec2.v
theories/FltProofs2.v
theories/FltProps2.v
theories/GfModel.v
theories/GfSpec.v
theories/GfProofs.v
theories/GfProps.v
theories/FcModel.v
theories/FcProofs.v
theories/FcProps.v
theories/ConvSpec.v
theories/ConvProofs.v
theories/ConvProofs2.v
theories/ConvProps.v
theories/Nd.v
theories/NdModel.v
theories/NdModel2.v
theories/NdSpec.v
theories/NdProofs.v
theories/NdProofs2.v
theories/NdProofs3.v
theories/NdProps.v
theories/NdProps2.v
theories/PfSpec.v
theories/PfProofs.v
theories/PfProofs2.v
theories/PfProofs3.v
theories/PfProps.v
theories/UbSpec.v
theories/UbProofs.v
theories/UbProofs2.v
theories/UbProps.v
theories/ClsModel.v
theories/ClsSpec.v
theories/ClsProofs.v
theories/ClsProofs2.v
theories/ClsProps.v
theories/CalSpec.v
theories/CalProofs.v
theories/CalProps.v
theories/ExpModel.v
theories/ExpSpec.v
theories/ExpProofs.v
theories/ExpProps.v
theories/IgSpec.v
theories/IgProofs.v
theories/IgProps.v
theories/VerModel.v
theories/VerSpec.v
theories/VerProofs.v
theories/VerProps.v
theories/LtxModel.v
theories/LtxSpec.v
theories/LtxProofs.v
theories/LtxProps.v
theories/LabModel.v
theories/LabSpec.v
theories/LabProofs.v
theories/LabProps.v
theories/LabProps2.v
theories/CfgModel.v
theories/CfgProofs.v
theories/CfgProps.v
theories/DueModel.v
theories/DueProofs.v
theories/DueProps.v
theories/UtlModel.v
theories/UtlProps.v
theories/EnuModel.v
theories/EnuProps.v
theories/PicModel.v
theories/PicProofs.v
theories/PicProps.v
theories/FigModel.v
theories/FigProps.v
theories/MixSpec2.v
theories/MixProofs2.v
theories/MixProps2.v
theories/SelfModel.v
theories/SelfProofs.v
theories/SelfProps.v
theories/AmpProps.v
theories/CrSpec.v
theories/CrProps.v
theories/VtSpec.v
theories/VtProps.v
theories/SymSpec.v
theories/SymProps.v
theories/MisSpec.v
theories/MisProps.v
theories/UnitSpec.v
theories/UnitProps.v
theories/GuessSpec.v
theories/GuessProps.v
theories/RbSpec.v
theories/RbProps.v
theories/IdProps.v
theories/BfSpec.v
theories/BfProps.v
theories/DispModel.v
theories/DispSpec.v
theories/DispProofs.v
theories/DispProps.v
theories/CaseProps.v
theories/TrkModel.v
theories/TrkProps.v
theories/HeapModel.v
theories/HeapProofs.v
theories/HeapProps.v
theories/DegSpec.v
theories/DegProofs.v
theories/DegProps.v
theories/FreqSpec.v
theories/FreqProofs.v
theories/FreqProps.v
theories/FreqProps2.v
theories/HandModel.v
theories/HandProofs.v
theories/HandProps.v
theories/HandProps2.v
theories/LoopModel.v
theories/LoopProps.v
