-Q theories Verif
theories/Base.v
theories/PyStr.v
theories/SynListModel.v
theories/SynListProofs.v
theories/SynListProps.v
theories/SynListProps2.v
theories/CasModel.v
theories/CasProofs.v
theories/CasProps.v
theories/FlowablesModel.v
theories/FlowablesProofs.v
theories/FlowablesProps.v
theories/FlowablesProps2.v
theories/Num.v
theories/LciaModel.v
theories/LciaProofs.v
theories/LciaProps.v
theories/AutoRangeModel.v
theories/AutoRangeProps.v
theories/ProcModel.v
theories/ProcProofs.v
theories/ProcProps.v
theories/ProcJsonProps.v
theories/BgModel.v
theories/BgProofs.v
theories/BgProofs2.v
theories/BgProofs3.v
theories/BgProofs4.v
theories/BgProofs5.v
theories/BgProps.v
theories/BgProps2.v
theories/BgProps3.v
theories/BgLciModel.v
theories/BgLciProps.v
theories/BgNetProps.v
theories/FlatModel.v
theories/FragModel.v
theories/FragProofs.v
theories/FragProps.v
theories/FragProps2.v
theories/FragProps3.v
theories/FragProps4.v
theories/FragProps5.v
theories/FragProps6.v
theories/ResModel.v
theories/ResProps.v
theories/ResHistProps.v
theories/CompModel.v
theories/CompProps.v
theories/CompProps2.v
theories/CompCacheProps.v
theories/StoreModel.v
theories/StoreProofs.v
theories/StoreProps.v
theories/StoreProps2.v
theories/StoreProps3.v
theories/LowerModel.v
theories/LowerProps.v
theories/FlowModel.v
theories/FlowProps.v
theories/FlowProps2.v
theories/FlowProps3.v
theories/MiscModel.v
theories/MiscProps.v
theories/QdbModel.v
theories/QdbProps.v
theories/QdbProps2.v
theories/QdbProps3.v
theories/FlatProofs.v
theories/FlatProofs2.v
theories/FlatProps.v
theories/FlatMain.v
theories/FlatLci.v
theories/FlatFiles.v
theories/FlatBfs.v
theories/EditModel.v
theories/ObserveProps.v
theories/EditProofs.v
theories/InterposeProps.v
theories/TravSim.v
theories/SplitProofs.v
theories/SplitSim.v
theories/SplitProps.v
theories/TravCopy.v
theories/CloneProofs.v
theories/CloneProps.v
theories/FgModel.v
theories/FgTrav.v
theories/FgDict.v
theories/FgProofs.v
theories/FgTree.v
theories/FgDisk.v
theories/FgMix.v
theories/FgProps.v
theories/CatModel.v
theories/CatProofs.v
theories/CatProps.v
theories/ForestModel.v
theories/ForestProofs.v
theories/ForestProps.v
theories/FarModel.v
theories/FarProofs.v
theories/FarProps.v
theories/DescendProofs.v
theories/DescendProps.v
theories/FfLciaModel.v
theories/FfLciaProofs.v
theories/FfLciaProps.v
theories/FragTreeProps.v
theories/PubModel.v
theories/PubProps.v
theories/ConfModel.v
theories/ConfProofs.v
theories/ConfProofs2.v
theories/ConfProps.v
theories/ConfProps2.v
theories/ConfProps3.v
theories/InvModel.v
theories/InvProps.v
theories/RefModel.v
theories/RefProps.v
theories/RefProps2.v
theories/RefProps3.v
theories/JarModel.v
theories/JarProofs.v
theories/JarProps.v
theories/JarProps2.v
theories/JarProps3.v
theories/TableModel.v
theories/TableProofs.v
theories/TableProps.v
theories/TableProps2.v
theories/QImplModel.v
theories/QImplProofs.v
theories/QImplProps.v
theories/SearchModel.v
theories/SearchProps.v
theories/QcLra.v
theories/ChartModel.v
theories/ChartProofs.v
theories/ChartProps.v
theories/BgFgModel.v
theories/BgFgProofs.v
theories/BgFgLci.v
theories/BgFgProps.v
theories/EcoModel.v
theories/EcoProofs.v
theories/EcoProps.v
theories/OlcaModel.v
theories/OlcaProofs.v
theories/OlcaProps.v
theories/Es2Model.v
theories/Es2Proofs.v
theories/Es2Props.v
theories/IlcdModel.v
theories/IlcdProofs.v
theories/IlcdProps.v
theories/FileModel.v
theories/FileProofs.v
theories/FileProps.v
theories/TraciModel.v
theories/TraciProofs.v
theories/TraciProps.v
theories/EiLciaModel.v
theories/EiLciaProofs.v
theories/EiLciaProps.v
theories/DescModel.v
theories/DescProofs.v
theories/DescProps.v
theories/EiSheetModel.v
theories/EiSheetProofs.v
theories/EiSheetProps.v
theories/AllocGridModel.v
theories/AllocGridProofs.v
theories/AllocGridProps.v
theories/AllocGridProps2.v
theories/CatSrcModel.v
theories/CatSrcProofs.v
theories/CatSrcProps.v
theories/CatSrcProps2.v
theories/CatSrcProps3.v
theories/CatSrcProps4.v
theories/InteractModel.v
theories/InteractProofs.v
theories/InteractProps.v
theories/InteractProps2.v
theories/InteractProps3.v
theories/InteractProps4.v
theories/TagModel.v
theories/TagProps.v
theories/TagProps2.v
theories/BlockModel.v
theories/BlockProps.v
theories/XmlTagModel.v
theories/XmlTagProps.v
