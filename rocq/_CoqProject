-Q theories Verif
theories/Base.v
theories/BaseFacts.v
theories/PTModel.v
theories/PTSpec.v
theories/PTSliceFacts.v
theories/PTIndexFacts.v
theories/PTGetFacts.v
theories/PTCtorFacts.v
theories/PTFacts.v
theories/PTPropLemmas.v
theories/PTProps.v
theories/PTMpiModel.v
theories/PTMpiFacts.v
theories/PTHeapModel.v
theories/PTHeapFacts.v
theories/PTGridModel.v
theories/PTGridFacts.v
theories/PTMoreProps.v
theories/SparseModel.v
theories/SparseSpec.v
theories/RingFacts.v
theories/SparseExecFacts.v
theories/SparseFacts.v
theories/SparsePyFacts.v
theories/SparseProps.v
theories/SparseOpModel.v
theories/SparseOpSpec.v
theories/SparseOpFacts.v
theories/SparseOpFacts2.v
theories/SparseKernFacts.v
theories/SparseOpProps.v
theories/SparseMemModel.v
theories/SparseMemProps.v
theories/TemplateModel.v
theories/TemplateSpec.v
theories/TemplateFacts.v
theories/TemplateProps.v
theories/CacheModel.v
theories/CacheFacts.v
theories/CacheProps.v
theories/TrexpModel.v
theories/TrexpSpec.v
theories/TrexpFacts.v
theories/TrexpProps.v
theories/UnitModel.v
theories/UnitSpec.v
theories/UnitFacts.v
theories/UnitParseFacts.v
theories/UnitPrintFacts.v
theories/UnitSIFacts.v
theories/UnitProps.v
theories/MpiModel.v
theories/MpiSpec.v
theories/MpiFacts.v
theories/MpiHeadFacts.v
theories/MpiFileFacts.v
theories/MpiProps.v
theories/AcqModel.v
theories/AcqSpec.v
theories/AcqFacts.v
theories/AcqProps.v
theories/NoiseModel.v
theories/NoiseSpec.v
theories/NoiseFacts.v
theories/NoiseProps.v
theories/StrModel.v
theories/StrSpec.v
theories/StrFacts.v
theories/StrProps.v
theories/StrLogModel.v
theories/StrLogProps.v
theories/MedianModel.v
theories/MedianSpec.v
theories/MedianFacts.v
theories/SortModel.v
theories/SortSpec.v
theories/SortFacts.v
theories/SortFacts2.v
theories/SortFacts3.v
theories/MedianProps.v
theories/NumModel.v
theories/NumSpec.v
theories/NumFacts.v
theories/NumProps.v
theories/ClipModel.v
theories/ClipSpec.v
theories/ClipFacts.v
theories/ClipProps.v
theories/PmModel.v
theories/PmSpec.v
theories/PmFacts.v
theories/PmFacts2.v
theories/PmProps.v
theories/GeoModel.v
theories/GeoSpec.v
theories/GeoFacts.v
theories/GeoFacts2.v
theories/GeoFacts3.v
theories/GeoFacts4.v
theories/GeoFacts5.v
theories/GeoProps.v
theories/RollModel.v
theories/RollSpec.v
theories/RollFacts.v
theories/RollProps.v
theories/SkyModel.v
theories/SkySpec.v
theories/SkyFacts.v
theories/SkyProps.v
theories/ConstModel.v
theories/ConstProps.v
theories/DataModel.v
theories/DataSpec.v
theories/DataFacts.v
theories/DataFacts2.v
theories/DataProps.v
theories/WcsModel.v
theories/WcsSpec.v
theories/WcsFacts.v
theories/WcsFacts2.v
theories/WcsFacts3.v
theories/WcsFacts4.v
theories/WcsFacts5.v
theories/WcsProps.v
theories/UfModel.v
theories/UfSpec.v
theories/UfFacts.v
theories/UfFacts2.v
theories/UfFacts3.v
theories/UfProps.v
theories/TodModel.v
theories/TodSpec.v
theories/TodFacts.v
theories/TodFacts2.v
theories/TodFacts3.v
theories/TodProps.v
theories/FaModel.v
theories/FaSpec.v
theories/FaFacts.v
theories/FaProps.v
theories/MapModel.v
theories/MapProps.v
theories/BiModel.v
theories/BiSpec.v
theories/BiFacts.v
theories/BiProps.v
theories/SampModel.v
theories/SampSpec.v
theories/SampProps.v
theories/PsdModel.v
theories/PsdSpec.v
theories/PsdFacts.v
theories/PsdProps.v
theories/Psd1Props.v
theories/Psd2Props.v
theories/BlockModel.v
theories/BlockSpec.v
theories/BlockProps.v
theories/FhModel.v
theories/FhSpec.v
theories/FhFacts.v
theories/FhProps.v
theories/Fh1Props.v
theories/MadModel.v
theories/MadSpec.v
theories/MadFacts.v
theories/MadProps.v
theories/LayModel.v
theories/LaySpec.v
theories/LayProps.v
theories/HpModel.v
theories/HpSpec.v
theories/HpProps.v
theories/SpModel.v
theories/SpSpec.v
theories/SpProps.v
theories/PuModel.v
theories/PuSpec.v
theories/PuProps.v
theories/PtxModel.v
theories/PtxProps.v
theories/ImModel.v
theories/ImSpec.v
theories/ImProps.v
theories/MiniModel.v
theories/MiniProps.v
theories/AreaModel.v
theories/AreaSpec.v
theories/AreaProps.v
theories/HullModel.v
theories/HullSpec.v
theories/HullProps.v
theories/ObsModel.v
theories/ObsProps.v
theories/NnModel.v
theories/NnProps.v
theories/MiscModel.v
theories/MiscProps.v
theories/DenseModel.v
theories/DenseProps.v
theories/KernModel.v
theories/KernProps.v
theories/FloatModel.v
theories/FloatProps.v
theories/AttrModel.v
theories/AttrProps.v
theories/BuModel.v
theories/BuFacts.v
theories/BuProps.v
theories/QobjModel.v
theories/QobjProps.v
theories/DuModel.v
theories/DuProps.v
theories/DcommModel.v
theories/DcommProps.v
theories/DmapModel.v
theories/DmapProps.v
theories/HobjModel.v
theories/HobjSpec.v
theories/HobjFacts.v
theories/HobjProps.v
theories/UkModel.v
theories/UkFacts.v
theories/UkProps.v
theories/RndModel.v
theories/RndSpec.v
theories/RndFacts.v
theories/RndProps.v
theories/RksSpec.v
theories/RksFacts.v
theories/RksProps.v
theories/RkmModel.v
theories/RkmSpec.v
theories/RkmFacts.v
theories/RkmProps.v
theories/RkhSpec.v
theories/RkhProps.v
theories/RtxModel.v
theories/RtxSpec.v
theories/RtxFacts.v
theories/RtxProps.v
theories/MpolModel.v
theories/MpolSpec.v
theories/MpolProps.v
theories/StrideModel.v
theories/StrideSpec.v
theories/StrideFacts.v
theories/StrideProps.v
theories/IgModel.v
theories/IgSpec.v
theories/IgProps.v
theories/FmaModel.v
theories/FmaProps.v
theories/RadSpec.v
theories/RadProps.v
theories/CntModel.v
theories/CntProps.v
theories/Psd3Model.v
theories/Psd3Props.v
theories/SharpModel.v
theories/SharpSpec.v
theories/SharpFacts.v
theories/SharpProps.v
theories/RpmSpec.v
theories/RpmFacts.v
theories/RpmProps.v
theories/QdModel.v
theories/QdProps.v
theories/SgModel.v
theories/SgProps.v
theories/MvModel.v
theories/MvProps.v
theories/GalModel.v
theories/GalSpec.v
theories/GalFacts.v
theories/GalFacts2.v
theories/GalFacts3.v
theories/GalProps.v
theories/BirModel.v
theories/BirSpec.v
theories/BirFacts.v
theories/BirFacts2.v
theories/BirFacts3.v
theories/BirProps.v
theories/RgeoModel.v
theories/RgeoSpec.v
theories/RgeoFacts.v
theories/RgeoFacts2.v
theories/RgeoFacts3.v
theories/RgeoFacts4.v
theories/RgeoFacts5.v
theories/RgeoFacts6.v
theories/RgeoFacts7.v
theories/RgeoFacts8.v
theories/RgeoProps.v
theories/DispModel.v
theories/DispSpec.v
theories/DispFacts.v
theories/DispProps.v
theories/BeamProps.v
theories/InstModel.v
theories/InstProps.v
theories/ShowModel.v
theories/ShowProps.v
theories/ScanModel.v
theories/ScanProps.v
theories/RgnModel.v
theories/RgnFacts.v
theories/RgnProps.v
theories/RgrModel.v
theories/RgrProps.v
theories/RnnModel.v
theories/RnnFacts.v
theories/RnnProps.v
theories/RstModel.v
theories/RstProps.v
theories/TxtModel.v
theories/TxtSpec.v
theories/TxtProps.v
theories/DistModel.v
theories/DistProps.v
theories/RnnProps2.v
theories/PlotModel.v
theories/PlotSpec.v
theories/PlotProps.v
theories/CoordModel.v
theories/CoordProps.v
theories/RboModel.v
theories/RboSpec.v
theories/RboProps.v
theories/RboModel2.v
theories/RboProps2.v
theories/RipModel.v
theories/RipSpec.v
theories/RipProps.v
theories/RanModel.v
theories/RanProps.v
theories/RmdModel.v
theories/RmdSpec.v
theories/RmdProps.v
theories/RbaModel.v
theories/RbaSpec.v
theories/RbaFacts.v
theories/RbaProps.v
theories/RprModel.v
theories/RprSpec.v
theories/RprProps.v
theories/RmmModel.v
theories/RmmProps.v
theories/RdsModel.v
theories/RdsProps.v
theories/RgaModel.v
theories/RgaProps.v
theories/RapModel.v
theories/RapProps.v
theories/RbmModel.v
theories/RbmProps.v
theories/RofModel.v
theories/RofProps.v
theories/RslModel.v
theories/RslProps.v
