-Q theories Verif
theories/Common.v
theories/Array2DModel.v
theories/Array2DSpec.v
theories/Array2DProofs.v
theories/Array2DProps.v
theories/ByteLemmas.v
theories/ArrayIO.v
theories/PixelModel.v
theories/PixelProofs.v
theories/PixelProps.v
theories/BmpModel.v
theories/BmpSpec.v
theories/BmpProofs.v
theories/BmpProofs2.v
theories/BmpProps.v
theories/TgaModel.v
theories/TgaSpec.v
theories/TgaProofs.v
theories/TgaProofs2.v
theories/TgaProps.v
theories/DecimalModel.v
theories/UtilModel.v
theories/UtilSpec.v
theories/UtilProofs.v
theories/UtilProps.v
theories/BitsModel.v
theories/BitsProofs.v
theories/BitsProps.v
theories/WellModel.v
theories/WellProofs.v
theories/WellProps.v
theories/TilesModel.v
theories/TilesSpec.v
theories/TilesProofs.v
theories/TilesProps.v
theories/FilmModel.v
theories/FilmSpec.v
theories/FilmProofs.v
theories/FilmProps.v
theories/FilterModel.v
theories/FilterSpec.v
theories/FilterProps.v
theories/HitModel.v
theories/HitSpec.v
theories/HitProps.v
theories/RenderModel.v
theories/RenderSpec.v
theories/RenderProofs.v
theories/RenderProps.v
theories/ConfigModel.v
theories/ConfigProofs.v
theories/ConfigProps.v
theories/PpmModel.v
theories/PpmSpec.v
theories/PpmProofs.v
theories/PpmProps.v
theories/PathModel.v
theories/PathSpec.v
theories/PathProofs.v
theories/PathProps.v
theories/KdAddModel.v
theories/KdAddProps.v
theories/SceneModel.v
theories/SceneProps.v
theories/LibModel.v
theories/LibSpec.v
theories/LibProofs.v
theories/LibProps.v
theories/MeshModel.v
theories/MeshSpec.v
theories/MeshProps.v
theories/ObjModel.v
theories/ObjSpec.v
theories/ObjProofs.v
theories/ObjCompact.v
theories/ObjTerm.v
theories/ObjDoc.v
theories/ObjProps.v
theories/GeomModel.v
theories/AabbModel.v
theories/AabbSpec.v
theories/AabbProofs.v
theories/AabbProps.v
theories/TriModel.v
theories/TriSpec.v
theories/TriProofs.v
theories/TriProps.v
theories/BvhModel.v
theories/BvhSpec.v
theories/BvhCombine.v
theories/BvhBuild.v
theories/BvhWalk.v
theories/BvhProps.v
theories/BvhCodes.v
theories/BvhMaterial.v
theories/BvhDeep.v
theories/KdModel.v
theories/KdSpec.v
theories/KdBuild.v
theories/KdWalk.v
theories/KdFacts.v
theories/KdProps.v
theories/KdCases.v
theories/OcclModel.v
theories/OcclSpec.v
theories/OcclProps.v
theories/RVecModel.v
theories/RVecProps.v
theories/SpecularModel.v
theories/SpecularSpec.v
theories/SpecularProps.v
theories/BsdfModel.v
theories/BsdfSpec.v
theories/BsdfProps.v
theories/MaskModel.v
theories/MaskProps.v
theories/MicroModel.v
theories/MicroSpec.v
theories/MicroProps.v
theories/ImgModel.v
theories/ImgSpec.v
theories/ImgProofs.v
theories/ImgProps.v
theories/MatModel.v
theories/MatSpec.v
theories/MatProps.v
theories/PrimModel.v
theories/PrimSpec.v
theories/PrimProps.v
theories/BoxModel.v
theories/BoxSpec.v
theories/BoxProps.v
theories/CamModel.v
theories/CamSpec.v
theories/CamProps.v
theories/LightModel.v
theories/LightSpec.v
theories/LightProps.v
theories/IntegModel.v
theories/IntegSpec.v
theories/IntegProps.v
theories/DriverModel.v
theories/DriverSpec.v
theories/DriverProofs.v
theories/DriverProps.v
theories/BuildModel.v
theories/BuildSpec.v
theories/BuildProofs.v
theories/BuildProps.v
theories/ErrModel.v
theories/ErrProps.v
theories/EwaModel.v
theories/EwaSpec.v
theories/EwaProofs.v
theories/EwaProps.v
theories/ColorModel.v
theories/ColorSpec.v
theories/ColorProofs.v
theories/SrgbProofs.v
theories/ColorProps.v
theories/CodecModel.v
theories/CodecSpec.v
theories/CodecProofs.v
theories/CodecProps.v
theories/ScanModel.v
theories/ScanSpec.v
theories/ScanWords.v
theories/ScanProofs.v
theories/ScanProps.v
theories/GramModel.v
theories/GramSpec.v
theories/GramProofs.v
theories/GramProps.v
theories/TanSpec.v
theories/TanProps.v
theories/FaceModel.v
theories/FaceSpec.v
theories/FaceProps.v
theories/BarModel.v
theories/BarSpec.v
theories/BarProps.v
theories/KdAgainModel.v
theories/KdAgainProps.v
theories/SphUvModel.v
theories/SphUvSpec.v
theories/SphUvProps.v
theories/AabbOpModel.v
theories/AabbOpProps.v
theories/AliasModel.v
theories/AliasProps.v
theories/VecEqModel.v
theories/VecEqProps.v
theories/AnisoModel.v
theories/AnisoSpec.v
theories/AnisoProps.v
theories/FsModel.v
theories/FsSpec.v
theories/FsProofs.v
theories/FsProps.v
theories/TransModel.v
theories/TransSpec.v
theories/TransProps.v
theories/FltModel.v
theories/FltFacts.v
theories/FltProps.v
theories/FltSumProps.v
theories/FltVecProps.v
theories/FltWellProps.v
theories/FExtFacts.v
theories/FRayModel.v
theories/FRayFacts.v
theories/FRayProps.v
theories/FKdSpec.v
theories/FKdProps.v
theories/FKdBuildProps.v
theories/FBvhProps.v
theories/FBoxMarginProps.v
theories/FSphereProps.v
theories/FWalkCases.v
theories/FMatModel.v
theories/FMatProps.v
theories/FMatBoundProps.v
theories/FFilmProps.v
theories/FQuadProps.v
theories/FQuadRootProps.v
theories/FSphereHitProps.v
theories/FSphereFindProps.v
theories/FRayImageProps.v
theories/FTriProps.v
theories/FTriHitProps.v
theories/FLeaveProps.v
theories/FFresModel.v
theories/FFresProps.v
theories/FFresNearProps.v
theories/FTexModel.v
theories/FTexProps.v
theories/FTexConstProps.v
theories/FSpecModel.v
theories/FSpecProps.v
theories/FSpecNearProps.v
theories/FMirrorProps.v
theories/FSpecValueProps.v
theories/FFilterModel.v
theories/FFilterProps.v
theories/FNearFacts.v
theories/FMitchellProps.v
theories/FMisModel.v
theories/FMisProps.v
theories/FGgxModel.v
theories/FGgxProps.v
theories/FOrenModel.v
theories/FOrenProps.v
theories/FLightModel.v
theories/FLightProps.v
theories/FShadeModel.v
theories/FShadeProps.v
theories/FVecEqModel.v
theories/FVecEqProps.v
theories/FFaceModel.v
theories/FFaceProps.v
theories/FDiffModel.v
theories/FDiffProps.v
theories/FMicroModel.v
theories/FMicroProps.v
theories/FRoughProps.v
theories/FGrowModel.v
theories/FGrowProps.v
theories/FBoxSizeProps.v
theories/FCamModel.v
theories/FCamProps.v
theories/FLerpModel.v
theories/FLerpProps.v
theories/FDistModel.v
theories/FDistProps.v
theories/FLookModel.v
theories/FLookProps.v
theories/FMirrorDirProps.v
theories/FByteModel.v
theories/FByteProps.v
theories/FPanoProps.v
theories/FReflModel.v
theories/FReflProps.v
theories/FRefrProps.v
theories/FVec2Model.v
theories/FVec2Props.v
theories/FClampModel.v
theories/FClampProps.v
theories/FFaceNormProps.v
theories/FPlaceProps.v
theories/RestProps.v
theories/FaceSumProps.v
