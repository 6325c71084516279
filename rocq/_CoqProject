-Q theories Verif
theories/ApiModel.v
theories/ApiProofs.v
theories/ApiProps.v
theories/ApiSpec.v
theories/AtlasModel.v
theories/AtlasProofs.v
theories/AtlasProps.v
theories/AtlasSpec.v
theories/Base.v
theories/BitmapModel.v
theories/BitmapProofs.v
theories/BitmapProps.v
theories/BitmapSpec.v
theories/BitmapWitness.v
theories/BorderModel.v
theories/BorderProofs.v
theories/BorderProps.v
theories/BorderSpec.v
theories/BuildModel.v
theories/BuildProofs.v
theories/BuildProps.v
theories/BuildSpec.v
theories/Bytes.v
theories/BytesProofs.v
theories/CacheModel.v
theories/CacheProofs.v
theories/CacheProps.v
theories/CacheSpec.v
theories/CastProps.v
theories/CastSpec.v
theories/CentreProofs.v
theories/ClipModel.v
theories/ClipProofs.v
theories/ClipProps.v
theories/ClipSpec.v
theories/ColorFloatModel.v
theories/ColorFloatProofs.v
theories/ColorFloatProps.v
theories/ColorModel.v
theories/ColorProofs.v
theories/ColorProps.v
theories/ColorSpec.v
theories/DirectionModel.v
theories/DirectionProofs.v
theories/DirectionProps.v
theories/DirectionSpec.v
theories/ElementModel.v
theories/ElementProofs.v
theories/ElementProps.v
theories/ElementSpec.v
theories/ElevModel.v
theories/ElevProofs.v
theories/ElevSpec.v
theories/EvalModel.v
theories/EvalProofs.v
theories/EvalProps.v
theories/EvalSpec.v
theories/EwahEnum.v
theories/EwahFacts.v
theories/EwahIter.v
theories/EwahLogic.v
theories/EwahMarker.v
theories/EwahModel.v
theories/EwahProps.v
theories/EwahRep.v
theories/EwahSet.v
theories/EwahSpec.v
theories/EwahWitness.v
theories/FileModel.v
theories/FileProofs.v
theories/FileProps.v
theories/FileSpec.v
theories/FloatModel.v
theories/FloatProofs.v
theories/ForestProofs.v
theories/ForestProps.v
theories/GenCylinderProofs.v
theories/GenModel.v
theories/GenProofs.v
theories/GenProps.v
theories/GenSpec.v
theories/GenSphereProofs.v
theories/GeoModel.v
theories/GeoProofs.v
theories/GeoProps.v
theories/GeoSpec.v
theories/GradientModel.v
theories/GradientProofs.v
theories/GradientProps.v
theories/GradientSpec.v
theories/GridProps.v
theories/HouseModel.v
theories/HouseProofs.v
theories/HouseProps.v
theories/HouseSpec.v
theories/InsideEdge.v
theories/InsideFloatModel.v
theories/InsideFloatProofs.v
theories/InsideFloatProps.v
theories/InsideFloatSpec.v
theories/InsideModel.v
theories/InsideNested.v
theories/InsideProofs.v
theories/InsideProps.v
theories/InsideSpec.v
theories/JsonModel.v
theories/JsonProofs.v
theories/JsonProps.v
theories/JsonSpec.v
theories/LineFloatModel.v
theories/LineFloatProofs.v
theories/LineFloatProps.v
theories/LineFloatSpec.v
theories/LineGridModel.v
theories/LineGridProofs.v
theories/LineGridProps.v
theories/LineGridSpec.v
theories/LruApi.v
theories/LruModel.v
theories/LruProofs.v
theories/LruProps.v
theories/LruSpec.v
theories/LsysModel.v
theories/LsysParseModel.v
theories/LsysParseProofs.v
theories/LsysParseProps.v
theories/LsysParseSpec.v
theories/LsysProofs.v
theories/LsysProps.v
theories/LsysSpec.v
theories/MapCssModel.v
theories/MapCssProofs.v
theories/MapCssProps.v
theories/MapCssSpec.v
theories/MeshBuildModel.v
theories/MeshBuildProofs.v
theories/MeshBuildProps.v
theories/MeshBuildSpec.v
theories/MeshModel.v
theories/MeshProofs.v
theories/MeshProps.v
theories/MeshSpec.v
theories/MetreModel.v
theories/MetreProofs.v
theories/MetreProps.v
theories/MetreSpec.v
theories/Noise3Model.v
theories/Noise3Proofs.v
theories/Noise3Props.v
theories/Noise3Spec.v
theories/NoiseFloatModel.v
theories/NoiseFloatProofs.v
theories/NoiseFloatProps.v
theories/NoiseFloatSpec.v
theories/NoiseModel.v
theories/NoiseProofs.v
theories/NoiseProps.v
theories/NoiseSpec.v
theories/OsmModel.v
theories/OsmProofs.v
theories/OsmProps.v
theories/OsmSpec.v
theories/PbfModel.v
theories/PbfProofs.v
theories/PbfProps.v
theories/PbfSpec.v
theories/Peg.v
theories/PegProofs.v
theories/PlaneProofs.v
theories/PlaneProps.v
theories/PlaneSpec.v
theories/ProjectionFloat.v
theories/ProjectionModel.v
theories/ProjectionNumeric.v
theories/ProjectionProofs.v
theories/ProjectionSpec.v
theories/QuatModel.v
theories/QuatProofs.v
theories/QuatProps.v
theories/QuatSpec.v
theories/RectModel.v
theories/RectProofs.v
theories/RectProps.v
theories/RectSpec.v
theories/RingFloatModel.v
theories/RingFloatProofs.v
theories/RingFloatProps.v
theories/RingFloatSpec.v
theories/RingModel.v
theories/RingProofs.v
theories/RingProps.v
theories/RingSpec.v
theories/RoofModel.v
theories/RoofProofs.v
theories/RoofProps.v
theories/RoofSpec.v
theories/RowModel.v
theories/RowProofs.v
theories/RowProps.v
theories/RowSpec.v
theories/ShapeModel.v
theories/ShapeProofs.v
theories/ShapeProps.v
theories/ShapeSpec.v
theories/SrtmProps.v
theories/StoreModel.v
theories/StoreProofs.v
theories/StoreProps.v
theories/StoreSpec.v
theories/StreamModel.v
theories/StringModel.v
theories/StringProofs.v
theories/StringProps.v
theories/StringSpec.v
theories/StringTrace.v
theories/StyleModel.v
theories/StyleProofs.v
theories/StyleProps.v
theories/StyleSpec.v
theories/StyleTag.v
theories/TagModel.v
theories/TagProofs.v
theories/TagProps.v
theories/TagSpec.v
theories/TerraModel.v
theories/TerraProofs.v
theories/TerraProps.v
theories/TerraSpec.v
theories/ThreadLazy.v
theories/ThreadModel.v
theories/ThreadProofs.v
theories/ThreadProofs2.v
theories/ThreadProps.v
theories/ThreadSpec.v
theories/TileStoreModel.v
theories/TileStoreProofs.v
theories/TileStoreProps.v
theories/TileStoreSpec.v
theories/TileThreadModel.v
theories/TileThreadProofs.v
theories/TileThreadProps.v
theories/TileThreadSpec.v
theories/TreeModel.v
theories/TreeProofs.v
theories/TreeProps.v
theories/TreeShapes.v
theories/TreeSpec.v
theories/XmlModel.v
theories/XmlProofs.v
theories/XmlProps.v
theories/XmlSpec.v
