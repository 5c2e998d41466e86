-Q theories Verif
theories/Base.v
theories/Packing.v
theories/PackingSpec.v
theories/PackingProofs.v
theories/PackOpsProofs.v
theories/PackingProps.v
theories/Threads.v
theories/ThreadsProofs.v
theories/ThreadsProps.v
theories/TopK.v
theories/RBase.v
theories/Knn.v
theories/KnnSpec.v
theories/KnnProofs.v
theories/KnnProps.v
theories/MinK.v
theories/MinKSpec.v
theories/MinKProofs.v
theories/MinKProps.v
theories/BitMask.v
theories/BitMaskSpec.v
theories/BitMaskProofs.v
theories/BitMaskProps.v
theories/Geom.v
theories/GeomSpec.v
theories/GeomProofs.v
theories/GeomGrad.v
theories/GeomRefute.v
theories/GeomProps.v
theories/Raster.v
theories/RasterSpec.v
theories/RasterProofs.v
theories/RasterCuda.v
theories/RasterCoarse.v
theories/RasterMore.v
theories/RasterNbr.v
theories/RasterProps.v
theories/Composite.v
theories/CompositeSpec.v
theories/CompositeProofs.v
theories/CompositeGrad.v
theories/CompositeRefute.v
theories/CompositeProps.v
theories/Blend.v
theories/BlendSpec.v
theories/BlendProofs.v
theories/BlendProps.v
theories/GraphOps.v
theories/GraphOpsSpec.v
theories/GraphOpsProofs.v
theories/GraphOpsProps.v
theories/Implicit.v
theories/ImplicitSpec.v
theories/ImplicitProofs.v
theories/ImplicitProofs2.v
theories/ImplicitProofs3.v
theories/ImplicitProps.v
theories/Sampling.v
theories/SamplingSpec.v
theories/SamplingProofs.v
theories/SamplingProofs2.v
theories/SamplingProofs3.v
theories/SamplingProps.v
theories/LinAlg.v
theories/Transform.v
theories/TransformSpec.v
theories/TransformProofs.v
theories/TransformProofs2.v
theories/TransformProps.v
theories/Rotation.v
theories/RotationSpec.v
theories/RotationProofs.v
theories/RotationProofs2.v
theories/RotationProofs3.v
theories/RotationProofs4.v
theories/RotationProofs5.v
theories/RotationProofs6.v
theories/RotationProofs7.v
theories/RotationProps.v
theories/Camera.v
theories/CameraSpec.v
theories/CameraProofs.v
theories/CameraProofs2.v
theories/CameraProofs3.v
theories/CameraProofs4.v
theories/CameraProofs5.v
theories/CameraProofs6.v
theories/CameraProofs7.v
theories/CameraProofs8.v
theories/CameraProps.v
theories/FaceAreas.v
theories/FaceAreasSpec.v
theories/FaceAreasProofs.v
theories/FaceAreasProps.v
theories/Meshes.v
theories/MeshesSpec.v
theories/MeshesHistSpec.v
theories/MeshesProofs.v
theories/MeshesProofs2.v
theories/MeshesProofs3.v
theories/MeshesProofs4.v
theories/MeshesProofs5.v
theories/MeshesProofs6.v
theories/MeshesProofs7.v
theories/MeshesProofs8.v
theories/MeshesProofs9.v
theories/MeshesProofs10.v
theories/MeshesProofs11.v
theories/MeshesProps.v
theories/PointcloudsSpec.v
theories/Pointclouds.v
theories/PointcloudsProofs.v
theories/PointcloudsProofs2.v
theories/PointcloudsProofs3.v
theories/PointcloudsProofs4.v
theories/PointcloudsProofs5.v
theories/PointcloudsProofs6.v
theories/PointcloudsProofs7.v
theories/PointcloudsProps.v
theories/Rectangles.v
theories/RectanglesSpec.v
theories/RectanglesProofs.v
theories/RectanglesProofs2.v
theories/RectanglesProps.v
theories/Textures.v
theories/TexturesSpec.v
theories/TexturesProofs.v
theories/TexturesProofs2.v
theories/TexturesProofs3.v
theories/TexturesProofs4.v
theories/TexturesProofs5.v
theories/TexturesProps.v
theories/Subdivide.v
theories/SubdivideSpec.v
theories/SubdivideProofs.v
theories/SubdivideProofs2.v
theories/SubdivideProofs3.v
theories/SubdivideProofs4.v
theories/SubdivideProofs5.v
theories/SubdivideProofs6.v
theories/SubdivideProps.v
theories/Cubify.v
theories/CubifySpec.v
theories/CubifyProofs.v
theories/CubifyProofs2.v
theories/CubifyProofs3.v
theories/CubifyProofs4.v
theories/CubifyProps.v
theories/Splat.v
theories/SplatSpec.v
theories/SplatProofs.v
theories/SplatProofs2.v
theories/SplatProofs3.v
theories/SplatProofs4.v
theories/SplatProofs5.v
theories/SplatProps.v
theories/Pluggable.v
theories/PluggableSpec.v
theories/PluggableProofs.v
theories/PluggableProps.v
theories/Stats.v
theories/StatsSpec.v
theories/StatsProofs.v
theories/StatsProps.v
theories/SceneSampler.v
theories/SceneSamplerSpec.v
theories/SceneSamplerProofs.v
theories/SceneSamplerProofs2.v
theories/SceneSamplerProps.v
theories/Chamfer.v
theories/ChamferSpec.v
theories/ChamferProofs.v
theories/ChamferProofs2.v
theories/ChamferProofs3.v
theories/ChamferProofs4.v
theories/ChamferProofs5.v
theories/ChamferProofs6.v
theories/ChamferProps.v
theories/Text.v
theories/TextSpec.v
theories/TextProofs.v
theories/Off.v
theories/OffSpec.v
theories/OffProofs.v
theories/OffProofs2.v
theories/OffProofs3.v
theories/OffProps.v
theories/Laplace.v
theories/LaplaceSpec.v
theories/LaplaceProofs.v
theories/LaplaceProofs2.v
theories/LaplaceProps.v
theories/LaplaceProofs3.v
theories/LaplaceProofs4.v
theories/LaplaceProofs5.v
theories/LaplaceProofs6.v
theories/LaplaceProofs7.v
theories/MeshLossProps.v
theories/TaubinProps.v
theories/Volumes.v
theories/VolumesSpec.v
theories/VolumesProofs.v
theories/VolumesProofs2.v
theories/VolumesProofs3.v
theories/VolumesProps.v
theories/Ply.v
theories/PlySpec.v
theories/PlyProofs.v
theories/PlyProofs2.v
theories/PlyProofs3.v
theories/PlyProofs4.v
theories/PlyProofs5.v
theories/PlyProofs6.v
theories/PlyProofs7.v
theories/PlyProofs8.v
theories/PlyProps.v
theories/Obj.v
theories/ObjSpec.v
theories/ObjProofs.v
theories/ObjProofs2.v
theories/ObjProofs3.v
theories/ObjProofs4.v
theories/ObjProofs5.v
theories/ObjProps.v
theories/Consistency.v
theories/ConsistencySpec.v
theories/ConsistencyProofs.v
theories/ConsistencyProofs2.v
theories/ConsistencyProofs3.v
theories/ConsistencyProofs4.v
theories/ConsistencyProofs5.v
theories/ConsistencyProps.v
theories/MarchingTables.v
theories/Marching.v
theories/MarchingSpec.v
theories/MarchingProofs.v
theories/MarchingProofs2.v
theories/MarchingProofs3.v
theories/MarchingProofs4.v
theories/MarchingProofs5.v
theories/MarchingProofs6.v
theories/MarchingProofs7.v
theories/MarchingProps.v
theories/Reduce.v
theories/ReduceProofs.v
theories/ReduceProps.v
theories/PointMesh.v
theories/PointMeshSpec.v
theories/PointMeshProofs.v
theories/PointMeshProofs2.v
theories/PointMeshProofs3.v
theories/PointMeshProofs4.v
theories/PointMeshProofs5.v
theories/PointMeshProofs6.v
theories/PointMeshProps.v
theories/PluggableProofs2.v
theories/ChamferProofsLengths.v
theories/SceneSamplerProofs3.v
theories/SurfaceSample.v
theories/SurfaceSampleSpec.v
theories/SurfaceSampleProofs.v
theories/SurfaceSampleProofs2.v
theories/SurfaceSampleProofs3.v
theories/SurfaceSampleProofs4.v
theories/SurfaceSampleProps.v
theories/Alignment.v
theories/AlignmentSpec.v
theories/AlignmentProofs.v
theories/AlignmentProofs2.v
theories/AlignmentProofs3.v
theories/AlignmentProofs4.v
theories/AlignmentProofs5.v
theories/AlignmentProofs6.v
theories/AlignmentProofs7.v
theories/AlignmentProps.v
theories/IcpProps.v
theories/ObjProofs6.v
theories/PlyProofs9.v
theories/Spectral.v
theories/Symeig.v
theories/SymeigSpec.v
theories/SymeigProofs.v
theories/SymeigProofs2.v
theories/SymeigProps.v
theories/Normals.v
theories/NormalsSpec.v
theories/NormalsProofs.v
theories/NormalsProofs2.v
theories/NormalsProofs3.v
theories/NormalsProps.v
theories/Clip.v
theories/ClipSpec.v
theories/ClipProofs.v
theories/ClipProofs2.v
theories/ClipProofs3.v
theories/ClipProofs4.v
theories/ClipProofs5.v
theories/ClipProofs6.v
theories/ClipProps.v
theories/Shapes.v
theories/ShapesSpec.v
theories/ShapesProofs.v
theories/ShapesProofs2.v
theories/ShapesProofs3.v
theories/ShapesProofs4.v
theories/ShapesProofs5.v
theories/ShapesProps.v
theories/Rays.v
theories/RaysSpec.v
theories/RaysProofs.v
theories/RaysProofs2.v
theories/RaysProofs3.v
theories/RaysProofs4.v
theories/RaysProofs5.v
theories/RaysProofs6.v
theories/RaysProofs7.v
theories/RaysProps.v
theories/Crop.v
theories/CropSpec.v
theories/CropProofs.v
theories/CropProofs2.v
theories/CropProofs3.v
theories/CropProofs4.v
theories/CropProps.v
theories/CamAlign.v
theories/CamAlignSpec.v
theories/CamAlignProofs.v
theories/CamAlignProofs2.v
theories/CamAlignProofs3.v
theories/CamAlignProps.v
theories/Tens.v
theories/Lighting.v
theories/LightingSpec.v
theories/LightingProofs.v
theories/LightingProofs2.v
theories/LightingProofs3.v
theories/LightingProofs4.v
theories/LightingProofs5.v
theories/LightingProofs6.v
theories/LightingProofs7.v
theories/LightingProps.v
theories/ShadingProps.v
theories/Accessor.v
theories/AccessorSpec.v
theories/AccessorProofs.v
theories/AccessorProofs2.v
theories/AccessorProofs3.v
theories/AccessorProofs4.v
theories/AccessorProps.v
theories/VertAlign.v
theories/VertAlignSpec.v
theories/VertAlignProofs.v
theories/VertAlignProofs2.v
theories/VertAlignProps.v
theories/Splatter.v
theories/SplatterSpec.v
theories/SplatterProofs.v
theories/SplatterProofs2.v
theories/SplatterProofs3.v
theories/SplatterProps.v
theories/Metrics.v
theories/MetricsSpec.v
theories/MetricsProofs.v
theories/DepthEvalProps.v
theories/MetricsProofs2.v
theories/MetricsProps.v
theories/MetricsProofs3.v
theories/BceProps.v
theories/Frustum.v
theories/FrustumSpec.v
theories/FrustumProofs.v
theories/FrustumProofs2.v
theories/FrustumProps.v
theories/Refiner.v
theories/RefinerSpec.v
theories/RefinerProofs.v
theories/RefinerProofs2.v
theories/RefinerProps.v
theories/Loaders.v
theories/LoadersSpec.v
theories/LoadersProofs.v
theories/LoadersProofs2.v
theories/LoadersProps.v
theories/RayTrace.v
theories/RayTraceSpec.v
theories/RayTraceProofs.v
theories/RayTraceProofs2.v
theories/RayTraceProofs3.v
theories/RayTraceProofs4.v
theories/RayTraceProofs5.v
theories/RayTraceProofs6.v
theories/RayTraceProps.v
theories/Atlas.v
theories/AtlasSpec.v
theories/AtlasProofs.v
theories/AtlasProofs2.v
theories/AtlasProps.v
theories/FishEye.v
theories/FishEyeSpec.v
theories/FishEyeProofs.v
theories/FishEyeProofs2.v
theories/FishEyeProps.v
theories/Circle.v
theories/CircleSpec.v
theories/CircleProofs.v
theories/CircleProofs2.v
theories/CircleProofs3.v
theories/CircleProofs4.v
theories/CircleProps.v
theories/RayTraceProofs7.v
theories/Checker.v
theories/CheckerSpec.v
theories/CheckerProofs.v
theories/CheckerProps.v
theories/Views.v
theories/ViewsSpec.v
theories/ViewsProofs.v
theories/ViewsProps.v
theories/ViewsAngle.v
theories/ViewsAngleProofs.v
