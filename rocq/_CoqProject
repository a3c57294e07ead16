-Q theories Verif
theories/Base.v
theories/Float24.v
theories/ArrayModel.v
theories/ArraySpec.v
theories/ArrayProofs.v
theories/ArrayProperties.v
theories/DequeModel.v
theories/DequeSpec.v
theories/DequeProofs.v
theories/DequeProperties.v
theories/BitsModel.v
theories/BitsProofs.v
theories/BitsProperties.v
theories/HashModel.v
theories/HashSpec.v
theories/HashProofs.v
theories/HashProofs2.v
theories/HashProperties.v
theories/HeapModel.v
theories/HeapProofs.v
theories/HeapProofs2.v
theories/HeapSpec.v
theories/HeapProofs3.v
theories/PoolModel.v
theories/PoolSpec.v
theories/PoolProofs.v
theories/FrameProofs.v
theories/AllocProperties.v
theories/EntityModel.v
theories/EntitySpec.v
theories/EntityProofs.v
theories/EntityProperties.v
theories/ComponentsModel.v
theories/ComponentsSpec.v
theories/ComponentsProofs.v
theories/ComponentsProperties.v
theories/Decimal.v
theories/TreeModel.v
theories/TreeSpec.v
theories/TreeProofs.v
theories/TreeProofs2.v
theories/TreeProofs3.v
theories/TreeProofs4.v
theories/TreeProofs5.v
theories/RayModel.v
theories/DecimalInstances.v
theories/RaySpec.v
theories/TreeProofs6.v
theories/RayProofs.v
theories/TreeProperties.v
theories/Lists.v
theories/PairsModel.v
theories/PairsSpec.v
theories/PairsProofs.v
theories/PairsProperties.v
theories/WorldModel.v
theories/WorldSpec.v
theories/WorldProofs.v
theories/WorldProofs2.v
theories/WorldProofs3.v
theories/WorldProofs4.v
theories/WorldProofs5.v
theories/WorldProperties.v
theories/WorldProofs6.v
theories/IslandModel.v
theories/IslandSpec.v
theories/IslandProofs.v
theories/IslandProperties.v
theories/SleepModel.v
theories/SleepSpec.v
theories/SleepProofs.v
theories/SleepProperties.v
theories/VecModel.v
theories/VecProofs.v
theories/LinAlgProperties.v
theories/GeomModel.v
theories/GeomSpec.v
theories/GeomProofs.v
theories/GeomProperties.v
theories/ShapeModel.v
theories/ShapeSpec.v
theories/ShapeProofs.v
theories/ShapeCastProofs.v
theories/ShapeMeshProofs.v
theories/ShapeProperties.v
theories/NarrowSpec.v
theories/NarrowProofs.v
theories/NarrowModel.v
theories/NarrowCapsuleProofs.v
theories/NarrowProperties.v
theories/BodyModel.v
theories/BodySpec.v
theories/BodyProofs.v
theories/BodyLawProofs.v
theories/BodyProperties.v
theories/BodyMotionProperties.v
theories/ContactModel.v
theories/ContactSpec.v
theories/ContactProofs.v
theories/ContactLawProofs.v
theories/ContactBounceProofs.v
theories/ContactProperties.v
theories/ContactEvalProofs.v
theories/ContactLawProperties.v
theories/ContactFrictionProperties.v
theories/ContactBooksProofs.v
theories/ContactBooksProperties.v
theories/ManifoldModel.v
theories/ManifoldSpec.v
theories/ManifoldProofs.v
theories/ManifoldFrameProofs.v
theories/ManifoldCreateProofs.v
theories/ManifoldInheritProofs.v
theories/ManifoldProperties.v
theories/EventModel.v
theories/EventSpec.v
theories/EventProofs.v
theories/EventProperties.v
theories/HalfEdgeModel.v
theories/HalfEdgeSpec.v
theories/HalfEdgeProofs.v
theories/MeshModel.v
theories/MeshSpec.v
theories/MeshProofs.v
theories/HalfEdgeProperties.v
theories/MeshProperties.v
theories/HeightFieldModel.v
theories/HeightFieldSpec.v
theories/HeightFieldProofs.v
theories/HeightWalkProofs.v
theories/HeightSurfaceProofs.v
theories/HeightFieldProperties.v
theories/JointModel.v
theories/JointSpec.v
theories/JointProofs.v
theories/JointLawProofs.v
theories/JointSolveProofs.v
theories/JointDriveProofs.v
theories/JointEnergyProofs.v
theories/JointRestProofs.v
theories/JointAngleProofs.v
theories/JointProperties.v
theories/JointDriveProperties.v
theories/JointPositionModel.v
theories/JointPositionSpec.v
theories/JointPositionProofs.v
theories/JointPositionLawProofs.v
theories/JointPositionProperties.v
theories/JointPositionTurnProofs.v
theories/JointPositionAxisProofs.v
theories/JointPositionSceneProofs.v
theories/JointPositionTurnProperties.v
theories/JointPositionLimitProofs.v
theories/GjkModel.v
theories/VoronoiProofs.v
theories/GjkProofs.v
theories/GjkLoopProofs.v
theories/GjkSpec.v
theories/GjkShapeProofs.v
theories/SphereSatProofs.v
theories/GjkVertexProofs.v
theories/GjkProperties.v
theories/TriMeshModel.v
theories/TriMeshSpec.v
theories/TriMeshProofs.v
theories/TriMeshTreeProofs.v
theories/TriMeshProofs2.v
theories/TriMeshRayProofs.v
theories/TriMeshNormalProofs.v
theories/TriMeshProperties.v
theories/QueryModel.v
theories/QuerySpec.v
theories/QueryProofs.v
theories/QueryProofs2.v
theories/QueryRayProofs.v
theories/QueryProperties.v
theories/QueryProofs3.v
theories/OverlapModel.v
theories/OverlapSpec.v
theories/OverlapProperties.v
theories/SatModel.v
theories/TriSmoothModel.v
theories/SatSpec.v
theories/SatProofs.v
theories/SatEdgeProofs.v
theories/SatClipProofs.v
theories/SatFullProofs.v
theories/SatRunProofs.v
theories/SatBoxProofs.v
theories/SatCaseProofs.v
theories/SatProperties.v
theories/TriSmoothProofs.v
theories/TriSmoothProperties.v
theories/CapSatModel.v
theories/CapSatSpec.v
theories/CapSatProofs.v
theories/CapSatContactProofs.v
theories/CapSatCaseProofs.v
theories/CapSatBoxProofs.v
theories/CapSatEdgeProofs.v
theories/CapSatProperties.v
theories/CapPolyModel.v
theories/CapPolySpec.v
theories/CapPolyProofs.v
theories/CapPolyCaseProofs.v
theories/CapPolyProperties.v
theories/LifeModel.v
theories/LifeSpec.v
theories/LifeProofs.v
theories/LifeWorldProofs.v
theories/LifeProperties.v
theories/LifeAwakeProofs.v
theories/RolesModel.v
theories/RolesSpec.v
theories/RolesProofs.v
theories/RolesProperties.v
theories/StackModel.v
theories/StackSpec.v
theories/StackProofs.v
theories/StackProperties.v
theories/QhModel.v
theories/QhSpec.v
theories/QhProofs.v
theories/QhProofs2.v
theories/QhProperties.v
theories/QlModel.v
theories/QlSpec.v
theories/QlProofs.v
theories/QlProperties.v
theories/QhClosed.v
theories/QrModel.v
theories/QrSpec.v
theories/QrProofs.v
theories/QrProperties.v
