-Q theories Verif
theories/Base.v
theories/BlockAssign.v
theories/BlockAssign_proofs.v
theories/BlockDiscover.v
theories/BlockDiscover_proofs.v
theories/BlockPartition.v
theories/BlockPartition_proofs.v
theories/BlockPartition_proofs2.v
theories/BlockPartition_spec.v
theories/BoxGeom.v
theories/BoxGeom_proofs.v
theories/BoxGeom_proofs2.v
theories/BoxGeom_proofs3.v
theories/BoxGeom_spec.v
theories/BoxTiles.v
theories/Cache.v
theories/Cache_proofs.v
theories/Cache_proofs2.v
theories/Cache_proofs3.v
theories/Cache_proofs4.v
theories/Cache_proofs5.v
theories/Cache_proofs6.v
theories/Cache_spec.v
theories/CellEdges.v
theories/CornerShape.v
theories/CornerShape_proofs.v
theories/Defs.v
theories/ErrorHandling.v
theories/Factory.v
theories/Fields.v
theories/Fields_proofs.v
theories/Fields_spec.v
theories/GeoModel.v
theories/Geometry.v
theories/Geometry_proofs.v
theories/Geometry_spec.v
theories/IndexPartition.v
theories/IndexPartition_proofs.v
theories/Loop.v
theories/MeshGeom.v
theories/MeshGeom_examples.v
theories/MeshGeom_proofs.v
theories/MeshGeom_proofs2.v
theories/MeshGeom_proofs3.v
theories/MeshGeom_spec.v
theories/MeshGeom_tower.v
theories/MeshSet.v
theories/MeshSet_proofs.v
theories/MeshSet_proofs2.v
theories/MeshSet_proofs3.v
theories/MeshSet_spec.v
theories/MstkBghost.v
theories/MstkBghost_proofs.v
theories/MstkClean.v
theories/MstkCollapse.v
theories/MstkCoords.v
theories/MstkExtract.v
theories/MstkExtract_api.v
theories/MstkExtract_proofs.v
theories/MstkExtract_spec.v
theories/MstkField.v
theories/MstkFile.v
theories/MstkFramework_proofs.v
theories/MstkFramework_spec.v
theories/MstkGeom.v
theories/MstkMesh.v
theories/MstkMesh_build.v
theories/MstkMesh_examples.v
theories/MstkMesh_proofs.v
theories/MstkMesh_proofs2.v
theories/MstkMesh_spec.v
theories/MstkParents.v
theories/MstkSets.v
theories/MstkWorld_build.v
theories/MstkWorld_proofs.v
theories/MstkWorld_spec.v
theories/Partition_spec.v
theories/Point.v
theories/Polyhedron_proofs.v
theories/Props_BlockPartition.v
theories/Props_Blocks.v
theories/Props_BoxGeom.v
theories/Props_BoxTiles.v
theories/Props_Cache.v
theories/Props_Cache1D.v
theories/Props_CellEdges.v
theories/Props_CornerShape.v
theories/Props_CornerVolume.v
theories/Props_CornerWitness.v
theories/Props_Defs.v
theories/Props_EdgeGeom.v
theories/Props_ErrorHandling.v
theories/Props_FaceNormal.v
theories/Props_Facets.v
theories/Props_Factory.v
theories/Props_Fields.v
theories/Props_FindRegion.v
theories/Props_GeoModel.v
theories/Props_GeomWitness.v
theories/Props_InPolygon.v
theories/Props_InPolyhed.v
theories/Props_IndexPartition.v
theories/Props_InitSets.v
theories/Props_Line.v
theories/Props_LogicalSets.v
theories/Props_Materials.v
theories/Props_MeshSet.v
theories/Props_MeshUpdate.v
theories/Props_MstkAdj.v
theories/Props_MstkBghost.v
theories/Props_MstkByName.v
theories/Props_MstkClean.v
theories/Props_MstkCollapse.v
theories/Props_MstkCoords.v
theories/Props_MstkDirs.v
theories/Props_MstkDirsWitness.v
theories/Props_MstkExtract.v
theories/Props_MstkExtractVol.v
theories/Props_MstkField.v
theories/Props_MstkFile.v
theories/Props_MstkFramework.v
theories/Props_MstkFrameworkWitness.v
theories/Props_MstkIds.v
theories/Props_MstkInherit.v
theories/Props_MstkOrder.v
theories/Props_MstkParents.v
theories/Props_MstkSets.v
theories/Props_Point.v
theories/Props_PointInCell.v
theories/Props_Polygon.v
theories/Props_Polygon3D.v
theories/Props_PolygonRegion.v
theories/Props_Polyhedron.v
theories/Props_RegionSets.v
theories/Props_Regions.v
theories/Props_RegularMesh.v
theories/Props_RegularMesh2D.v
theories/Props_Segment.v
theories/Props_SideVolume.v
theories/Props_SideVolume2D.v
theories/Props_SimpleGeom.v
theories/Props_SimpleMesh.v
theories/Props_State.v
theories/Props_Tiles.v
theories/Props_Wedges.v
theories/RegionSets.v
theories/RegionSets_examples.v
theories/RegionSets_proofs.v
theories/RegionSets_proofs2.v
theories/RegionSets_spec.v
theories/Regions.v
theories/RegularMesh.v
theories/RegularMeshPar.v
theories/RegularMesh_proofs.v
theories/RegularMesh_proofs2.v
theories/RegularMesh_proofs3.v
theories/RegularMesh_proofs4.v
theories/RegularMesh_proofs5.v
theories/RegularMesh_proofs6.v
theories/RegularMesh_spec.v
theories/SimpleGeom.v
theories/SimpleMesh.v
theories/SimpleMesh_proofs.v
theories/SimpleMesh_proofs2.v
theories/SimpleMesh_proofs3.v
theories/SimpleMesh_proofs4.v
theories/SimpleMesh_spec.v
theories/SimpleTopo.v
theories/State.v
theories/State_proofs.v
theories/State_proofs2.v
theories/State_spec.v
theories/Tiles.v
theories/Tiles_proofs.v
theories/Tiles_proofs2.v
theories/Tiles_spec.v
