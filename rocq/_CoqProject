-Q theories Verif
theories/Base.v
theories/Base64_model.v
theories/Base64_spec.v
theories/Base64_proofs.v
theories/Base64_props.v
theories/Bitset_model.v
theories/Bitset_spec.v
theories/Bitset_proofs.v
theories/Bitset_props.v
theories/StdAlgo.v
theories/Ownership_model.v
theories/Ownership_spec.v
theories/Ownership_proofs.v
theories/Ownership_props.v
theories/Mpi_model.v
theories/Mpi_proofs.v
theories/ImportExport_spec.v
theories/ImportExport_model.v
theories/ImportExport_proofs.v
theories/ImportExport_world.v
theories/ImportExport_props.v
theories/TryReceive_model.v
theories/TryReceive_proofs.v
theories/TryReceive_props.v
theories/Gather_model.v
theories/Gather_proofs.v
theories/Gather_props.v
theories/Graph_model.v
theories/Graph_spec.v
theories/Graph_proofs.v
theories/Graph_props.v
theories/Helpers_model.v
theories/Helpers_spec.v
theories/Helpers_proofs.v
theories/Helpers_props.v
theories/Parallel_model.v
theories/Parallel_proofs.v
theories/Parallel_props.v
theories/StaticVector_model.v
theories/StaticVector_spec.v
theories/StaticVector_proofs.v
theories/StaticVector_props.v
theories/Guards_model.v
theories/Guards_spec.v
theories/Guards_proofs.v
theories/Guards_props.v
theories/Serial_model.v
theories/Serial_spec.v
theories/Serial_proofs.v
theories/Serial_props.v
theories/Elem_model.v
theories/Elem_spec.v
theories/Elem_proofs.v
theories/Elem_props.v
theories/Mesh_model.v
theories/Mesh_spec.v
theories/Mesh_proofs.v
theories/Mesh_props.v
theories/MeshSerial_model.v
theories/MeshSerial_spec.v
theories/MeshSerial_proofs.v
theories/MeshSerial_props.v
theories/Prim_model.v
theories/Prim_spec.v
theories/Build_proofs.v
theories/Prim_proofs.v
theories/Square_proofs.v
theories/Cube_proofs.v
theories/Prim2_proofs.v
theories/Prim_props.v
theories/Partition_model.v
theories/Partition_spec.v
theories/Partition1_proofs.v
theories/Partition2_proofs.v
theories/Partition3_proofs.v
theories/Partition4_proofs.v
theories/Partition5_proofs.v
theories/Partition6_proofs.v
theories/Partition_props.v
theories/Poly_model.v
theories/Poly_spec.v
theories/Poly_proofs.v
theories/Poly2_proofs.v
theories/Poly3_proofs.v
theories/Poly_props.v
theories/Extrude_model.v
theories/Extrude_spec.v
theories/Extrude_proofs.v
theories/Extrude2_proofs.v
theories/Extrude3_proofs.v
theories/Extrude4_proofs.v
theories/Extrude_props.v
theories/Merge_model.v
theories/Merge_spec.v
theories/Merge_proofs.v
theories/Merge2_proofs.v
theories/Merge3_proofs.v
theories/Merge4_proofs.v
theories/Merge_props.v
theories/Dirichlet_model.v
theories/Dirichlet_spec.v
theories/Dirichlet_proofs.v
theories/Dirichlet2_proofs.v
theories/Dirichlet_props.v
theories/Spatial_model.v
theories/Spatial_spec.v
theories/Spatial_proofs.v
theories/Spatial_props.v
theories/LocalView_model.v
theories/LocalView_spec.v
theories/LocalView_proofs.v
theories/LocalView2_proofs.v
theories/LocalView3_proofs.v
theories/LocalView_props.v
theories/Split_model.v
theories/Split_spec.v
theories/Split_proofs.v
theories/Split2_proofs.v
theories/Split_props.v
theories/Redist_model.v
theories/Redist_spec.v
theories/Redist_proofs.v
theories/Redist_props.v
theories/Dofs_model.v
theories/Dofs_spec.v
theories/Dofs_proofs.v
theories/Dofs2_proofs.v
theories/Dofs3_proofs.v
theories/Dofs4_proofs.v
theories/Dofs_props.v
theories/Periodic_model.v
theories/Periodic_spec.v
theories/Periodic_proofs.v
theories/Periodic2_proofs.v
theories/Periodic3_proofs.v
theories/Periodic_props.v
theories/Sparsity_model.v
theories/Sparsity_spec.v
theories/Sparsity_proofs.v
theories/Sparsity2_proofs.v
theories/Sparsity3_proofs.v
theories/Sparsity4_proofs.v
theories/Sparsity_props.v
theories/Cond_model.v
theories/Cond_spec.v
theories/Cond_proofs.v
theories/Cond2_proofs.v
theories/Cond3_proofs.v
theories/Cond4_proofs.v
theories/Cond5_proofs.v
theories/Cond6_proofs.v
theories/Cond_props.v
theories/LocalSys_model.v
theories/LocalSys_spec.v
theories/LocalSys_proofs.v
theories/LocalSys_props.v
theories/NodeVals_model.v
theories/NodeVals_spec.v
theories/NodeVals_proofs.v
theories/NodeVals2_proofs.v
theories/NodeVals_props.v
theories/Gmsh_model.v
theories/Gmsh_spec.v
theories/Gmsh_proofs.v
theories/Gmsh2_proofs.v
theories/Gmsh3_proofs.v
theories/Gmsh4_proofs.v
theories/Gmsh5_proofs.v
theories/Gmsh_props.v
theories/Store_model.v
theories/Store_spec.v
theories/Store_proofs.v
theories/Store2_proofs.v
theories/Store_props.v
theories/Basis_model.v
theories/Basis_spec.v
theories/Basis_proofs.v
theories/Basis2_proofs.v
theories/Leg_proofs.v
theories/Basis_props.v
theories/Gauss_model.v
theories/Gauss_spec.v
theories/Gauss_proofs.v
theories/Gauss2_proofs.v
theories/Gauss_props.v
theories/Geom_model.v
theories/Geom_spec.v
theories/Geom_proofs.v
theories/Geom2_proofs.v
theories/Geom_props.v
theories/Vtk_model.v
theories/Vtk_spec.v
theories/Vtk_proofs.v
theories/Vtk2_proofs.v
theories/Vtk_props.v
theories/OpEval_model.v
theories/OpEval_spec.v
theories/OpEval_proofs.v
theories/OpEval_props.v
theories/SumFact_model.v
theories/SumFact_proofs.v
theories/SumFact2_proofs.v
theories/SumFact3_proofs.v
theories/SumFact4_proofs.v
theories/SumFact5_proofs.v
theories/SumFact_spec.v
theories/SumFact6_proofs.v
theories/SumFact7_proofs.v
theories/SumFact_props.v
theories/LocalBC_model.v
theories/LocalBC_spec.v
theories/Exch_proofs.v
theories/LocalBC_proofs.v
theories/LocalBC2_proofs.v
theories/LocalBC_props.v
theories/MatFree_model.v
theories/MatFree_spec.v
theories/MatFree_proofs.v
theories/MatFree2_proofs.v
theories/MatFree3_proofs.v
theories/MatFree4_proofs.v
theories/MatFree5_proofs.v
theories/MatFree6_proofs.v
theories/MatFree7_proofs.v
theories/MatFree_props.v
theories/Convert_model.v
theories/Convert_spec.v
theories/Convert_proofs.v
theories/Convert2_proofs.v
theories/Convert3_proofs.v
theories/Convert4_proofs.v
theories/Convert5_proofs.v
theories/Convert6_proofs.v
theories/Convert7_proofs.v
theories/Convert8_proofs.v
theories/Convert_props.v
theories/Integral_model.v
theories/Integral_spec.v
theories/Integral_proofs.v
theories/Integral2_proofs.v
theories/Integral3_proofs.v
theories/Integral4_proofs.v
theories/Integral_props.v
theories/Precond_model.v
theories/Precond_spec.v
theories/Precond_proofs.v
theories/Assembly_model.v
theories/Assembly_spec.v
theories/Assembly_proofs.v
theories/Assembly2_proofs.v
theories/Assembly3_proofs.v
theories/Assembly4_proofs.v
theories/Assembly5_proofs.v
theories/Assembly6_proofs.v
theories/Assembly7_proofs.v
theories/Assembly8_proofs.v
theories/Assembly_props.v
theories/Integral2_props.v
theories/Precond_props.v
theories/Match_model.v
theories/Match_spec.v
theories/Match_proofs.v
theories/Match2_proofs.v
theories/Match3_proofs.v
theories/Match4_proofs.v
theories/Match5_proofs.v
theories/Match_props.v
theories/Cyl_model.v
theories/Cyl_spec.v
theories/Cyl_proofs.v
theories/Cyl2_proofs.v
theories/Cyl3_proofs.v
theories/Cyl4_proofs.v
theories/Cyl5_proofs.v
theories/Cyl_props.v
theories/Robin_model.v
theories/Robin_spec.v
theories/Robin_proofs.v
theories/Robin2_proofs.v
theories/Robin3_proofs.v
theories/Robin4_proofs.v
theories/Robin5_proofs.v
theories/Robin_props.v
theories/CVec_model.v
theories/CVec_spec.v
theories/CVec_proofs.v
theories/CVec2_proofs.v
theories/CVec_props.v
theories/SolMan_model.v
theories/SolMan_spec.v
theories/SolMan_proofs.v
theories/SolMan_props.v
theories/RefColl_model.v
theories/RefColl_spec.v
theories/RefColl_proofs.v
theories/RefColl_props.v
theories/UPtr_model.v
theories/UPtr_spec.v
theories/UPtr_proofs.v
theories/UPtr_props.v
theories/ProbDef_model.v
theories/ProbDef_spec.v
theories/ProbDef_proofs.v
theories/ProbDef_props.v
theories/MGraph_model.v
theories/MGraph_spec.v
theories/MGraph_proofs.v
theories/MGraph_props.v
theories/WCache_model.v
theories/WCache_spec.v
theories/WCache_proofs.v
theories/WCache_props.v
theories/AOwner_model.v
theories/AOwner_spec.v
theories/AOwner_proofs.v
theories/AOwner_props.v
theories/TErase_model.v
theories/TErase_spec.v
theories/TErase_proofs.v
theories/TErase_props.v
theories/SmallInt_model.v
theories/SmallInt_props.v
