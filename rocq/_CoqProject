-Q theories Verif
theories/L_Accept.v
theories/L_Alike.v
theories/L_Base.v
theories/L_Bfs.v
theories/L_Bip.v
theories/L_Bip2.v
theories/L_Bip3.v
theories/L_Comp.v
theories/L_Comp2.v
theories/L_Comp3.v
theories/L_Cos.v
theories/L_DisjointSet.v
theories/L_Disparity.v
theories/L_Edges.v
theories/L_Fail.v
theories/L_Fit.v
theories/L_Forest.v
theories/L_Frame.v
theories/L_Frame2.v
theories/L_Frame3.v
theories/L_Graph.v
theories/L_Graph2.v
theories/L_Graph3.v
theories/L_Ieee.v
theories/L_Json.v
theories/L_Json2.v
theories/L_Learn.v
theories/L_Num.v
theories/L_Nx.v
theories/L_Nx2.v
theories/L_NxDicts.v
theories/L_NxDicts2.v
theories/L_NxDicts3.v
theories/L_NxDicts4.v
theories/L_NxDicts5.v
theories/L_NxDicts6.v
theories/L_Over.v
theories/L_Over2.v
theories/L_Over3.v
theories/L_Over4.v
theories/L_Over5.v
theories/L_Partition.v
theories/L_Pipe.v
theories/L_Proj.v
theories/L_Proj10.v
theories/L_Proj2.v
theories/L_Proj3.v
theories/L_Proj4.v
theories/L_Proj5.v
theories/L_Proj6.v
theories/L_Proj7.v
theories/L_Proj8.v
theories/L_Proj9.v
theories/L_Read.v
theories/L_Read2.v
theories/L_Rename.v
theories/L_Renaming.v
theories/L_Renaming2.v
theories/L_Renaming3.v
theories/L_Renaming4.v
theories/L_Scale.v
theories/L_Self.v
theories/L_Self2.v
theories/L_Sparse.v
theories/L_Sqrt.v
theories/L_Tab.v
theories/L_Traversal.v
theories/L_Tri.v
theories/L_Tri2.v
theories/L_Umst.v
theories/L_UnionFind.v
theories/L_UnionFind2.v
theories/L_Utils.v
theories/M_Check.v
theories/M_Disparity.v
theories/M_Epoch.v
theories/M_Graph.v
theories/M_Json.v
theories/M_Learn.v
theories/M_Neg.v
theories/M_Proj.v
theories/M_Read.v
theories/M_Repr.v
theories/M_Shim.v
theories/M_Sparse.v
theories/M_Tabular.v
theories/M_Traversal.v
theories/M_Tri.v
theories/M_UFint.v
theories/M_Umst.v
theories/M_UnionFind.v
theories/M_Utils.v
theories/NxDicts.v
theories/NxGraph.v
theories/P_Alike.v
theories/P_Alike2.v
theories/P_Alike3.v
theories/P_Check.v
theories/P_Compose.v
theories/P_Compose2.v
theories/P_Count.v
theories/P_DSlen.v
theories/P_Epoch.v
theories/P_Exact.v
theories/P_Fail.v
theories/P_Flag.v
theories/P_Flat.v
theories/P_Graph.v
theories/P_Ieee.v
theories/P_Json.v
theories/P_Keep.v
theories/P_Learn.v
theories/P_Links.v
theories/P_Members.v
theories/P_Neg.v
theories/P_Nx.v
theories/P_Over.v
theories/P_Pipe.v
theories/P_Pipe2.v
theories/P_Pipe3.v
theories/P_Pipe4.v
theories/P_Proj.v
theories/P_Read.v
theories/P_Renaming.v
theories/P_Renaming2.v
theories/P_Renaming3.v
theories/P_Renaming4.v
theories/P_Repr.v
theories/P_Shuffled.v
theories/P_Shuffled2.v
theories/P_Shuffled3.v
theories/P_Shuffled4.v
theories/P_Shuffled5.v
theories/P_Shuffled6.v
theories/P_Sparse.v
theories/P_Tabular.v
theories/P_Tests.v
theories/P_Tri.v
theories/P_UFint.v
theories/P_Umst.v
theories/P_UnionFind.v
theories/P_Utils.v
theories/PyBase.v
theories/PyNum.v
theories/S_Alike.v
theories/S_Check.v
theories/S_Graph.v
theories/S_Ieee.v
theories/S_Json.v
theories/S_Learn.v
theories/S_Links.v
theories/S_Num.v
theories/S_Nx.v
theories/S_Over.v
theories/S_Partition.v
theories/S_Pipe.v
theories/S_Proj.v
theories/S_Read.v
theories/S_Renaming.v
theories/S_Shuffled.v
theories/S_Sparse.v
theories/S_Tabular.v
theories/S_Tri.v
theories/S_Umst.v
theories/S_UnionFind.v
theories/S_Utils.v
