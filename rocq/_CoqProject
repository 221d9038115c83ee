-Q theories Verif
theories/Base.v
theories/BaseProofs.v
theories/Model_Graph.v
theories/Model_Cache.v
theories/Model_Keys.v
theories/Spec.v
theories/KeyProofs.v
theories/Model_Utils.v
theories/UtilsProofs.v
theories/Props_Utils.v
theories/Model_Bfs.v
theories/Bfs.v
theories/BfsProofs.v
theories/Spec_Cache.v
theories/CacheMath.v
theories/CacheProofs.v
theories/CacheProofs2.v
theories/CacheHist.v
theories/Spec_Run.v
theories/RunProofs.v
theories/BfsProofs2.v
theories/BfsProofs3.v
theories/Walks.v
theories/Concrete.v
theories/Props_Cache.v
theories/Spec_Names.v
theories/Props_Names.v
theories/Model_Operators.v
theories/OperatorProofs.v
theories/Props_Operators.v
theories/Props_Mixed.v
theories/Props_Bfs.v
theories/Spec_Containers.v
theories/Model_Containers.v
theories/ContainerProofs.v
theories/Props_Containers.v
theories/Model_Nx.v
theories/Props_Nx.v
theories/Spec_Weighted.v
theories/WeightedMath.v
theories/Spec_Count.v
theories/Model_Measures.v
theories/CountProofs.v
theories/Props_Cuts.v
theories/Props_Measures.v
theories/Model_Weighted.v
theories/Model_Cluster.v
theories/ClusterMath.v
theories/ClusterMath2.v
theories/Spec_Cluster.v
theories/ClusterProofs.v
theories/Props_Cluster.v
theories/Props_DirLoops.v
theories/SquareMath.v
theories/SquareProofs.v
theories/Props_Square.v
theories/Props_SquareExact.v
theories/SubProofs.v
theories/Props_Gdeg.v
theories/Props_Truss.v
theories/Model_Ego.v
theories/EgoProofs.v
theories/Props_Ego.v
theories/Model_Linalg.v
theories/Spec_Linalg.v
theories/Props_Linalg.v
theories/Model_Dense.v
theories/DenseMath.v
theories/DenseProofs.v
theories/Props_Dense.v
theories/NdProofs.v
theories/WeightedProofs.v
theories/WeightedProofs2.v
theories/WeightedProofs3.v
theories/PathProofs.v
theories/Props_Weighted.v
theories/Props_PathExact.v
theories/Props_PathHist.v
theories/Spec_Iso.v
theories/IsoProofs.v
theories/Model_Rank.v
theories/Spec_Rank.v
theories/RankProofs.v
theories/RankMath.v
theories/Props_Pagerank.v
theories/Props_Google.v
theories/Props_Power.v
theories/Props_Katz.v
theories/Spec_Session.v
theories/Props_Session.v
theories/Spec_IsoHist.v
theories/IsoHistProofs.v
theories/Props_IsoHist.v
theories/Spec_Laws.v
theories/LawProofs.v
theories/Props_Laws.v
theories/Props_Duality.v
theories/Props_Algebra.v
theories/Props_Counting.v
theories/Props_Ranges.v
theories/Props_TrussLaws.v
theories/Props_CutLaws.v
theories/Props_Triad.v
theories/Props_OpCalls.v
theories/Props_Exact.v
theories/Props_Compose.v
theories/Spec_Numbering.v
theories/Props_Numbering.v
theories/Model_Iso.v
theories/Props_Iso.v
theories/Props_IsoDir.v
theories/Model_Convert.v
theories/Props_Convert.v
theories/Model_Effects.v
theories/EffectProofs.v
theories/Model_EffGetters.v
theories/Model_EffAlgos.v
theories/Props_Effects.v
theories/Props_Scores.v
theories/Props_Histories.v
theories/Props_ClusterHist.v
theories/Model_Abc.v
theories/Props_SetOps.v
theories/Model_AbcMap.v
theories/Props_MapOps.v
theories/Model_Exc.v
theories/Props_Dispatch.v
theories/Props_Dispatch2.v
theories/Props_Exc.v
theories/Props_Numbering2.v
theories/Props_Numbering3.v
theories/Model_Public.v
theories/Spec_Public.v
theories/Props_Public.v
theories/Model_Lazy.v
theories/Spec_Lazy.v
theories/Props_Lazy.v
theories/Model_Multi.v
theories/Spec_Multi.v
theories/Props_Multi.v
theories/Model_Attrs.v
theories/Spec_Attrs.v
theories/Props_Attrs.v
