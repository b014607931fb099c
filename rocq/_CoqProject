-Q theories Verif
theories/Machine.v
theories/Store.v
theories/Axes.v
theories/Shapes.v
theories/Lattice.v
theories/Spec.v
theories/Basics.v
theories/AxisProofs.v
theories/GeoProofs.v
theories/ShapeProofs.v
theories/StoreProofs.v
theories/GraphProofs.v
theories/RepProofs.v
theories/IterProofs.v
theories/EdgeProofs.v
theories/VisitProofs.v
theories/Main1.v
theories/Main2.v
theories/Spec2.v
theories/IsoProofs.v
theories/LoopProofs.v
theories/QuirkProofs.v
theories/OffboardProofs.v
theories/UnsafeProofs.v
theories/ConnProofs.v
theories/CountProofs.v
theories/Spec3.v
theories/DropProofs.v
theories/FillProofs.v
theories/Hex2dProofs.v
theories/Spec4.v
theories/DistProofs.v
theories/Traverse.v
theories/Astar.v
theories/TraverseProofs.v
theories/AstarProofs.v
theories/SearchProofs.v
theories/SquareGraph.v
theories/SpecSquare.v
theories/SquareProofs.v
theories/SquareIter.v
theories/SquareMain.v
theories/SquareCompare.v
theories/SquareSearch.v
theories/AstarMain.v
theories/StrayProofs.v
theories/SquareQuirks.v
theories/Demo.v
theories/SquareDemo.v
theories/AstarDemo.v
theories/RepoTests.v
theories/Spec5.v
theories/HandshakeProofs.v
theories/LendProofs.v
theories/AxisQuirks.v
theories/Dijkstra.v
theories/Spec6.v
theories/DijkstraProofs.v
theories/DijkstraMain.v
theories/Kruskal.v
theories/Spec7.v
theories/KruskalProofs.v
theories/KruskalRun.v
theories/KruskalMain.v
theories/KruskalDemo.v
theories/Order.v
theories/Spec12.v
theories/OrderProofs.v
theories/Clients.v
theories/Spec8.v
theories/ClientsProofs.v
theories/ColourProofs.v
theories/ClientsMain.v
theories/More.v
theories/Spec9.v
theories/MoreProofs.v
theories/Spec10.v
theories/OffboardMore.v
theories/Format.v
theories/FormatProofs.v
theories/Spec11.v
theories/AnySearch.v
theories/AnySearchMain.v
theories/Follow.v
theories/DijkstraFault.v
theories/ConnFault.v
theories/DoubleProofs.v
theories/Spec13.v
theories/PartsProofs.v
theories/TreeFault.v
theories/EqProofs.v
theories/Scc.v
theories/PostAny.v
theories/SccProofs.v
theories/SccMain.v
theories/Convert.v
theories/ConvertProofs.v
theories/MoreDemo.v
theories/Properties1.v
theories/Properties2.v
theories/Properties3.v
theories/Properties4.v
theories/Properties5.v
theories/Properties6.v
theories/Properties7.v
theories/Properties8.v
theories/Properties9.v
theories/Properties10.v
theories/Properties11.v
theories/Properties12.v
theories/Properties13.v
theories/Properties14.v
theories/Properties15.v
theories/Properties16.v
theories/Properties17.v
theories/Properties18.v
theories/Properties19.v
theories/Properties20.v
theories/Floyd.v
theories/Spec14.v
theories/FloydProofs.v
theories/FloydMain.v
theories/Properties21.v
theories/Spec15.v
theories/UncheckedProofs.v
theories/Properties22.v
theories/DfsEvents.v
theories/Spec16.v
theories/DfsProofs.v
theories/DfsCycle.v
theories/DfsMain.v
theories/Properties23.v
theories/Topo.v
theories/TopoProofs.v
theories/TopoMain.v
theories/Properties24.v
theories/Spec17.v
theories/BaseProofs.v
theories/Properties25.v
theories/Tarjan.v
theories/Spec18.v
theories/TarjanProofs.v
theories/TarjanMain.v
theories/Properties26.v
theories/Spec19.v
theories/CustomProofs.v
theories/CustomMain.v
theories/CustomDemo.v
theories/Properties27.v
theories/Spec20.v
theories/OneWayProofs.v
theories/OneWayMain.v
theories/Properties28.v
theories/Filtered.v
theories/Spec21.v
theories/FilteredProofs.v
theories/FilteredMain.v
theories/Properties29.v
theories/Adaptors.v
theories/Spec22.v
theories/AdaptorsMain.v
theories/Properties30.v
theories/Bellman.v
theories/Spec23.v
theories/BellmanProofs.v
theories/BellmanMain.v
theories/Properties31.v
theories/KShortest.v
theories/Spec24.v
theories/KShortestProofs.v
theories/KShortestMain.v
theories/Properties32.v
theories/Cliques.v
theories/Spec25.v
theories/CliquesProofs.v
theories/CliquesMain.v
theories/Properties33.v
theories/SimplePaths.v
theories/Spec26.v
theories/SimplePathsProofs.v
theories/SimplePathsMain.v
theories/Properties34.v
theories/Spec27.v
theories/OnceMain.v
theories/Properties35.v
theories/Matching.v
theories/Spec28.v
theories/MatchingProofs.v
theories/MatchingMain.v
theories/Properties36.v
theories/Dot.v
theories/Spec29.v
theories/DotMain.v
theories/Properties37.v
theories/PruneDfs.v
theories/Spec30.v
theories/PruneProofs.v
theories/PruneMain.v
theories/Properties38.v
theories/Coloring.v
theories/Spec31.v
theories/ColoringProofs.v
theories/ColoringMain.v
theories/ColoringDemo.v
theories/Properties39.v
