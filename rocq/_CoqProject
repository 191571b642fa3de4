-Q theories Verif
theories/AccumProofs.v
theories/ArtioModel.v
theories/ArtioProofs.v
theories/ArtioProofs2.v
theories/ArtioProofs3.v
theories/ArtioSpec.v
theories/BolshoiFloat.v
theories/BolshoiModel.v
theories/BolshoiProofs.v
theories/BolshoiProofs2.v
theories/BolshoiProofs3.v
theories/BolshoiProofs4.v
theories/BolshoiSpec.v
theories/BoxModel.v
theories/BoxProofs.v
theories/BufModel.v
theories/BytesFacts.v
theories/BytesModel.v
theories/CatFileModel.v
theories/CatalogModel.v
theories/CatalogProofs.v
theories/CatalogProofs2.v
theories/CatalogProofs3.v
theories/CatalogSpec.v
theories/CheckModel.v
theories/CmdModel.v
theories/CmdProofs.v
theories/CmdProofs2.v
theories/CmdProofs3.v
theories/ConfigModel.v
theories/ConfigProofs.v
theories/ConfigProofs2.v
theories/ConfigProofs3.v
theories/ConfigSpec.v
theories/DerivProofs.v
theories/DispatchModel.v
theories/EnvModel.v
theories/EnvProofs.v
theories/EnvProofs2.v
theories/EnvSpec.v
theories/EvalAllModel.v
theories/EvalAllProofs.v
theories/FilterModel.v
theories/FilterProofs.v
theories/FilterSpec.v
theories/FinderProofs.v
theories/FinderProofs2.v
theories/FinderProofs3.v
theories/FitModel.v
theories/FitProofs.v
theories/FitProofs2.v
theories/FitSpec.v
theories/GadgetModel.v
theories/GadgetProofs.v
theories/GadgetProofs2.v
theories/GadgetSpec.v
theories/GeomModel.v
theories/GeomProofs.v
theories/GeomProofs2.v
theories/GeomProofs3.v
theories/GeomProofs4.v
theories/GeomProofs5.v
theories/GeomProofs6.v
theories/GeomProofs7.v
theories/GeomSpec.v
theories/GlobalModel.v
theories/GlobalProofs.v
theories/GlobalSpec.v
theories/GoBase.v
theories/GoBaseFacts.v
theories/GridModel.v
theories/GridProofs.v
theories/GridSpec.v
theories/HeaderMemoModel.v
theories/IDModel.v
theories/InterpModel.v
theories/InterpProofs.v
theories/InterpProofs2.v
theories/InterpProofs3.v
theories/InterpProofs4.v
theories/InterpProofs5.v
theories/InterpProofs6.v
theories/InterpProofs7.v
theories/InterpProofs8.v
theories/InterpSpec.v
theories/KdeModel.v
theories/KdeProofs.v
theories/KdeProofs2.v
theories/KdeProofs3.v
theories/KdeProofs4.v
theories/KdeProofs5.v
theories/KdeProofs6.v
theories/KdeSpec.v
theories/KdeSpec2.v
theories/LGadgetModel.v
theories/LGadgetProofs.v
theories/LGadgetSpec.v
theories/ListFacts.v
theories/LoopBase.v
theories/LoopFacts.v
theories/LosModel.v
theories/LosProofs.v
theories/LosProofs10.v
theories/LosProofs11.v
theories/LosProofs2.v
theories/LosProofs3.v
theories/LosProofs4.v
theories/LosProofs5.v
theories/LosProofs6.v
theories/LosProofs7.v
theories/LosProofs8.v
theories/LosProofs9.v
theories/LosSpec.v
theories/MainModel.v
theories/MatModel.v
theories/MatProofs.v
theories/MatProofs2.v
theories/MatProofs3.v
theories/MatProofs4.v
theories/MatSpec.v
theories/MedProfModel.v
theories/ModeConfModel.v
theories/ModeConfProofs.v
theories/ModeConfSpec.v
theories/NormVecModel.v
theories/NormVecProofs.v
theories/NormVecProofs2.v
theories/NormVecSpec.v
theories/OrderModel.v
theories/OrderProofs.v
theories/ParModel.v
theories/ParProofs.v
theories/PhaseModel.v
theories/PhaseProofs.v
theories/PhaseSpec.v
theories/PipeModel.v
theories/PixelModel.v
theories/PotentialModel.v
theories/PotentialProofs.v
theories/PotentialSpec.v
theories/ProfAngFloat.v
theories/ProfAngModel.v
theories/ProfAngProofs.v
theories/ProfAngSpec.v
theories/ProfConfModel.v
theories/ProfModel.v
theories/ProfProofs.v
theories/ProfProofs2.v
theories/ProfSpec.v
theories/Props_Artio.v
theories/Props_Bolshoi.v
theories/Props_Box.v
theories/Props_Buf.v
theories/Props_CatFile.v
theories/Props_Catalog.v
theories/Props_Check.v
theories/Props_Cmd.v
theories/Props_Config.v
theories/Props_Dispatch.v
theories/Props_Env.v
theories/Props_EvalAll.v
theories/Props_Filter.v
theories/Props_Fit.v
theories/Props_Gadget.v
theories/Props_Geom.v
theories/Props_Global.v
theories/Props_Grid.v
theories/Props_HeaderMemo.v
theories/Props_ID.v
theories/Props_Interp.v
theories/Props_Kde.v
theories/Props_LGadget.v
theories/Props_Los.v
theories/Props_Main.v
theories/Props_Mat.v
theories/Props_MedProf.v
theories/Props_ModeConf.v
theories/Props_Nil.v
theories/Props_NormVec.v
theories/Props_Order.v
theories/Props_Par.v
theories/Props_Phase.v
theories/Props_Pipe.v
theories/Props_Pixel.v
theories/Props_Potential.v
theories/Props_Prof.v
theories/Props_ProfAng.v
theories/Props_ProfConf.v
theories/Props_Rand.v
theories/Props_Rockstar.v
theories/Props_Round.v
theories/Props_RoundBox.v
theories/Props_RoundGrid.v
theories/Props_RoundIndex.v
theories/Props_RoundNorm.v
theories/Props_RoundPixel.v
theories/Props_RoundRand.v
theories/Props_RoundRing.v
theories/Props_RoundTaus.v
theories/Props_Sheet.v
theories/Props_Shell.v
theories/Props_ShellConf.v
theories/Props_ShellRun.v
theories/Props_SliceAng.v
theories/Props_Smooth.v
theories/Props_Sobol.v
theories/Props_SobolNet.v
theories/Props_Sort.v
theories/Props_Stats.v
theories/Props_Stats2.v
theories/Props_Stats3.v
theories/Props_Tree.v
theories/Props_TreeRun.v
theories/Props_Version.v
theories/RandModel.v
theories/RandProofs.v
theories/RandProofs2.v
theories/RandSpec.v
theories/RealBase.v
theories/RingProofs.v
theories/RockstarModel.v
theories/RockstarProofs.v
theories/RockstarProofs2.v
theories/RockstarProofs3.v
theories/RockstarSpec.v
theories/RoundBoxModel.v
theories/RoundGridModel.v
theories/RoundIndexModel.v
theories/RoundModel.v
theories/RoundNormModel.v
theories/RoundPixelModel.v
theories/RoundRandModel.v
theories/RoundRingModel.v
theories/RoundTausModel.v
theories/SavgolProofs.v
theories/SavgolProofs2.v
theories/SavgolProofs3.v
theories/SheetModel.v
theories/SheetProofs.v
theories/SheetProofs2.v
theories/SheetSpec.v
theories/ShellConfModel.v
theories/ShellConfProofs.v
theories/ShellModel.v
theories/ShellProofs.v
theories/ShellProofs2.v
theories/ShellRunModel.v
theories/ShellRunProofs.v
theories/ShellRunProofs2.v
theories/ShellRunProofs3.v
theories/SliceAngModel.v
theories/SliceAngProofs.v
theories/SliceAngProofs2.v
theories/SliceAngProofs3.v
theories/SliceAngSpec.v
theories/SmoothModel.v
theories/SmoothProofs.v
theories/SmoothSpec.v
theories/SortModel.v
theories/SortProofs.v
theories/SortProofs2.v
theories/SplashProofs.v
theories/StatsProofs.v
theories/StatsProofs2.v
theories/StatsProofs3.v
theories/StatsProofs4.v
theories/StatsRunModel.v
theories/StatsSpec.v
theories/TreeModel.v
theories/TreeProofs.v
theories/TreeRunModel.v
theories/VersionModel.v
theories/VersionProofs.v
theories/XsPrime.v
theories/XsProofs.v
