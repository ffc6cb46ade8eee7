-Q theories Verif
theories/Base.v
theories/Strs.v
theories/Num.v
theories/Mat.v
theories/LinAlg.v
theories/Slfn.v
theories/Elm.v
theories/Mrsr.v
theories/Search.v
theories/Mss.v
theories/Hpelm.v
theories/MatFacts.v
theories/RLin.v
theories/Spec.v
theories/ElmFacts.v
theories/AccProofs.v
theories/SplitProofs.v
theories/TrainProofs.v
theories/RidgeProofs.v
theories/WfProofs.v
theories/TrainThms.v
theories/IncrThms.v
theories/SolveThms.v
theories/WeightFacts.v
theories/History.v
theories/StaleThms.v
theories/NeuronThms.v
theories/FeatureThms.v
theories/RangeThms.v
theories/RangeTrain.v
theories/Demo.v
theories/Refute1.v
theories/Refute2.v
theories/ErrThms.v
theories/SearchThms.v
theories/SearchLog.v
theories/SelectThms.v
theories/RankThms.v
theories/SubThms.v
theories/MssThms.v
theories/LooThms.v
theories/SelThms.v
theories/FoldThms.v
theories/CvThms.v
theories/TermThms.v
theories/WorksThms.v
theories/Refute4.v
theories/SelectDemo.v
theories/Refute3.v
theories/PropsTrain.v
theories/PropsState.v
theories/PropsError.v
theories/PropsSelect.v
theories/LoadThms.v
theories/LoadTrain.v
theories/ArgThms.v
theories/Refute5.v
theories/PropsArgs.v
theories/Network.v
theories/NetThms.v
theories/Async.v
theories/AsyncThms.v
theories/AsyncApi.v
theories/Refute6.v
theories/PropsAsync.v
theories/Parallel.v
theories/ParThms.v
theories/ParLink.v
theories/Refute7.v
theories/PropsPar.v
theories/NbatchFloat.v
theories/Hdf5.v
theories/Hdf5Thms.v
theories/VcThms.v
theories/Rbf.v
theories/RbfThms.v
theories/Refute8.v
theories/PropsData.v
theories/RegMore.v
theories/RegMore2.v
theories/RegOrder.v
theories/RankMore.v
theories/Refute9.v
theories/MoreDemo.v
theories/PropsMore.v
theories/CtorThms.v
theories/PropsCtor.v
theories/Float.v
theories/SumOf.v
theories/Rounding.v
theories/RoundThms.v
theories/PropsRound.v
theories/Retrain.v
theories/ErrMore.v
theories/OrderThms.v
theories/Sizes.v
theories/ExpQ.v
theories/VcSizes.v
theories/HpPlain.v
theories/PropsUse.v
theories/HpCheck.v
theories/RangeProj.v
theories/Refute10.v
theories/Stability.v
theories/PropsFiles.v
theories/Files.v
theories/FilesThms.v
theories/FilesUse.v
theories/Str.v
theories/StrThms.v
theories/Refute11.v
theories/PropsNames.v
theories/WeightExact.v
theories/Certify.v
theories/RegMore3.v
theories/Progress.v
theories/PropsExact.v
theories/AsyncExact.v
theories/Accept.v
theories/PropsExact2.v
theories/Exact3.v
theories/Cast.v
theories/Convert.v
theories/ConvertR.v
theories/Exact4.v
theories/PropsExact3.v
theories/VcWc.v
theories/Exact5.v
theories/PropsExact4.v
theories/Exact6.v
theories/PropsExact5.v
theories/Exact7.v
theories/PropsExact6.v
theories/Exact8.v
theories/PropsExact7.v
theories/WeightSums.v
theories/RoundWeight.v
theories/Exact9.v
theories/WeightDemo.v
theories/PropsExact8.v
theories/LooSpec.v
theories/LooMore.v
theories/Exact10.v
theories/PropsExact9.v
theories/MrsrSpec.v
theories/MrsrPath.v
theories/OpWorks.v
theories/Exact11.v
theories/OpDemo.v
theories/PropsExact10.v
theories/OpCv.v
theories/Mrsr2Path.v
theories/OpDemo2.v
theories/Mrsr2Demo.v
theories/PropsExact11.v
theories/Scale.v
theories/ScaleSearch.v
theories/ScaleErr.v
theories/ScaleRank.v
theories/ScaleTrain.v
theories/ScaleDemo.v
theories/Forget.v
theories/Forget2.v
theories/PropsExact12.v
theories/Perm.v
theories/Perm2.v
theories/PermDemo.v
theories/PropsExact13.v
theories/Coord.v
theories/CoordR.v
theories/PropsExact14.v
theories/Mrsr2Choice.v
theories/PropsExact15.v
theories/OneMore.v
theories/PropsExact16.v
theories/RoundNet.v
theories/LibDouble.v
theories/PropsExact17.v
theories/Negative.v
theories/Refute12.v
theories/PropsExact18.v
theories/RoundRbf.v
theories/RoundHp.v
theories/PropsExact19.v
