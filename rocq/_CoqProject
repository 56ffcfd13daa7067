-Q theories Verif
theories/Base.v
theories/BaseLemmas.v
theories/SliceLemmas.v
theories/Arith.v
theories/OrdLaws.v
theories/QcLemmas.v
theories/FloatArith.v
theories/TagsModel.v
theories/SpecTags.v
theories/TagsProofs.v
theories/TagsReadProofs.v
theories/PropTags.v
theories/SyncModel.v
theories/SetModel.v
theories/SpecSet.v
theories/SetProofs.v
theories/SpecSelect.v
theories/TrackProofs.v
theories/SelectProofs.v
theories/OrderProofs.v
theories/JoinProofs.v
theories/JoinOk.v
theories/GlobModel.v
theories/InvModel.v
theories/Tests.v
theories/Samples.v
theories/PropSet.v
theories/PropSelect.v
theories/SpecTime.v
theories/ExtractProofs.v
theories/ExtractSet.v
theories/ExcludeProofs.v
theories/ExcludeMore.v
theories/ExtractSync.v
theories/FloatExtract.v
theories/PropTime.v
theories/SpecMerge.v
theories/MergeCommon.v
theories/MergeProofs.v
theories/MergeSet.v
theories/MergeRuns.v
theories/MergeOk.v
theories/MergeAlone.v
theories/PropMerge.v
theories/SpecConsec.v
theories/GroupProofs.v
theories/ConsecProofs.v
theories/ConsecSet.v
theories/ConsecTime.v
theories/ConsecOk.v
theories/ConsecSamples.v
theories/PropConsec.v
theories/SpecInv.v
theories/GlobProofs.v
theories/InvProofs.v
theories/PackProofs.v
theories/TagGroupProofs.v
theories/PackOrder.v
theories/InvSamples.v
theories/PropInv.v
theories/FourierModel.v
theories/SpecFourier.v
theories/FourierProofs.v
theories/FourierSet.v
theories/FourierExact.v
theories/FourierReal.v
theories/PropFourier.v
theories/MestModel.v
theories/SpecMest.v
theories/MestProofs.v
theories/MestRun.v
theories/WeightModel.v
theories/WeightProofs.v
theories/MestSamples.v
theories/PropMest.v
theories/WlseModel.v
theories/WlseProofs.v
theories/WlseRows.v
theories/LevProofs.v
theories/PropWlse.v
theories/RobustModel.v
theories/SpecRobust.v
theories/RobustProofs.v
theories/RobustWeights.v
theories/RobustSamples.v
theories/PropRobust.v
theories/RealPbModel.v
theories/SpecRealPb.v
theories/RealPbProofs.v
theories/PropRealPb.v
theories/CodModel.v
theories/CodProofs.v
theories/PropCod.v
theories/CodFilterModel.v
theories/SpecCodFilter.v
theories/CodFilterProofs.v
theories/PropCodFilter.v
theories/PrefilterModel.v
theories/SpecPrefilter.v
theories/PrefilterProofs.v
theories/PropPrefilter.v
theories/UtilsModel.v
theories/SpecUtils.v
theories/UtilsProofs.v
theories/UtilsRun.v
theories/StageProofs.v
theories/RejectProofs.v
theories/UtilsSamples.v
theories/StackProofs.v
theories/PropUtils.v
theories/PropStack.v
theories/FileModel.v
theories/SpecFile.v
theories/FileProofs.v
theories/PropFile.v
theories/TagValueModel.v
theories/TagValueProofs.v
theories/PropTagValue.v
theories/MassModel.v
theories/SpecMass.v
theories/MassProofs.v
theories/MassTurnProofs.v
theories/RemoteProofs.v
theories/ValuesProofs.v
theories/PropMass.v
theories/PathModel.v
theories/SpecPath.v
theories/PathProofs.v
theories/NormProofs.v
theories/PlaceProofs.v
theories/FormatProofs.v
theories/PathSamples.v
theories/PropPath.v
theories/ProxyModel.v
theories/SpecProxy.v
theories/ProxyProofs.v
theories/BinProofs.v
theories/AtsModel.v
theories/SpecAts.v
theories/AtsProofs.v
theories/AtsSamples.v
theories/PropProxy.v
theories/PropAts.v
theories/AtsMore.v
theories/PropAtsMore.v
theories/SpecClock.v
theories/ClockProofs.v
theories/ClockSamples.v
theories/PropClock.v
theories/SpecAlone.v
theories/AloneError.v
theories/AloneProofs.v
theories/AloneFreq.v
theories/AloneSamples.v
theories/PropAlone.v
theories/SpecWholeCod.v
theories/WholeCodProofs.v
theories/PropWholeCod.v
theories/OptionModel.v
theories/SpecOptions.v
theories/OptionProofs.v
theories/PropOptions.v
theories/SimRows.v
theories/MixScale.v
theories/SpecMixed.v
theories/MixFourier.v
theories/MixImpedance.v
theories/MixRemote.v
theories/MixWhole.v
theories/MixSamples.v
theories/PropMixed.v
theories/EstOptModel.v
theories/SpecEstOpt.v
theories/EstOptProofs.v
theories/PropEstOpt.v
theories/DataModel.v
theories/SpecData.v
theories/DataProofs.v
theories/PropData.v
theories/CalModel.v
theories/SpecCal.v
theories/CalProofs.v
theories/InterpProofs.v
theories/PropCal.v
theories/BiModel.v
theories/SpecBi.v
theories/BiProofs.v
theories/BiSamples.v
theories/PropBi.v
theories/SpecThreshold.v
theories/ThresholdProofs.v
theories/PropThreshold.v
theories/ErrModel.v
theories/ErrProofs.v
theories/PropErr.v
theories/TagFilterModel.v
theories/TagFilterProofs.v
theories/PropTagFilter.v
theories/FourierOldModel.v
theories/FourierOldProofs.v
theories/PropFourierOld.v
theories/SlepianModel.v
theories/SlepianProofs.v
theories/PropSlepian.v
theories/SpecTagOps.v
theories/TagOpsProofs.v
theories/PropTagOps.v
theories/SpecMestAll.v
theories/MestAll.v
theories/OutputsProofs.v
theories/PropMestAll.v
theories/SpecPack.v
theories/PackAll.v
theories/PackRaise.v
theories/PackGrid.v
theories/GroupsAll.v
theories/PropPack.v
theories/PropRaise.v
theories/CField.v
theories/SimProofs.v
theories/FullModel.v
theories/SpecFull.v
theories/FullProofs.v
theories/ExactProofs.v
theories/FullSamples.v
theories/PropFull.v
theories/RowOrderProofs.v
theories/RowOrderFull.v
theories/PropRowOrder.v
theories/ConjProofs.v
theories/PropConj.v
theories/AttrModel.v
theories/SpecAttr.v
theories/AttrProofs.v
theories/PropAttr.v
theories/CalArgModel.v
theories/SpecCalArg.v
theories/CalArgProofs.v
theories/PropCalArg.v
theories/ReprModel.v
theories/SpecRepr.v
theories/ReprProofs.v
theories/PercentNames.v
theories/PropRepr.v
theories/NumTextModel.v
theories/SpecNumText.v
theories/DateProofs.v
theories/NumTextProofs.v
theories/DateText.v
theories/NumTextUnique.v
theories/SetTextModel.v
theories/SpecSetText.v
theories/SetTextProofs.v
theories/WeightTextModel.v
theories/SpecWeightText.v
theories/WeightTextProofs.v
theories/PropText.v
theories/LoadModel.v
theories/SpecLoad.v
theories/LoadProofs.v
theories/PropLoad.v
theories/EvenOdd.v
theories/RealProbModel.v
theories/SpecRealProb.v
theories/Realify.v
theories/RealProbProofs.v
theories/RealProbSamples.v
theories/PropRealProb.v
theories/PrintModel.v
theories/SpecPrint.v
theories/PrintProofs.v
theories/PercentProofs.v
theories/PropPrint.v
theories/WholeModel.v
theories/WholeScale.v
theories/ExtLemmas.v
theories/WholeUnits.v
theories/SpecWhole.v
theories/SpecRemote.v
theories/WholeImpedance.v
theories/WholeFourier.v
theories/WholeChange.v
theories/WholeCod.v
theories/RemoteMx.v
theories/WholeRemote.v
theories/WholeExact.v
theories/WholeSamples.v
theories/PropWhole.v
theories/SpecReport.v
theories/WholeReport.v
theories/ReportProofs.v
theories/ReportSamples.v
theories/PropReport.v
theories/SpecTones.v
theories/TonesCount.v
theories/TonesProofs.v
theories/RemoteNoise.v
theories/TonesSamples.v
theories/PropTones.v
theories/SpecSame.v
theories/SameProofs.v
theories/SameSelect.v
theories/SameSamples.v
theories/PropSame.v
theories/SelectMore.v
theories/SpecOutcome.v
theories/JoinWhen.v
theories/InvMore.v
theories/OutcomeSamples.v
theories/PropOutcome.v
theories/SpecExactFit.v
theories/ExactFitProofs.v
theories/ExactFitTones.v
theories/ExactFitSamples.v
theories/PropExactFit.v
theories/RowOrderList.v
theories/SpecRunOrder.v
theories/RunOrderFourier.v
theories/RunOrderRows.v
theories/RunOrderLists.v
theories/RunOrderTimes.v
theories/RunOrderWhole.v
theories/RunOrderSamples.v
theories/PropRunOrder.v
