-Q theories Verif
theories/Base.v
theories/SpecArray.v
theories/BaseFacts.v
theories/ModelQuickselect.v
theories/QuickselectFacts.v
theories/QuickselectProp.v
theories/PropQuickselect.v
theories/ModelHeap.v
theories/HeapFacts.v
theories/SpecHeap.v
theories/HeapProp.v
theories/PropHeap.v
theories/Dict.v
theories/DictFacts.v
theories/ModelUnionFind.v
theories/SpecUnionFind.v
theories/UnionFindFacts.v
theories/UnionFindProp.v
theories/PropUnionFind.v
theories/ModelCore.v
theories/SpecCore.v
theories/CoreLabels.v
theories/CoreGraph.v
theories/CoreComponents.v
theories/SpecNet.v
theories/CoreProp.v
theories/PropCore.v
theories/ModelVPTree.v
theories/SpecVPTree.v
theories/VPArrayFacts.v
theories/VPBuildFacts.v
theories/VPSearchFacts.v
theories/SpecMetric.v
theories/VPProp.v
theories/PropVPTree.v
theories/ModelArith.v
theories/ModelCover.v
theories/SpecCover.v
theories/CoverFacts.v
theories/CoverProp.v
theories/SpecCubical.v
theories/CubicalFacts.v
theories/CubicalProp.v
theories/PropCover.v
theories/ModelMetrics.v
theories/SpecMetrics.v
theories/MetricFacts.v
theories/MetricProp.v
theories/PropMetrics.v
theories/ModelObjects.v
theories/SpecObjects.v
theories/ObjectFacts.v
theories/ObjectProp.v
theories/CloneProp.v
theories/SetProp.v
theories/PropObjects.v
theories/ModelValidate.v
theories/SpecValidate.v
theories/ValidateProp.v
theories/LengthProp.v
theories/ModelLearn.v
theories/SpecLearn.v
theories/LearnLogic.v
theories/LearnFacts.v
theories/LearnStable.v
theories/LearnProp.v
theories/LearnFit.v
theories/LearnHistory.v
theories/LearnResult.v
theories/PropValidate.v
theories/ModelParallel.v
theories/SpecParallel.v
theories/ParallelProp.v
theories/LearnExample.v
theories/PropLearn.v
theories/PropParallel.v
theories/ModelDraw.v
theories/ModelPlotly.v
theories/SpecPlot.v
theories/DrawFacts.v
theories/PlotlyFacts.v
theories/PlotlyProp.v
theories/PlotlyShow.v
theories/PlotlyUpdate.v
theories/PlotlyControls.v
theories/PlotlyEffect.v
theories/DrawProp.v
theories/PyvisProp.v
theories/PropPlot.v
theories/RepoTests.v
theories/ModelCalls.v
theories/CallsFacts.v
theories/CallsCost.v
theories/CallsCover.v
theories/PropCalls.v
theories/PropUpdate.v
theories/PropPyvis.v
theories/ModelApp.v
theories/SpecApp.v
theories/AppProp.v
theories/AppRun.v
theories/AppPage.v
theories/PropApp.v
theories/Relate.v
theories/SpecWeak.v
theories/CoverWeak.v
theories/ModelFloat.v
theories/FloatFacts.v
theories/SpecDouble.v
theories/FloatCover.v
theories/FloatMetric.v
theories/FloatAccuracy.v
theories/FloatNamed.v
theories/ModelFastmath.v
theories/FastmathProp.v
theories/FloatGrid.v
theories/FloatCubical.v
theories/FloatCubicalFit.v
theories/PropFloat.v
theories/SpecWhole.v
theories/WholeProp.v
theories/PropWhole.v
theories/ModelPow.v
theories/SpecPow.v
theories/FloatDefault.v
theories/PropDefault.v
theories/SpecTuning.v
theories/TuningProp.v
theories/TuningCover.v
theories/PropTuning.v
theories/ModelDepth.v
theories/DepthProp.v
theories/PropDepth.v
theories/ModelRepr.v
theories/SpecRepr.v
theories/ReprProp.v
theories/PropRepr.v
theories/SpecMove.v
theories/MoveProp.v
theories/PropMove.v
theories/SpecRows.v
theories/RowsProp.v
theories/PropRows.v
theories/ModelNotify.v
theories/SpecNotify.v
theories/NotifyProp.v
theories/PropNotify.v
theories/ModelFmt.v
theories/SpecFmt.v
theories/FmtFacts.v
theories/FmtProp.v
theories/FmtText.v
theories/PropFmt.v
theories/ModelNanmean.v
theories/SpecNanmean.v
theories/NanmeanProp.v
theories/PropNanmean.v
theories/FmtShape.v
theories/SpecOverlap.v
theories/OverlapFacts.v
theories/ModelWarn.v
theories/PropOverlap.v
theories/PyvisNan.v
theories/ModelPyvisFile.v
theories/PropPyvisFile.v
theories/SpecGaps.v
theories/GapsFacts.v
theories/PropGaps.v
theories/SpecCosine.v
theories/FloatCosine.v
theories/ModelFastCosine.v
theories/FastCosineProp.v
theories/PropCosine.v
theories/SpecPacking.v
theories/PackingFacts.v
theories/PropPacking.v
theories/SpecNerve.v
theories/NerveFacts.v
theories/PropNerve.v
theories/SpecAppend.v
theories/AppendFacts.v
theories/PropAppend.v
theories/ModelEntry.v
theories/SpecEntry.v
theories/EntryFacts.v
theories/PropEntry.v
theories/PropAppMore.v
theories/ModelOldApp.v
theories/SpecOldApp.v
theories/OldAppFacts.v
theories/PropOldApp.v
theories/PropOldMore.v
theories/ModelAgg.v
theories/SpecAgg.v
theories/AggFacts.v
theories/PropAgg.v
theories/ModelJson.v
theories/SpecJson.v
theories/JsonFacts.v
theories/PropJson.v
theories/SpecReprText.v
theories/ReprTextFacts.v
theories/PropReprMore.v
theories/ModelOldControls.v
theories/SpecOldControls.v
theories/OldControlsFacts.v
theories/PropOldControls.v
theories/PropOldRange.v
theories/PropAggMore.v
theories/PackingDouble.v
theories/PropPackingDouble.v
theories/CubicalDouble.v
theories/PropOverlapDouble.v
theories/SpecKnnDouble.v
theories/FloatKnn.v
theories/PropKnnDouble.v
theories/SpecFaithful.v
theories/Faithful.v
theories/FaithfulCubical.v
theories/PropFaithful.v
theories/LimitProp.v
theories/PropLimit.v
