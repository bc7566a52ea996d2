-Q theories Verif
theories/Py.v
theories/Frame.v
theories/Rules.v
theories/Text.v
theories/Metrics.v
theories/Catnap.v
theories/Learn.v
theories/Irep.v
theories/Ripper.v
theories/Proba.v
theories/Discretize.v
theories/Cut.v
theories/Preprocess.v
theories/Classifier.v
theories/Spec.v
theories/BaseFacts.v
theories/Demo.v
theories/CoverFacts.v
theories/RuleFacts.v
theories/Prop_Predict.v
theories/Prop_Rules.v
theories/MetricsFacts.v
theories/ScoreFacts.v
theories/Prop_Helpers.v
theories/GainFacts.v
theories/LearnSpec.v
theories/Engine.v
theories/PruneFacts.v
theories/RealSpec.v
theories/RealFacts.v
theories/LearnFacts.v
theories/Prop_Learn.v
theories/IrepFacts.v
theories/Hom.v
theories/IrepTrain.v
theories/Prop_Irep.v
theories/RipperFacts.v
theories/RipperTrain.v
theories/RipperStages.v
theories/FiresSpec.v
theories/Fires.v
theories/RipperSpec.v
theories/Prop_Ripper.v
theories/TextSpec.v
theories/TextFacts.v
theories/Prop_Text.v
theories/ProbaSpec.v
theories/ProbaFacts.v
theories/Prop_Proba.v
theories/DiscSpec.v
theories/DiscFacts.v
theories/TransFacts.v
theories/Prop_Disc.v
theories/PrepSpec.v
theories/PrepFacts.v
theories/FitFacts.v
theories/CutFacts.v
theories/ClassFacts.v
theories/FitRun.v
theories/Prop_Prep.v
theories/Prop_Fit.v
theories/Prop_Cut.v
theories/ClfSpec.v
theories/ClfFacts.v
theories/Prop_Classifier.v
theories/Prop_FitModel.v
theories/SessionSpec.v
theories/SessionFacts.v
theories/Prop_Session.v
theories/Prop_Edit.v
theories/Verbose.v
theories/VerboseFacts.v
theories/Prop_Verbose.v
theories/Heap.v
theories/HeapSpec.v
theories/HeapFacts.v
theories/HeapStep.v
theories/Prop_Heap.v
theories/ReproFacts.v
theories/Prop_Repro.v
theories/CalSpec.v
theories/CalFacts.v
theories/Prop_ClfProba.v
theories/Prop_Batch.v
theories/Prop_Print.v
theories/Prop_Fires.v
theories/Allowance.v
theories/OptChoice.v
theories/MdlSpec.v
theories/Prop_Mdl.v
theories/TrainSpec.v
theories/TrainView.v
theories/Prop_Train.v
theories/CallSpec.v
theories/CallForm.v
theories/Prop_Call.v
theories/BinSpec.v
theories/Prop_Bins.v
theories/RelabelSpec.v
theories/Relabel.v
theories/Prop_Relabel.v
theories/Prop_Model.v
theories/Prop_Interpret.v
theories/ExamplesSpec.v
theories/Prop_Examples.v
theories/UsefulSpec.v
theories/Useful.v
theories/Prop_Useful.v
theories/Prop_Life.v
theories/AlgoSpec.v
theories/Algo.v
theories/Prop_Algo.v
theories/RipperAlgoSpec.v
theories/RipperAlgo.v
theories/Prop_RipperAlgo.v
theories/Store.v
theories/StoreSpec.v
theories/StoreFacts.v
theories/Prop_Store.v
theories/Prop_Samples.v
theories/Prop_Matters.v
theories/RenameSpec.v
theories/RenSim.v
theories/RenTrain.v
theories/RenFit.v
theories/Prop_Rename.v
theories/Prop_OneSided.v
theories/Prop_Cutoff.v
theories/ExtraSpec.v
theories/Extra.v
theories/Prop_Extra.v
theories/OrderSpec.v
theories/RowSim.v
theories/RowTrain.v
theories/Prop_Order.v
theories/TallySpec.v
theories/TallyAlgo.v
theories/Prop_Tally.v
theories/QuantSpec.v
theories/QuantFacts.v
theories/QuantTies.v
theories/Prop_Quant.v
theories/Passes.v
theories/PassFacts.v
theories/Prop_Passes.v
theories/Prop_Bucket.v
theories/Prop_Seed.v
theories/Warn.v
theories/Prop_Warn.v
theories/Prop_Past.v
theories/Prop_Refuse.v
theories/Prop_Ranges.v
theories/Prop_Carry.v
theories/Prop_EditScore.v
theories/Prop_Prebin.v
theories/Prop_Params.v
theories/Prop_Bounds.v
theories/Prop_Size.v
theories/Prop_Caution.v
