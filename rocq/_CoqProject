-Q theories Verif
theories/Prelude.v
theories/IndexDict_Model.v
theories/IndexDict_Lemmas.v
theories/IndexDict_Props.v
theories/Container_Model.v
theories/Container_Lemmas.v
theories/Container_Props.v
theories/PyNum.v
theories/Channel_Model.v
theories/Divisible_Model.v
theories/Channel_Lemmas.v
theories/Channel_Props.v
theories/Divisible_Props.v
theories/Derived_Model.v
theories/Derived_Props.v
theories/Module_Model.v
theories/Module_Props.v
theories/ModuleForward_Props.v
theories/Graph_Model.v
theories/Graph_Lemmas.v
theories/Graph_Props.v
theories/UnionFind_Model.v
theories/UnionFind_Props.v
theories/Candidates_Model.v
theories/Candidates_Props.v
theories/Evolution_Model.v
theories/Evolution_Props.v
theories/Greedy_Model.v
theories/Greedy_Props.v
theories/Sampler_Model.v
theories/Sampler_Props.v
theories/Groups_Model.v
theories/Groups_Props.v
theories/FixSubnet_Model.v
theories/FixSubnet_Props.v
theories/Recorder_Model.v
theories/Recorder_Props.v
theories/Distill_Props.v
theories/Estimator_Model.v
theories/Estimator_Props.v
theories/Float_Lemmas.v
theories/ItePrune_Model.v
theories/ItePrune_Props.v
theories/Dynamic_Model.v
theories/Dynamic_Lemmas.v
theories/Dynamic_Props.v
theories/Calibrate_Model.v
theories/Calibrate_Props.v
theories/Engine_Model.v
theories/Engine_Props.v
theories/SparseGpt_Model.v
theories/SparseGpt_Lemmas.v
theories/SparseGpt_Props.v
theories/SparseGpt2_Props.v
theories/Gptq_Model.v
theories/Gptq_Lemmas.v
theories/Gptq_Props.v
theories/Crd_Model.v
theories/Crd_Props.v
theories/Dmcp_Model.v
theories/Dmcp_Props.v
theories/ChannelFloat_Props.v
theories/GroupFisher_Model.v
theories/GroupFisher_Props.v
theories/GroupFisher2_Props.v
theories/Expand_Model.v
theories/Expand_Props.v
theories/Tracer_Model.v
theories/Tracer_Props.v
theories/Tracer2_Props.v
theories/Tracer3_Props.v
theories/Alias_Model.v
theories/Alias_Props.v
theories/Candidates2_Props.v
theories/Evolution2_Props.v
theories/Loss_Model.v
theories/Loss_Lemmas.v
theories/Loss_Props.v
theories/Loss2_Props.v
theories/Loss3_Props.v
theories/Recorder2_Props.v
theories/Estimator2_Props.v
theories/Groups2_Props.v
theories/Regress_Model.v
theories/Regress_Lemmas.v
theories/Regress_Props.v
theories/Regress2_Props.v
theories/Regress3_Props.v
theories/Regress4_Props.v
theories/Regress5_Props.v
theories/Regress6_Props.v
theories/Contrast_Model.v
theories/Contrast_Props.v
theories/ChannelGraph_Model.v
theories/ChannelGraph_Props.v
theories/ChannelGraph2_Props.v
theories/ChannelGraph3_Props.v
theories/ChannelGraph4_Props.v
theories/ChannelGraph5_Props.v
theories/ChannelGraph6_Props.v
theories/ChannelGraph7_Props.v
theories/Mutator_Model.v
theories/Mutator_Lemmas.v
theories/Mutator_Props.v
theories/Mutator2_Props.v
theories/Mutator3_Props.v
theories/Mutator4_Props.v
theories/Mutator5_Props.v
theories/Mutator6_Props.v
theories/Mutator7_Props.v
theories/Register_Model.v
theories/Register_Props.v
theories/Register2_Props.v
theories/Predefined_Model.v
theories/Predefined_Props.v
theories/Predefined2_Props.v
theories/Train_Model.v
theories/Train_Props.v
theories/Onnx_Model.v
theories/Onnx_Lemmas.v
theories/Onnx_Props.v
theories/Onnx2_Props.v
theories/Onnx3_Props.v
theories/Export_Model.v
theories/Export_Props.v
theories/Export2_Props.v
theories/Export3_Props.v
theories/Export4_Props.v
theories/ExportRange_Model.v
theories/ExportRange_Props.v
theories/FxQuant_Model.v
theories/FxQuant_Props.v
theories/FxQuant2_Props.v
theories/FxQuant3_Props.v
theories/QuantTree_Model.v
theories/QuantTree_Props.v
theories/QuantTree2_Props.v
theories/Lsq_Model.v
theories/Lsq_Props.v
theories/Darts_Model.v
theories/Darts_Props.v
theories/Dsnas_Model.v
theories/Dsnas_Props.v
theories/Distiller_Model.v
theories/Distiller_Props.v
theories/DataFree_Model.v
theories/DataFree_Props.v
theories/Attention_Model.v
theories/Attention_Lemmas.v
theories/Attention_Props.v
theories/Attention2_Props.v
theories/TransOps_Model.v
theories/TransOps_Props.v
theories/TransOps2_Props.v
theories/OpShapes_Model.v
theories/OpShapes_Props.v
theories/OpShapes2_Props.v
theories/OpShapes3_Props.v
theories/DartsNet_Model.v
theories/DartsNet_Props.v
theories/ModuleGraph_Model.v
theories/ModuleGraph_Lemmas.v
theories/ModuleGraph_Props.v
theories/ModuleGraph2_Props.v
theories/ModuleGraph3_Props.v
theories/ModuleGraph4_Props.v
theories/ModuleGraph5_Props.v
theories/Ofd_Model.v
theories/Ofd_Props.v
theories/Ofd2_Props.v
theories/L1Unit_Model.v
theories/L1Unit_Props.v
theories/Fuse_Model.v
theories/Fuse_Props.v
theories/Fuse2_Props.v
theories/Attentive_Model.v
theories/Attentive_Props.v
theories/Attentive2_Props.v
theories/Autoformer_Model.v
theories/Autoformer_Props.v
theories/Predictor_Model.v
theories/Predictor_Props.v
theories/Predictor2_Props.v
theories/Connector_Model.v
theories/Connector_Props.v
theories/Connector2_Props.v
theories/Handler_Model.v
theories/Handler_Props.v
theories/DistillStep_Model.v
theories/DistillStep_Props.v
theories/CustomTracer_Model.v
theories/CustomTracer_Props.v
theories/CustomTracer2_Props.v
theories/CustomTracer3_Props.v
theories/Deploy_Model.v
theories/Deploy_Props.v
theories/Deploy2_Props.v
theories/Augment_Model.v
theories/Augment_Props.v
theories/Tools_Model.v
theories/Tools_Props.v
theories/Tools2_Props.v
theories/Wide_Model.v
theories/Wide_Props.v
theories/Wide2_Props.v
theories/Autotune_Model.v
theories/Autotune_Props.v
theories/FxTrace_Model.v
theories/FxTrace_Props.v
theories/FxTrace2_Props.v
theories/Parts_Model.v
theories/Parts_Props.v
theories/Parts2_Props.v
theories/Offload_Model.v
theories/Offload_Props.v
theories/Offload2_Props.v
theories/BackendCfg_Model.v
theories/BackendCfg_Props.v
theories/Snr_Model.v
theories/Snr_Props.v
theories/Kinds_Model.v
theories/Kinds_Props.v
theories/Featmap_Model.v
theories/Featmap_Props.v
theories/Heads_Model.v
theories/Heads_Props.v
theories/Support_Model.v
theories/Support_Props.v
theories/Kriging_Model.v
theories/Kriging_Props.v
theories/Gptq2_Props.v
theories/BackendCfg2_Props.v
theories/SparseGpt3_Props.v
theories/AdaptivePad_Model.v
theories/AdaptivePad_Props.v
theories/Connect_Model.v
theories/Connect_Props.v
theories/Featmap2_Props.v
theories/TritonKernel_Model.v
theories/TritonKernel_Props.v
theories/TritonTune_Model.v
theories/TritonTune_Props.v
theories/TritonPacked_Props.v
theories/LsqLoad_Model.v
theories/LsqLoad_Props.v
