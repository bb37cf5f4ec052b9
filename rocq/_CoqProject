-Q theories Verif
theories/Act_Model.v
theories/Act_Props.v
theories/AdAgree_Props.v
theories/Ad_Model.v
theories/Ad_Props.v
theories/AgreeConv_Props.v
theories/AgreeLayers_Props.v
theories/AgreePool_Props.v
theories/Attention_Model.v
theories/Attention_Proofs.v
theories/Attention_Props.v
theories/Attention_Spec.v
theories/Base.v
theories/BatchNormBatch_Props.v
theories/BatchNorm_Model.v
theories/BatchNorm_Props.v
theories/Bert_Model.v
theories/Bert_Props.v
theories/BoundedCost_Model.v
theories/BoundedCost_Proofs.v
theories/BoundedCost_Props.v
theories/BoundedCost_Spec.v
theories/Buffer_Model.v
theories/Buffer_Props.v
theories/Cache_Model.v
theories/Cache_Props.v
theories/Callback_Model.v
theories/Callback_Props.v
theories/CkptCost_Proofs.v
theories/CkptCost_Proofs2.v
theories/CkptCost_Props.v
theories/CkptCost_Spec.v
theories/CkptExact_Proofs.v
theories/CkptExact_Proofs2.v
theories/CkptExact_Props.v
theories/CkptExact_Spec.v
theories/Ckpt_Model.v
theories/Ckpt_Proofs.v
theories/Ckpt_Proofs2.v
theories/Ckpt_Proofs3.v
theories/Ckpt_Spec.v
theories/ClassAbs_Props.v
theories/ClassErr_Props.v
theories/Class_Model.v
theories/Class_Proofs.v
theories/Class_Props.v
theories/Classify_Model.v
theories/Classify_Props.v
theories/Closure_Model.v
theories/Closure_Proofs.v
theories/Closure_Props.v
theories/Config_Model.v
theories/Config_Props.v
theories/Container_Model.v
theories/Container_Props.v
theories/ConvT_Props.v
theories/ConvValue_Props.v
theories/Conv_Model.v
theories/Conv_Proofs.v
theories/Conv_Proofs2.v
theories/Conv_Props.v
theories/Custom_Model.v
theories/Custom_Props.v
theories/DataLoader_Model.v
theories/DataLoader_Props.v
theories/Dce_Model.v
theories/Dce_Props.v
theories/Debug_Model.v
theories/Debug_Props.v
theories/Decorate_Model.v
theories/Decorate_Props.v
theories/Diffusion_Model.v
theories/Diffusion_Props.v
theories/DocUtils_Model.v
theories/DocUtils_Props.v
theories/Dropout_Model.v
theories/Dropout_Props.v
theories/Dtype_Model.v
theories/Dtype_Props.v
theories/Embed_Model.v
theories/Embed_Props.v
theories/Ensemble_Model.v
theories/Ensemble_Props.v
theories/Enum_Model.v
theories/Enum_Proofs.v
theories/Enum_Proofs2.v
theories/Enum_Props.v
theories/ErrorsAd_Model.v
theories/ErrorsAd_Props.v
theories/Errors_Model.v
theories/Errors_Proofs.v
theories/Errors_Props.v
theories/EvalFull_Model.v
theories/EvalFull_Props.v
theories/Filters_Model.v
theories/Filters_Proofs.v
theories/Filters_Proofs2.v
theories/Filters_Props.v
theories/Filters_Spec.v
theories/FlatTrain_Model.v
theories/FlatTrain_Props.v
theories/Funtree_Model.v
theories/Funtree_Props.v
theories/Gan_Model.v
theories/Gan_Props.v
theories/Hashable_Model.v
theories/Hashable_Proofs.v
theories/Inference_Proofs.v
theories/InitApply_Model.v
theories/InitApply_Props.v
theories/Init_Model.v
theories/Init_Props.v
theories/Jaxpr_Model.v
theories/Jaxpr_Props.v
theories/JitPatch_Model.v
theories/JitPatch_Props.v
theories/Jit_Model.v
theories/Jit_Proofs.v
theories/Jit_Props.v
theories/Leafwise.v
theories/LoopTree_Model.v
theories/LoopTree_Props.v
theories/Loop_Model.v
theories/Loop_Proofs.v
theories/Loop_Proofs2.v
theories/Loop_Props.v
theories/Loop_Spec.v
theories/Lru_Model.v
theories/Lru_Props.v
theories/Method_Model.v
theories/Method_Props.v
theories/Misc_Model.v
theories/Misc_Props.v
theories/Mlp_Model.v
theories/Mlp_Props.v
theories/Module_Model.v
theories/Module_Proofs.v
theories/Module_Proofs2.v
theories/Module_Props.v
theories/Nextafter_Model.v
theories/Nextafter_Props.v
theories/NoinlineRules_Model.v
theories/NoinlineRules_Props.v
theories/Noinline_Model.v
theories/Noinline_Props.v
theories/Norm_Model.v
theories/Norm_Props.v
theories/Omega_Model.v
theories/Omega_Props.v
theories/Parallel_Model.v
theories/Parallel_Props.v
theories/Partial_Model.v
theories/Partial_Proofs.v
theories/Partial_Props.v
theories/Perturb_Model.v
theories/Perturb_Props.v
theories/Pmap_Model.v
theories/Pmap_Props.v
theories/PoolNd_Model.v
theories/PoolNd_Props.v
theories/Pool_Model.v
theories/Pool_Proofs.v
theories/Pool_Props.v
theories/Prelu_Model.v
theories/Prelu_Props.v
theories/Pretty_Model.v
theories/Pretty_Props.v
theories/Prim_Model.v
theories/Prim_Proofs.v
theories/Prim_Props.v
theories/Prim_Spec.v
theories/Resume_Model.v
theories/Resume_Props.v
theories/Rnn_Model.v
theories/Rnn_Props.v
theories/Rollout_Model.v
theories/Rollout_Props.v
theories/RopeAttention_Model.v
theories/RopeAttention_Props.v
theories/Rope_Model.v
theories/Rope_Props.v
theories/RunError_Model.v
theories/RunError_Props.v
theories/ScanLayers_Model.v
theories/ScanLayers_Props.v
theories/Scan_Model.v
theories/Scan_Props.v
theories/Sequential_Model.v
theories/Sequential_Props.v
theories/SerialFile_Model.v
theories/SerialFile_Props.v
theories/SerialFile_Spec.v
theories/Serial_Model.v
theories/Serial_Proofs.v
theories/Serial_Proofs2.v
theories/Serial_Props.v
theories/Serial_Spec.v
theories/Shard_Model.v
theories/Shard_Props.v
theories/SharedGrad_Model.v
theories/SharedGrad_Props.v
theories/Shared_Model.v
theories/Shared_Proofs.v
theories/Shared_Props.v
theories/Shared_Spec.v
theories/StateFile_Model.v
theories/StateFile_Props.v
theories/State_Model.v
theories/State_Proofs.v
theories/State_Props.v
theories/State_Spec.v
theories/Surgery_Model.v
theories/Surgery_Props.v
theories/SymmetryRnn_Props.v
theories/Symmetry_Props.v
theories/Traces_Model.v
theories/Traces_Props.v
theories/TrainFrozen_Props.v
theories/Train_Model.v
theories/Train_Props.v
theories/Train_Spec.v
theories/TreeAt_Model.v
theories/TreeAt_Proofs.v
theories/TreeAt_Proofs2.v
theories/TreeAt_Proofs3.v
theories/TreeAt_Proofs4.v
theories/TreeAt_Proofs5.v
theories/TreeAt_Props.v
theories/TreeAt_Spec.v
theories/TreeCheck_Model.v
theories/TreeCheck_Proofs.v
theories/TreeCheck_Props.v
theories/TreeCheck_Spec.v
theories/TreeEq_Model.v
theories/TreeEq_Proofs.v
theories/TreeEq_Props.v
theories/TreeEq_Spec.v
theories/Tree_Facts.v
theories/Tree_Model.v
theories/Tree_Rel.v
theories/UNet_Model.v
theories/UNet_Proofs.v
theories/UNet_Props.v
theories/Unvmap_Model.v
theories/Unvmap_Props.v
theories/Vit_Model.v
theories/Vit_Props.v
theories/VmapState_Model.v
theories/VmapState_Props.v
theories/Vmap_Model.v
theories/Vmap_Proofs.v
theories/Vmap_Proofs2.v
theories/Vmap_Props.v
theories/Vmap_Spec.v
theories/Vprim_Model.v
theories/Vprim_Props.v
theories/WeightNorm_Model.v
theories/WeightNorm_Props.v
theories/WrapGrad_Model.v
theories/WrapGrad_Props.v
