# Print Assumptions for each theorem of MANIFEST.json

Generated by tools/assumptions.py; theorems grouped by the set of axioms they use.

## Closed under the global context (no axiom)

* `C01_index_bijection` (PropGeometry.v)
* `C02_tile_geometry` (PropGeometry.v)
* `C03_tiles_partition` (PropGeometry.v)
* `C04_tensor_construction` (PropGeometry.v)
* `C05_block_cyclic_partial` (PropGeometry.v)
* `C05_scalar_grid_refuted` (PropGeometry.v)
* `C05_zero_mpi_grid_refuted` (PropGeometry.v)
* `C06_subcopy` (PropCopy.v)
* `C06_strided` (PropCopy.v)
* `C07_copy_intersection` (PropCopy.v)
* `C09_scatter` (PropCopy.v)
* `C09_fp16_scatter_refuted` (PropCopy.v)
* `C09_fp16_gather_refuted` (PropCopy.v)
* `C10_randn` (PropRandn.v)
* `C10_tiling_independent` (PropRandn.v)
* `C11_step` (PropRandn.v)
* `C11_jump` (PropRandn.v)
* `C11_compose` (PropRandn.v)
* `C12_fill` (PropElem.v)
* `C12_clear` (PropElem.v)
* `C12_add_scalar` (PropElem.v)
* `C12_relu` (PropElem.v)
* `C12_drelu` (PropElem.v)
* `C12_gelu` (PropElem.v)
* `C12_dgelu` (PropElem.v)
* `C12_gelutanh_inplace` (PropElem.v)
* `C12_dgelutanh` (PropElem.v)
* `C12_sqrt_inplace` (PropElem.v)
* `C12_pow` (PropElem.v)
* `C12_scal_inplace` (PropElem.v)
* `C12_hypot_scalar_inverse` (PropElem.v)
* `C12_relu_forward` (PropElem.v)
* `C12_sqrt` (PropElem.v)
* `C12_gelutanh` (PropElem.v)
* `C12_prod` (PropElem.v)
* `C12_maximum` (PropElem.v)
* `C12_copy` (PropElem.v)
* `C12_relu_backward` (PropElem.v)
* `C12_gelu_backward` (PropElem.v)
* `C12_gelutanh_backward` (PropElem.v)
* `C12_addcdiv` (PropElem2.v)
* `C13_add_generic` (PropElem2.v)
* `C14_scal_generic` (PropElem2.v)
* `C14_axpy` (PropElem.v)
* `C14_axpy_tensor` (PropElem2.v)
* `C15_hypot_generic` (PropElem2.v)
* `C16_sum_slice_beta0` (PropSlice.v)
* `C26_transpose` (PropMat.v)
* `C27_gemm_checks` (PropMat.v)
* `C28_gemm_generic` (PropMat.v)
* `C28_gemm_beta0` (PropMat.v)
* `C29_adam_step` (PropElem2.v)
* `C29_adamw_step` (PropElem2.v)
* `C30_embedding` (PropLoss.v)
* `C30_throws` (PropLoss.v)
* `C30_tiled_vocab_refuted` (PropLoss.v)
* `C30_unchecked_dimension_refuted` (PropLoss.v)
* `C30_axis_unchecked_refuted` (PropLoss.v)
* `C31_mask_scalar` (PropLoss.v)
* `C31_throws` (PropLoss.v)
* `C31_negative_batch_refuted` (PropLoss.v)
* `C32_subtract_indexed_outputs` (PropLoss.v)
* `C32_throws` (PropLoss.v)
* `C33_commute_refuted` (PropSched.v)
* `C34_total_sum` (PropSched.v)
* `C34_gather_refuted` (PropSched.v)
* `C35_binary32_refuted` (ReduxExamples.v)
* `C37_unpack` (PropConfig.v)
* `C38_unregistered_once` (PropConfig.v)
* `C38_invalid_mode_throws` (PropConfig.v)
* `C38_invalid_mode_leak_refuted` (PropConfig.v)
* `C38_no_error` (PropConfig.v)
* `C38_released_once` (PropConfig.v)
* `C38_double_release_refuted` (PropConfig.v)
* `C38_double_acquire_refuted` (PropConfig.v)
* `C38_copied_access_refuted` (PropConfig.v)
* `C39_mask` (PropConfig.v)
* `C39_restrict_restore` (PropConfig.v)
* `C41_adam_rejects_shapes` (PropElem2.v)
* `C41_adam_tiling_refuted` (PropElem2.v)
* `C41_addcdiv_tiling_refuted` (PropElem2.v)
* `C44_flash_unchecked` (FlashExamples.v)
* `C45_tile_unary` (PropTile.v)
* `C45_tile_binary` (PropTile.v)
* `C45_tile_slices` (PropTile.v)
* `C45_tile_fibers` (PropTile.v)
* `C45_tile_softmax` (PropTile.v)
* `C45_tile_losses` (PropTile.v)
* `C45_tile_optimizers` (PropTile.v)
* `C45_tile_gemm_agrees` (PropTile.v)
* `C45_tile_unchecked_ok` (PropTile.v)
* `C45_tile_unchecked_refuted` (PropTile.v)
* `C45_tile_mask_gemm_refuted` (PropTile.v)
* `one_is_constructed` (TileProofs.v)
* `linE1` (LayerExamples.v)
* `actE` (LayerExamples.v)
* `addE` (LayerExamples.v)
* `sliceE` (LayerExamples.v)
* `embE` (LayerExamples.v)
* `ceE` (LayerExamples.v)
* `adamT` (TrainExamples.v)
* `gen_ce_ok` (BuildModel.v)
* `gen_states_ok` (OptBuild.v)
* `ksum_keeps_small_terms` (PropFp.v)
* `C67_tile_from_array` (PropNumpy.v)
* `C67_tile_to_array` (PropNumpy.v)
* `C68_fused_adam_fp32_refuted` (PropCheckpoint.v)
* `C68_other_dtype_refuted` (PropCheckpoint.v)
* `C70_example` (TorchExamples.v)
* `C70_example_mismatch` (TorchExamples.v)
* `C71_example` (TorchExamples.v)
* `C72_example` (MixTorchExamples.v)
* `C72_example_square` (MixTorchExamples.v)
* `C73_mismatch_raises` (PropReluTorch.v)
* `C73_single_layer_raises` (PropReluTorch.v)
* `C75_deep_linear_refuses` (PropDeepLinear.v)
* `C76_cross_entropy_accepts` (CeBuild.v)
* `C76_example` (CeExamples.v)

## `FunctionalExtensionality.functional_extensionality_dep`

* `C08_copy_intersection` (PropCopy.v)
* `C09_gather` (PropCopy.v)
* `C09_roundtrip` (PropCopy.v)
* `C25_nrm2_beta0` (PropMat.v)
* `C26_involution` (PropMat.v)
* `C33_program` (PropSched.v)
* `C34_modes_partial` (PropSched.v)
* `C34_no_leak` (PropSched.v)
* `C67_from_array` (PropNumpy.v)
* `C67_to_array` (PropNumpy.v)
* `C67_array_roundtrip` (PropNumpy.v)
* `C67_tensor_roundtrip` (PropNumpy.v)
* `C67_example_from_array` (CkExamples.v)
* `C67_example_to_array` (CkExamples.v)
* `C67_example_bad_shape` (CkExamples.v)
* `C68_fused_checkpoint` (PropCheckpoint.v)
* `C68_adam_checkpoint` (PropCheckpoint.v)
* `C68_adam_amsgrad_refuted` (PropCheckpoint.v)
* `C68_scalar_refuted` (PropCheckpoint.v)
* `C68_example` (CkExamples.v)

## `ClassicalDedekindReals.sig_forall_dec`

* `C71_round_trip` (PropTorchBack.v)
* `C72_round_trip` (PropMixTorch.v)

## `ClassicalDedekindReals.sig_forall_dec`, `FunctionalExtensionality.functional_extensionality_dep`

* `C36_relu_kink` (PropDeriv.v)
* `lnE` (LayerExamples.v)
* `paramT` (TrainExamples.v)
* `hyperT` (TrainExamples.v)

## `ClassicalDedekindReals.sig_forall_dec`, `ClassicalDedekindReals.sig_not_dec`, `FunctionalExtensionality.functional_extensionality_dep`

* `aweight_distribution` (AttnSpec.v)
* `dq_derive` (AttnSpec.v)
* `dk_derive` (AttnSpec.v)
* `dv_derive` (AttnSpec.v)
* `C56_amsgrad_wrong` (PropAdam.v)
* `gpt2_ok` (GptBuild.v)
* `C60_logits_causal` (PropCausal.v)
* `C76_gpt2_refuses` (CeBuild.v)

## `ClassicalDedekindReals.sig_forall_dec`, `ClassicalDedekindReals.sig_not_dec`, `Classical_Prop.classic`, `FunctionalExtensionality.functional_extensionality_dep`

* `C13_add_partial` (PropElemR.v)
* `C13_add_refuted` (PropElemR.v)
* `C14_scal` (PropElemR.v)
* `C15_hypot_partial` (PropElemR.v)
* `C15_hypot_refuted` (PropElemR.v)
* `C16_sum_slice` (PropSlice.v)
* `C17_sum_fiber` (PropFiber.v)
* `C18_norm_slice` (PropSlice.v)
* `C19_sumprod_slice_partial` (PropSlice.v)
* `C19_sumprod_fiber_partial` (PropFiber.v)
* `C19_sumprod_slice_refuted` (PropSlice.v)
* `C19_sumprod_fiber_refuted` (PropFiber.v)
* `C20_add_slice` (PropSlice.v)
* `C20_prod_slice` (PropSlice.v)
* `C20_add_slice3` (PropSlice.v)
* `C20_prod_fiber` (PropFiber.v)
* `C20_prod_fiber3` (PropFiber.v)
* `C20_add_fiber_partial` (PropFiber.v)
* `C20_add_fiber_refuted` (PropFiber.v)
* `C21_maxsumexp` (PropSoftmax.v)
* `C21_maxsumexp_fresh` (PropSoftmax.v)
* `C21_tiling_independent` (PropSoftmax.v)
* `acc_mse_rep` (SoftmaxScalar.v)
* `C22_softmax` (PropSoftmax.v)
* `C22_softmax_inplace` (PropSoftmax.v)
* `C22_softmax_distribution` (PropSoftmax.v)
* `C22_softmax_inplace_distribution` (PropSoftmax.v)
* `C22_softmax_shift` (PropSoftmax.v)
* `C22_throws` (PropSoftmax.v)
* `C23_logsumexp` (PropSoftmax.v)
* `C23_finite` (PropSoftmax.v)
* `C23_throws` (PropSoftmax.v)
* `C24_sumnorm` (PropSoftmax.v)
* `C24_normalize_partial` (PropSoftmax.v)
* `C24_normalize_throws` (PropSoftmax.v)
* `C25_nrm2` (PropMat.v)
* `C26_involution_R` (PropMat.v)
* `C28_gemm` (PropMat.v)
* `C29_adam_real` (PropElemR.v)
* `C29_adamw_real` (PropElemR.v)
* `C30_embedding_backward` (PropLoss.v)
* `C30_adjoint` (PropLoss.v)
* `C32_total_sum_accum` (PropLoss.v)
* `C32_crossentropy` (PropLoss.v)
* `C33_total_sum` (PropSched.v)
* `C35_sum_slice` (PropRedux.v)
* `C35_sumprod_slice` (PropRedux.v)
* `C35_sum_fiber` (PropRedux.v)
* `C35_sumprod_fiber` (PropRedux.v)
* `C35_norm_slice` (PropRedux.v)
* `C35_gemm` (PropRedux.v)
* `C35_embedding_backward` (PropRedux.v)
* `C35_maxsumexp` (PropReduxMax.v)
* `C35_example` (ReduxExamples.v)
* `C35_maxsumexp_example` (PropReduxMax.v)
* `C36_relu` (PropDeriv.v)
* `C36_gelu` (PropDeriv.v)
* `C36_gelutanh` (PropDeriv.v)
* `C36_relu_derivative` (PropDeriv.v)
* `C36_gelu_derivative` (PropDeriv.v)
* `C36_gelutanh_derivative` (PropDeriv.v)
* `C40_sum_slice` (PropKahan.v)
* `C40_sumprod_slice` (PropKahan.v)
* `C40_sum_fiber` (PropKahan.v)
* `C40_total_sum_accum` (PropKahan.v)
* `C42_flash_attention` (PropFlash.v)
* `C42_example` (FlashExamples.v)
* `C43_flash_backward` (PropFlash.v)
* `C43_example` (FlashExamples.v)
* `C45_tile_scaled` (PropTile.v)
* `C45_tile_gemm` (PropTile.v)
* `C45_tile_nrm2` (PropTile.v)
* `C46_linear` (PropLayers.v)
* `C47_layer_norm` (PropLayers.v)
* `C48_act` (PropLayers.v)
* `C48_add` (PropLayers.v)
* `C48_add_slice` (PropLayers.v)
* `C48_embedding` (PropLayers.v)
* `C49_backprop_frob` (PropModel.v)
* `model_backprop` (PropModel.v)
* `modelT` (TrainExamples.v)
* `C50_backprop_crossentropy` (PropModel.v)
* `modelE` (LayerExamples.v)
* `C51_sgd_step` (PropTrain.v)
* `C52_train_batch` (PropTrain.v)
* `trainT` (TrainExamples.v)
* `readyT` (TrainExamples.v)
* `C53_training` (PropTrain.v)
* `C54_adam_step` (PropAdam.v)
* `C55_adam_training` (PropAdam.v)
* `setupT` (TrainExamples.v)
* `adam_readyT` (TrainExamples.v)
* `C56_amsgrad_as_coded` (PropAdam.v)
* `C57_attention` (PropAttn.v)
* `attn_layer_ok` (PyAttn.v)
* `attn_vjp` (PyAttn.v)
* `C58_flash_attention_layer` (PropAttn.v)
* `flash_layer_ok` (PyFlash.v)
* `flash_vjp` (PyFlash.v)
* `C59_gpt2_training_step` (PropGpt.v)
* `C59_state_exists` (GptExamples.v)
* `small_C59` (GptExamples.v)
* `C60_gpt2_causal` (PropCausal.v)
* `C61_gpt2_training` (PropGptTrain.v)
* `C61_state_exists` (GptTrainExamples.v)
* `C61_example` (GptTrainExamples.v)
* `C62_mixer` (PropMixer.v)
* `C62_gap` (PropMixer.v)
* `C62_gap_overwrites` (PropMixer.v)
* `C63_mlp_mixer_training_step` (PropMixModel.v)
* `seg_crossentropy` (PropMixModel.v)
* `C63_state_exists` (MixExamples.v)
* `C64_sum_slice_fp32` (PropFp.v)
* `C64_sum_fiber_fp32` (PropFp.v)
* `C64_sumprod_slice_fp32` (PropFp.v)
* `ex32_sum` (PropFp.v)
* `exf32_sum` (PropFp.v)
* `C65_mlp_mixer_training` (PropMixTrain.v)
* `C65_state_exists` (MixTrainExamples.v)
* `C65_example` (MixTrainExamples.v)
* `C66_deep_relu_training` (PropRelu.v)
* `C66_state_exists` (ReluExamples.v)
* `C66_example` (ReluExamples.v)
* `C69_deep_relu_resumed_training` (PropRelu.v)
* `C69_gpt2_resumed_training` (PropGptTrain.v)
* `C69_mlp_mixer_resumed_training` (PropMixTrain.v)
* `C69_loaded_state` (PropResume.v)
* `C69_adam_from_file` (PropResume.v)
* `C69_fused_from_file` (PropResume.v)
* `C69_example` (ReluExamples.v)
* `C70_from_torch` (PropTorch.v)
* `C70_pretrained_gpt2` (PropTorchGpt.v)
* `C70_state_exists` (TorchExamples.v)
* `C71_to_torch` (PropTorchBack.v)
* `C72_pretrained_mixer_partial` (PropMixTorch.v)
* `C72_to_torch_partial` (PropMixTorch.v)
* `C72_square_refuted` (PropMixTorch.v)
* `C72_state_exists` (MixTorchExamples.v)
* `C72_example_made` (MixTorchExamples.v)
* `C73_pretrained_deep_relu` (PropReluTorch.v)
* `C73_state_exists` (ReluTorchExamples.v)
* `C73_example` (ReluTorchExamples.v)
* `C74_deep_relu_forward` (InferTrain.v)
* `C74_trained_deep_relu` (InferTrain.v)
* `C74_example` (InferExamples.v)
* `C75_deep_linear_forward` (PropDeepLinear.v)
* `C75_state_exists` (LinExamples.v)
* `C75_example` (LinExamples.v)
* `C77_deep_linear_step` (LinTrain.v)
* `C77_state_exists` (LinTrainExamples.v)
* `C77_example` (LinTrainExamples.v)
