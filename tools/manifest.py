#!/usr/bin/env python3
"""Writes /verif/MANIFEST.json from the table below."""
import json, os
C = []
def claim(p, status, theorems, note=""):
    C.append({"property": p, "status": status, "theorems": theorems, "note": note})

claim("C01","proved",["C01_index_bijection"])
claim("C02","proved",["C02_tile_geometry"],"integer overflow of the products is not modelled")
claim("C03","proved",["C03_tiles_partition"])
claim("C04","proved",["C04_tensor_construction"])
claim("C05","partial",["C05_block_cyclic_partial","C05_scalar_grid_refuted","C05_zero_mpi_grid_refuted"],
      "holds for at least one dimension and a positive mpi grid; the scalar grid (index[-1]) and a zero mpi extent (division by zero) are undefined behaviour in the code and proved so")

claim("C06","proved",["C06_subcopy","C06_strided"])
claim("C07","proved",["C07_copy_intersection"])
claim("C08","proved",["C08_copy_intersection"])
claim("C09","partial",["C09_scatter","C09_gather","C09_roundtrip","C09_fp16_scatter_refuted","C09_fp16_gather_refuted"],"proved for the codelets of fp32, fp64, int64 and bool; for fp16_t the codelet runs the fp32 kernel on a buffer half the size and the _refuted theorems prove that every multi-tile scatter and gather accesses memory out of bounds")

C12=["fill","clear","add_scalar","relu","drelu","gelu","dgelu","gelutanh_inplace","dgelutanh","sqrt_inplace","pow","scal_inplace","hypot_scalar_inverse","relu_forward","sqrt","gelutanh","prod","maximum","copy","relu_backward","gelu_backward","gelutanh_backward","addcdiv"]
claim("C10","proved",["C10_randn","C10_tiling_independent"],"64-bit unsigned arithmetic explicit, cos a parameter")
claim("C11","proved",["C11_step","C11_jump","C11_compose"])
claim("C12","proved",["C12_"+x for x in C12],"for an arbitrary scalar arithmetic, so bit-exact; addcdiv for equal tilings (see C41)")
claim("C13","partial",["C13_add_partial","C13_add_generic","C13_add_refuted"],"missing: alpha = 0 with beta not 0 or 1, where add.cc:133 passes (nelems, beta) to a function expecting (beta, nelems); C13_add_refuted proves the full statement false of the code")
claim("C14","proved",["C14_scal","C14_scal_generic","C14_axpy","C14_axpy_tensor","C12_scal_inplace","C12_prod","C12_copy"])
claim("C15","partial",["C15_hypot_partial","C15_hypot_generic","C15_hypot_refuted"],"missing: alpha = 0 and beta = 1, where hypot returns early and leaves a negative dst unchanged; C15_hypot_refuted proves the full statement false of the code")
claim("C16","proved",["C16_sum_slice","C16_sum_slice_beta0"],"ordered mode; reduction mode is C35")
claim("C17","proved",["C17_sum_fiber"],"ordered mode; reduction mode is C35")
claim("C18","proved",["C18_norm_slice"],"ordered mode; reduction mode is C35")
claim("C19","partial",["C19_sumprod_slice_partial","C19_sumprod_fiber_partial","C19_sumprod_slice_refuted","C19_sumprod_fiber_refuted"],"missing: sources of equal shape and different tiling, which the code does not reject; the _refuted theorems exhibit an out-of-range tile access")
claim("C20","partial",["C20_add_slice","C20_prod_slice","C20_add_slice3","C20_prod_fiber","C20_prod_fiber3","C20_add_fiber_partial","C20_add_fiber_refuted"],"missing: add_fiber with alpha = 0 and beta not 1, where the call returns without scaling dst; C20_add_fiber_refuted proves the full statement false of the code")
claim("C21","proved",["C21_maxsumexp","C21_maxsumexp_fresh","C21_tiling_independent","acc_mse_rep"],"scores finite or -inf, exact arithmetic; reduction mode is C35")
claim("C22","proved",["C22_softmax","C22_softmax_inplace","C22_softmax_distribution","C22_softmax_inplace_distribution","C22_softmax_shift","C22_throws"],"scores finite or -inf, exact arithmetic")
claim("C23","proved",["C23_logsumexp","C23_finite","C23_throws"],"scores finite or -inf, exact arithmetic")
claim("C24","partial",["C24_sumnorm","C24_normalize_partial","C24_normalize_throws"],"missing: normalize of an all-zero slice; the second clause of C24_normalize_partial proves that the code then computes 0/0 and writes NaN")
claim("C25","proved",["C25_nrm2","C25_nrm2_beta0"],"BLAS nrm2 modelled as its reference loop")
claim("C26","proved",["C26_transpose","C26_involution","C26_involution_R"])
claim("C27","proved",["C27_gemm_checks"],"BLAS gemm modelled as its reference loop; CBLAS_INT range checks not modelled")
claim("C28","proved",["C28_gemm","C28_gemm_generic","C28_gemm_beta0"],"reduction mode is C35; BLAS gemm modelled as its reference loop")
claim("C29","proved",["C29_adam_real","C29_adamw_real","C29_adam_step","C29_adamw_step"])
claim("C30","partial",["C30_embedding","C30_throws","C30_embedding_backward","C30_adjoint","C30_tiled_vocab_refuted","C30_unchecked_dimension_refuted","C30_axis_unchecked_refuted"],"proved for indices inside the first column tile of the vocabulary and a valid axis; the _refuted theorems show that a vocabulary tiled along its second dimension, an index tensor with the wrong number of dimensions, and axis = ndim are accepted by the checks and lead to out-of-bounds accesses")
claim("C31","proved",["C31_mask_scalar","C31_throws","C31_negative_batch_refuted"],"proved for batch_ndim >= 0; C31_negative_batch_refuted shows that a negative batch_ndim is not rejected")
claim("C32","proved",["C32_subtract_indexed_outputs","C32_throws","C32_total_sum_accum","C32_crossentropy"],"labels in range; exact arithmetic")
claim("C33","partial",["C33_program","C33_total_sum","C33_commute_refuted"],"proved bit for bit, for any scalar arithmetic, for every program over all modelled calls except total_sum_accum (non-redux); total_sum_accum declares STARPU_COMMUTE: schedule independence holds over the reals (C33_total_sum) and C33_commute_refuted proves it false in binary32")
claim("C34","partial",["C34_modes_partial","C34_total_sum","C34_no_leak","C34_gather_refuted"],"proved for all calls but gather and copy_intersection, whose first subcopy declares a write-only access and fills only part of the tile (C34_gather_refuted); C34_no_leak shows that no stale data survives in the result of any program")
claim("C35","proved",["C35_sum_slice","C35_sumprod_slice","C35_sum_fiber","C35_sumprod_fiber","C35_norm_slice","C35_gemm","C35_embedding_backward","C35_maxsumexp","C35_example","C35_maxsumexp_example","C35_binary32_refuted"],"exact arithmetic, for every operation that has a redux argument; C35_binary32_refuted shows that in binary32 the grouping of the private copies shows in the result, so the claim cannot hold bit for bit")
claim("C36","proved",["C36_relu","C36_gelu","C36_gelutanh","C36_relu_derivative","C36_gelu_derivative","C36_gelutanh_derivative","C36_relu_kink"],"over the reals")
claim("C37","proved",["C37_unpack"],"layout of the buffer written by starpu_codelet_pack_args trusted")
claim("C38","partial",["C38_unregistered_once","C38_invalid_mode_throws","C38_invalid_mode_leak_refuted","C38_no_error","C38_released_once","C38_double_release_refuted","C38_double_acquire_refuted","C38_copied_access_refuted"],"every handle registered with a supported mode is unregistered exactly once and every acquire is released exactly once when HandleLocalData objects are not copied and acquire/release are not repeated; the _refuted theorems show the histories on which the code fails (a handle constructed with an invalid mode is registered and never unregistered; double release, double acquire, copied HandleLocalData)")
claim("C39","proved",["C39_mask","C39_restrict_restore"])
claim("C40","proved",["C40_sum_slice","C40_sumprod_slice","C40_sum_fiber","C40_total_sum_accum"])
claim("C41","partial",["C41_adam_rejects_shapes","C41_adam_tiling_refuted","C41_addcdiv_tiling_refuted"],"shapes are rejected, but base tile shapes are not compared: the _refuted theorems exhibit out-of-range accesses")
claim("C42","proved",["C42_flash_attention","aweight_distribution","C42_example"],"exact arithmetic; BLAS gemm modelled as its reference loop")
claim("C43","proved",["C43_flash_backward","dq_derive","dk_derive","dv_derive","C43_example"],"exact arithmetic; derivatives in the sense of Coquelicot; BLAS gemm modelled as its reference loop")
claim("C44","partial",["C44_flash_unchecked"],"the property is false of the code, which checks nothing: C44_flash_unchecked exhibits an uneven sequence and a cut head dimension that are accepted and lead to an out-of-bounds access; C42/C43 prove safety for even tilings")
claim("C45","partial",["C45_tile_unary","C45_tile_binary","C45_tile_scaled","C45_tile_slices","C45_tile_fibers","C45_tile_softmax","C45_tile_losses","C45_tile_optimizers","C45_tile_gemm_agrees","C45_tile_gemm","C45_tile_nrm2","C45_tile_unchecked_ok","C45_tile_unchecked_refuted","C45_tile_mask_gemm_refuted","one_is_constructed"],"the full claim is false of four operations: tile gelutanh and sqrt do not compare the shapes (out-of-bounds write, C45_tile_unchecked_refuted), tile mask_scalar checks nothing and tile gemm refuses ndim = 0 (C45_tile_mask_gemm_refuted); tile sumnorm does not clear its output first; everything else agrees")
claim("C46","proved",["C46_linear","linE1"],"exact arithmetic; redux=False, no fp16/tf32 variants")
claim("C47","proved",["C47_layer_norm","lnE"],"exact arithmetic; redux=False")
claim("C48","proved",["C48_act","C48_add","C48_add_slice","C48_embedding","actE","addE","sliceE","embE"],"exact arithmetic; derivative of ReLU away from 0; vocabulary not tiled along its second dimension (see C30)")
claim("C49","proved",["C49_backprop_frob","model_backprop","modelT"],"exact arithmetic; models of Linear, LayerNorm, Act, Add, AddSlice and Embedding layers, and of any other layer with the properties layer_good")
claim("C50","proved",["C50_backprop_crossentropy","modelE","ceE"],"exact arithmetic; one minibatch; models as in C49")
claim("C51","proved",["C51_sgd_step","paramT"],"exact arithmetic; all parameters require gradients")
claim("C52","proved",["C52_train_batch","trainT","readyT"],"exact arithmetic; Frobenius loss and SGD")
claim("C53","proved",["C53_training","trainT","readyT"],"exact arithmetic; Frobenius loss and SGD; differentiability assumed at the iterates (automatic for GELU models)")
claim("C54","proved",["C54_adam_step","adamT","hyperT"],"exact arithmetic; all parameters require gradients")
claim("C55","proved",["C55_adam_training","setupT","adam_readyT"],"exact arithmetic; Frobenius loss; differentiability assumed at the iterates")
claim("C56","partial",["C56_amsgrad_as_coded","C56_amsgrad_wrong"],"the property is false of the code: adam.py:86 divides by the bias-correction factor instead of multiplying, so the step is the AMSGrad step with the learning rate divided by 1 - beta2^n (1000 times too long at the first step with the default beta2); C56_amsgrad_as_coded proves exactly that, C56_amsgrad_wrong that it always differs")
claim("C57","proved",["C57_attention","attn_layer_ok","attn_vjp"],"exact arithmetic; redux=False, no tf32/fp16 variants; head size times number of heads equal to the features of x_q, as the constructor enforces")
claim("C58","proved",["C58_flash_attention_layer","flash_layer_ok","flash_vjp"],"exact arithmetic; sequence, batch and heads cut into equal tiles and the head dimension not cut (what the flash operations themselves check or need); the mask is mandatory as in flash_attention.py")
claim("C59","proved",["C59_gpt2_training_step","C59_state_exists","gpt2_ok","gen_ce_ok","small_C59"],"exact arithmetic; for relu, at parameters where no preactivation is 0; flash attention only for equal tiles of sequence and batch; parameter initialisation and the handling of tags are not modelled")
claim("C60","proved",["C60_gpt2_causal","C60_logits_causal"],"exact arithmetic; the models C59 covers")
claim("C61","proved",["C61_gpt2_training","C61_state_exists","C61_example","gen_states_ok"],"exact arithmetic; the models C59 covers; for relu no preactivation is 0 at the iterates; hyperparameters of Adam as in C54; without amsgrad (C56)")
claim("C62","partial",["C62_mixer","C62_gap","C62_gap_overwrites"],"exact arithmetic; the claim that GAP adds to the gradient of x is false of the code (add_slice_async is called with beta 0.0): C62_gap_overwrites; C62_gap has the hypothesis that it was zero")
claim("C63","proved",["C63_mlp_mixer_training_step","seg_crossentropy","C63_state_exists"],"exact arithmetic; C63_state_exists: every instance has a state in which the step starts")
claim("C64","proved",["C64_sum_slice_fp32","C64_sum_fiber_fp32","C64_sumprod_slice_fp32","ex32_sum","exf32_sum","ksum_keeps_small_terms"],"binary32 arithmetic as written in the source: no reassociation, no contraction into fused multiply-add (the build sets neither -ffast-math nor -march); ex32_sum, exf32_sum: concrete instances; ksum_keeps_small_terms: 2^24+1+1 is summed exactly where plain summation loses both ones")
claim("C65","proved",["C65_mlp_mixer_training","C65_state_exists","C65_example"],"exact arithmetic; the models C63 covers; hyperparameters of Adam as in C54; without amsgrad (C56); C65_state_exists: every instance has a state in which the training starts")
claim("C66","proved",["C66_deep_relu_training","C66_state_exists","C66_example"],"exact arithmetic; side R (the loss wants the classes on the first axis); rectifiers away from the kink at the evaluated parameters; hyperparameters of Adam as in C54; without amsgrad (C56); C66_state_exists: every instance has a state in which the training starts")
claim("C67","proved",["C67_from_array","C67_to_array","C67_tile_from_array","C67_tile_to_array","C67_array_roundtrip","C67_tensor_roundtrip","C67_example_from_array","C67_example_to_array","C67_example_bad_shape"],"the array is the column-major memory the C++ function receives: conversions pybind11 makes before the call (dtype, C order) are outside the model")
claim("C68","partial",["C68_fused_checkpoint","C68_adam_checkpoint","C68_fused_adam_fp32_refuted","C68_other_dtype_refuted","C68_adam_amsgrad_refuted","C68_scalar_refuted","C68_example"],"the full claim is false of the code: FusedAdam with dtype fp32 cannot load its own file (C68_fused_adam_fp32_refuted), an unknown dtype saves nothing without an error (C68_other_dtype_refuted), Adam with amsgrad saves the last maximum for every parameter (C68_adam_amsgrad_refuted), parameters without dimensions cannot be saved (C68_scalar_refuted); proved in all other cases; pickle and the float16/bfloat16 conversions are parameters of the model")
claim("C69","proved",["C69_deep_relu_resumed_training","C69_gpt2_resumed_training","C69_mlp_mixer_resumed_training","C69_loaded_state","C69_adam_from_file","C69_fused_from_file","C69_example"],"over the reals; relu networks: no rectifier at its kink, as in C61/C66; from a file for Adam without amsgrad and FusedAdamW with dtype fp32 (the others: C68); the parameters themselves are assumed to be restored (BaseModel has no save); C69_example: two calls of the DeepReLU loop with Adam")
claim("C70","proved",["C70_from_torch","C70_pretrained_gpt2","C70_state_exists","C70_example","C70_example_mismatch"],"over the reals; the torch model is transformers' GPT2LMHeadModel in evaluation mode with an untied language head, described by GptTorchSpec.v and named_parameters (GptTorch.v), which are part of the trusted base; C70_pretrained_gpt2: not for the Relu activation (which GPT2 does not use); names are the lists of components that split('.') returns; all arrays are computed before the first is loaded")
claim("C71","proved",["C71_to_torch","C71_round_trip","C71_example"],"same torch model as C70; assignments that broadcast are not modelled (shapes always agree in the theorems)")
claim("C72","partial",["C72_pretrained_mixer_partial","C72_to_torch_partial","C72_round_trip","C72_square_refuted","C72_state_exists","C72_example","C72_example_square","C72_example_made"],"proved when the number of pixels of a patch differs from the number of features; when they are equal from_torch does not transpose the first weight (it compares the first dimensions) and the model made computes another function: refuted by C72_square_refuted. The torch model is modelled as real arithmetic")
claim("C73","proved",["C73_pretrained_deep_relu","C73_mismatch_raises","C73_single_layer_raises","C73_state_exists","C73_example"],"the torch model is modelled as real arithmetic (torch_mlp); the hypothesis that no rectifier is met at its kink is the one of C66")
claim("C74","proved",["C74_deep_relu_forward","C74_trained_deep_relu","C74_example"],"the input is written by copy_async from a tensor of the data set, as pipeline.py does; the example script fills it by from_array, which C67 treats")
claim("C75","proved",["C75_deep_linear_forward","C75_deep_linear_refuses","C75_state_exists","C75_example"],"next_tag and init_randn_async are not modelled")
claim("C76","proved",["C76_cross_entropy_accepts","C76_gpt2_refuses","C76_example"],"sufficient conditions for GPT2Model to be constructed are those of C61")
claim("C77","proved",["C77_deep_linear_step","C77_state_exists","C77_example"],"over the reals; next_tag and init_randn_async are not modelled")

here = os.path.dirname(os.path.abspath(__file__))
json.dump({"claims": C}, open(os.path.join(here, "..", "MANIFEST.json"), "w"), indent=1)
