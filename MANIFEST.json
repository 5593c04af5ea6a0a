{
 "claims": [
  {
   "property": "C01",
   "status": "proved",
   "theorems": [
    "C01_index_bijection"
   ],
   "note": ""
  },
  {
   "property": "C02",
   "status": "proved",
   "theorems": [
    "C02_tile_geometry"
   ],
   "note": "integer overflow of the products is not modelled"
  },
  {
   "property": "C03",
   "status": "proved",
   "theorems": [
    "C03_tiles_partition"
   ],
   "note": ""
  },
  {
   "property": "C04",
   "status": "proved",
   "theorems": [
    "C04_tensor_construction"
   ],
   "note": ""
  },
  {
   "property": "C05",
   "status": "partial",
   "theorems": [
    "C05_block_cyclic_partial",
    "C05_scalar_grid_refuted",
    "C05_zero_mpi_grid_refuted"
   ],
   "note": "holds for at least one dimension and a positive mpi grid; the scalar grid (index[-1]) and a zero mpi extent (division by zero) are undefined behaviour in the code and proved so"
  },
  {
   "property": "C06",
   "status": "proved",
   "theorems": [
    "C06_subcopy",
    "C06_strided"
   ],
   "note": ""
  },
  {
   "property": "C07",
   "status": "proved",
   "theorems": [
    "C07_copy_intersection"
   ],
   "note": ""
  },
  {
   "property": "C08",
   "status": "proved",
   "theorems": [
    "C08_copy_intersection"
   ],
   "note": ""
  },
  {
   "property": "C09",
   "status": "partial",
   "theorems": [
    "C09_scatter",
    "C09_gather",
    "C09_roundtrip",
    "C09_fp16_scatter_refuted",
    "C09_fp16_gather_refuted"
   ],
   "note": "proved for the codelets of fp32, fp64, int64 and bool; for fp16_t the codelet runs the fp32 kernel on a buffer half the size and the _refuted theorems prove that every multi-tile scatter and gather accesses memory out of bounds"
  },
  {
   "property": "C10",
   "status": "proved",
   "theorems": [
    "C10_randn",
    "C10_tiling_independent"
   ],
   "note": "64-bit unsigned arithmetic explicit, cos a parameter"
  },
  {
   "property": "C11",
   "status": "proved",
   "theorems": [
    "C11_step",
    "C11_jump",
    "C11_compose"
   ],
   "note": ""
  },
  {
   "property": "C12",
   "status": "proved",
   "theorems": [
    "C12_fill",
    "C12_clear",
    "C12_add_scalar",
    "C12_relu",
    "C12_drelu",
    "C12_gelu",
    "C12_dgelu",
    "C12_gelutanh_inplace",
    "C12_dgelutanh",
    "C12_sqrt_inplace",
    "C12_pow",
    "C12_scal_inplace",
    "C12_hypot_scalar_inverse",
    "C12_relu_forward",
    "C12_sqrt",
    "C12_gelutanh",
    "C12_prod",
    "C12_maximum",
    "C12_copy",
    "C12_relu_backward",
    "C12_gelu_backward",
    "C12_gelutanh_backward",
    "C12_addcdiv"
   ],
   "note": "for an arbitrary scalar arithmetic, so bit-exact; addcdiv for equal tilings (see C41)"
  },
  {
   "property": "C13",
   "status": "partial",
   "theorems": [
    "C13_add_partial",
    "C13_add_generic",
    "C13_add_refuted"
   ],
   "note": "missing: alpha = 0 with beta not 0 or 1, where add.cc:133 passes (nelems, beta) to a function expecting (beta, nelems); C13_add_refuted proves the full statement false of the code"
  },
  {
   "property": "C14",
   "status": "proved",
   "theorems": [
    "C14_scal",
    "C14_scal_generic",
    "C14_axpy",
    "C14_axpy_tensor",
    "C12_scal_inplace",
    "C12_prod",
    "C12_copy"
   ],
   "note": ""
  },
  {
   "property": "C15",
   "status": "partial",
   "theorems": [
    "C15_hypot_partial",
    "C15_hypot_generic",
    "C15_hypot_refuted"
   ],
   "note": "missing: alpha = 0 and beta = 1, where hypot returns early and leaves a negative dst unchanged; C15_hypot_refuted proves the full statement false of the code"
  },
  {
   "property": "C16",
   "status": "proved",
   "theorems": [
    "C16_sum_slice",
    "C16_sum_slice_beta0"
   ],
   "note": "ordered mode; reduction mode is C35"
  },
  {
   "property": "C17",
   "status": "proved",
   "theorems": [
    "C17_sum_fiber"
   ],
   "note": "ordered mode; reduction mode is C35"
  },
  {
   "property": "C18",
   "status": "proved",
   "theorems": [
    "C18_norm_slice"
   ],
   "note": "ordered mode; reduction mode is C35"
  },
  {
   "property": "C19",
   "status": "partial",
   "theorems": [
    "C19_sumprod_slice_partial",
    "C19_sumprod_fiber_partial",
    "C19_sumprod_slice_refuted",
    "C19_sumprod_fiber_refuted"
   ],
   "note": "missing: sources of equal shape and different tiling, which the code does not reject; the _refuted theorems exhibit an out-of-range tile access"
  },
  {
   "property": "C20",
   "status": "partial",
   "theorems": [
    "C20_add_slice",
    "C20_prod_slice",
    "C20_add_slice3",
    "C20_prod_fiber",
    "C20_prod_fiber3",
    "C20_add_fiber_partial",
    "C20_add_fiber_refuted"
   ],
   "note": "missing: add_fiber with alpha = 0 and beta not 1, where the call returns without scaling dst; C20_add_fiber_refuted proves the full statement false of the code"
  },
  {
   "property": "C21",
   "status": "proved",
   "theorems": [
    "C21_maxsumexp",
    "C21_maxsumexp_fresh",
    "C21_tiling_independent",
    "acc_mse_rep"
   ],
   "note": "scores finite or -inf, exact arithmetic; reduction mode is C35"
  },
  {
   "property": "C22",
   "status": "proved",
   "theorems": [
    "C22_softmax",
    "C22_softmax_inplace",
    "C22_softmax_distribution",
    "C22_softmax_inplace_distribution",
    "C22_softmax_shift",
    "C22_throws"
   ],
   "note": "scores finite or -inf, exact arithmetic"
  },
  {
   "property": "C23",
   "status": "proved",
   "theorems": [
    "C23_logsumexp",
    "C23_finite",
    "C23_throws"
   ],
   "note": "scores finite or -inf, exact arithmetic"
  },
  {
   "property": "C24",
   "status": "partial",
   "theorems": [
    "C24_sumnorm",
    "C24_normalize_partial",
    "C24_normalize_throws"
   ],
   "note": "missing: normalize of an all-zero slice; the second clause of C24_normalize_partial proves that the code then computes 0/0 and writes NaN"
  },
  {
   "property": "C25",
   "status": "proved",
   "theorems": [
    "C25_nrm2",
    "C25_nrm2_beta0"
   ],
   "note": "BLAS nrm2 modelled as its reference loop"
  },
  {
   "property": "C26",
   "status": "proved",
   "theorems": [
    "C26_transpose",
    "C26_involution",
    "C26_involution_R"
   ],
   "note": ""
  },
  {
   "property": "C27",
   "status": "proved",
   "theorems": [
    "C27_gemm_checks"
   ],
   "note": "BLAS gemm modelled as its reference loop; CBLAS_INT range checks not modelled"
  },
  {
   "property": "C28",
   "status": "proved",
   "theorems": [
    "C28_gemm",
    "C28_gemm_generic",
    "C28_gemm_beta0"
   ],
   "note": "reduction mode is C35; BLAS gemm modelled as its reference loop"
  },
  {
   "property": "C29",
   "status": "proved",
   "theorems": [
    "C29_adam_real",
    "C29_adamw_real",
    "C29_adam_step",
    "C29_adamw_step"
   ],
   "note": ""
  },
  {
   "property": "C30",
   "status": "partial",
   "theorems": [
    "C30_embedding",
    "C30_throws",
    "C30_embedding_backward",
    "C30_adjoint",
    "C30_tiled_vocab_refuted",
    "C30_unchecked_dimension_refuted",
    "C30_axis_unchecked_refuted"
   ],
   "note": "proved for indices inside the first column tile of the vocabulary and a valid axis; the _refuted theorems show that a vocabulary tiled along its second dimension, an index tensor with the wrong number of dimensions, and axis = ndim are accepted by the checks and lead to out-of-bounds accesses"
  },
  {
   "property": "C31",
   "status": "proved",
   "theorems": [
    "C31_mask_scalar",
    "C31_throws",
    "C31_negative_batch_refuted"
   ],
   "note": "proved for batch_ndim >= 0; C31_negative_batch_refuted shows that a negative batch_ndim is not rejected"
  },
  {
   "property": "C32",
   "status": "proved",
   "theorems": [
    "C32_subtract_indexed_outputs",
    "C32_throws",
    "C32_total_sum_accum",
    "C32_crossentropy"
   ],
   "note": "labels in range; exact arithmetic"
  },
  {
   "property": "C33",
   "status": "partial",
   "theorems": [
    "C33_program",
    "C33_total_sum",
    "C33_commute_refuted"
   ],
   "note": "proved bit for bit, for any scalar arithmetic, for every program over all modelled calls except total_sum_accum (non-redux); total_sum_accum declares STARPU_COMMUTE: schedule independence holds over the reals (C33_total_sum) and C33_commute_refuted proves it false in binary32"
  },
  {
   "property": "C34",
   "status": "partial",
   "theorems": [
    "C34_modes_partial",
    "C34_total_sum",
    "C34_no_leak",
    "C34_gather_refuted"
   ],
   "note": "proved for all calls but gather and copy_intersection, whose first subcopy declares a write-only access and fills only part of the tile (C34_gather_refuted); C34_no_leak shows that no stale data survives in the result of any program"
  },
  {
   "property": "C35",
   "status": "proved",
   "theorems": [
    "C35_sum_slice",
    "C35_sumprod_slice",
    "C35_sum_fiber",
    "C35_sumprod_fiber",
    "C35_norm_slice",
    "C35_gemm",
    "C35_embedding_backward",
    "C35_maxsumexp",
    "C35_example",
    "C35_maxsumexp_example",
    "C35_binary32_refuted"
   ],
   "note": "exact arithmetic, for every operation that has a redux argument; C35_binary32_refuted shows that in binary32 the grouping of the private copies shows in the result, so the claim cannot hold bit for bit"
  },
  {
   "property": "C36",
   "status": "proved",
   "theorems": [
    "C36_relu",
    "C36_gelu",
    "C36_gelutanh",
    "C36_relu_derivative",
    "C36_gelu_derivative",
    "C36_gelutanh_derivative",
    "C36_relu_kink"
   ],
   "note": "over the reals"
  },
  {
   "property": "C37",
   "status": "proved",
   "theorems": [
    "C37_unpack"
   ],
   "note": "layout of the buffer written by starpu_codelet_pack_args trusted"
  },
  {
   "property": "C38",
   "status": "partial",
   "theorems": [
    "C38_unregistered_once",
    "C38_invalid_mode_throws",
    "C38_invalid_mode_leak_refuted",
    "C38_no_error",
    "C38_released_once",
    "C38_double_release_refuted",
    "C38_double_acquire_refuted",
    "C38_copied_access_refuted"
   ],
   "note": "every handle registered with a supported mode is unregistered exactly once and every acquire is released exactly once when HandleLocalData objects are not copied and acquire/release are not repeated; the _refuted theorems show the histories on which the code fails (a handle constructed with an invalid mode is registered and never unregistered; double release, double acquire, copied HandleLocalData)"
  },
  {
   "property": "C39",
   "status": "proved",
   "theorems": [
    "C39_mask",
    "C39_restrict_restore"
   ],
   "note": ""
  },
  {
   "property": "C40",
   "status": "proved",
   "theorems": [
    "C40_sum_slice",
    "C40_sumprod_slice",
    "C40_sum_fiber",
    "C40_total_sum_accum"
   ],
   "note": ""
  },
  {
   "property": "C41",
   "status": "partial",
   "theorems": [
    "C41_adam_rejects_shapes",
    "C41_adam_tiling_refuted",
    "C41_addcdiv_tiling_refuted"
   ],
   "note": "shapes are rejected, but base tile shapes are not compared: the _refuted theorems exhibit out-of-range accesses"
  },
  {
   "property": "C42",
   "status": "proved",
   "theorems": [
    "C42_flash_attention",
    "aweight_distribution",
    "C42_example"
   ],
   "note": "exact arithmetic; BLAS gemm modelled as its reference loop"
  },
  {
   "property": "C43",
   "status": "proved",
   "theorems": [
    "C43_flash_backward",
    "dq_derive",
    "dk_derive",
    "dv_derive",
    "C43_example"
   ],
   "note": "exact arithmetic; derivatives in the sense of Coquelicot; BLAS gemm modelled as its reference loop"
  },
  {
   "property": "C44",
   "status": "partial",
   "theorems": [
    "C44_flash_unchecked"
   ],
   "note": "the property is false of the code, which checks nothing: C44_flash_unchecked exhibits an uneven sequence and a cut head dimension that are accepted and lead to an out-of-bounds access; C42/C43 prove safety for even tilings"
  },
  {
   "property": "C45",
   "status": "partial",
   "theorems": [
    "C45_tile_unary",
    "C45_tile_binary",
    "C45_tile_scaled",
    "C45_tile_slices",
    "C45_tile_fibers",
    "C45_tile_softmax",
    "C45_tile_losses",
    "C45_tile_optimizers",
    "C45_tile_gemm_agrees",
    "C45_tile_gemm",
    "C45_tile_nrm2",
    "C45_tile_unchecked_ok",
    "C45_tile_unchecked_refuted",
    "C45_tile_mask_gemm_refuted",
    "one_is_constructed"
   ],
   "note": "the full claim is false of four operations: tile gelutanh and sqrt do not compare the shapes (out-of-bounds write, C45_tile_unchecked_refuted), tile mask_scalar checks nothing and tile gemm refuses ndim = 0 (C45_tile_mask_gemm_refuted); tile sumnorm does not clear its output first; everything else agrees"
  },
  {
   "property": "C46",
   "status": "proved",
   "theorems": [
    "C46_linear",
    "linE1"
   ],
   "note": "exact arithmetic; redux=False, no fp16/tf32 variants"
  },
  {
   "property": "C47",
   "status": "proved",
   "theorems": [
    "C47_layer_norm",
    "lnE"
   ],
   "note": "exact arithmetic; redux=False"
  },
  {
   "property": "C48",
   "status": "proved",
   "theorems": [
    "C48_act",
    "C48_add",
    "C48_add_slice",
    "C48_embedding",
    "actE",
    "addE",
    "sliceE",
    "embE"
   ],
   "note": "exact arithmetic; derivative of ReLU away from 0; vocabulary not tiled along its second dimension (see C30)"
  },
  {
   "property": "C49",
   "status": "proved",
   "theorems": [
    "C49_backprop_frob",
    "model_backprop",
    "modelT"
   ],
   "note": "exact arithmetic; models of Linear, LayerNorm, Act, Add, AddSlice and Embedding layers, and of any other layer with the properties layer_good"
  },
  {
   "property": "C50",
   "status": "proved",
   "theorems": [
    "C50_backprop_crossentropy",
    "modelE",
    "ceE"
   ],
   "note": "exact arithmetic; one minibatch; models as in C49"
  },
  {
   "property": "C51",
   "status": "proved",
   "theorems": [
    "C51_sgd_step",
    "paramT"
   ],
   "note": "exact arithmetic; all parameters require gradients"
  },
  {
   "property": "C52",
   "status": "proved",
   "theorems": [
    "C52_train_batch",
    "trainT",
    "readyT"
   ],
   "note": "exact arithmetic; Frobenius loss and SGD"
  },
  {
   "property": "C53",
   "status": "proved",
   "theorems": [
    "C53_training",
    "trainT",
    "readyT"
   ],
   "note": "exact arithmetic; Frobenius loss and SGD; differentiability assumed at the iterates (automatic for GELU models)"
  },
  {
   "property": "C54",
   "status": "proved",
   "theorems": [
    "C54_adam_step",
    "adamT",
    "hyperT"
   ],
   "note": "exact arithmetic; all parameters require gradients"
  },
  {
   "property": "C55",
   "status": "proved",
   "theorems": [
    "C55_adam_training",
    "setupT",
    "adam_readyT"
   ],
   "note": "exact arithmetic; Frobenius loss; differentiability assumed at the iterates"
  },
  {
   "property": "C56",
   "status": "partial",
   "theorems": [
    "C56_amsgrad_as_coded",
    "C56_amsgrad_wrong"
   ],
   "note": "the property is false of the code: adam.py:86 divides by the bias-correction factor instead of multiplying, so the step is the AMSGrad step with the learning rate divided by 1 - beta2^n (1000 times too long at the first step with the default beta2); C56_amsgrad_as_coded proves exactly that, C56_amsgrad_wrong that it always differs"
  },
  {
   "property": "C57",
   "status": "proved",
   "theorems": [
    "C57_attention",
    "attn_layer_ok",
    "attn_vjp"
   ],
   "note": "exact arithmetic; redux=False, no tf32/fp16 variants; head size times number of heads equal to the features of x_q, as the constructor enforces"
  },
  {
   "property": "C58",
   "status": "proved",
   "theorems": [
    "C58_flash_attention_layer",
    "flash_layer_ok",
    "flash_vjp"
   ],
   "note": "exact arithmetic; sequence, batch and heads cut into equal tiles and the head dimension not cut (what the flash operations themselves check or need); the mask is mandatory as in flash_attention.py"
  },
  {
   "property": "C59",
   "status": "proved",
   "theorems": [
    "C59_gpt2_training_step",
    "C59_state_exists",
    "gpt2_ok",
    "gen_ce_ok",
    "small_C59"
   ],
   "note": "exact arithmetic; for relu, at parameters where no preactivation is 0; flash attention only for equal tiles of sequence and batch; parameter initialisation and the handling of tags are not modelled"
  },
  {
   "property": "C60",
   "status": "proved",
   "theorems": [
    "C60_gpt2_causal",
    "C60_logits_causal"
   ],
   "note": "exact arithmetic; the models C59 covers"
  },
  {
   "property": "C61",
   "status": "proved",
   "theorems": [
    "C61_gpt2_training",
    "C61_state_exists",
    "C61_example",
    "gen_states_ok"
   ],
   "note": "exact arithmetic; the models C59 covers; for relu no preactivation is 0 at the iterates; hyperparameters of Adam as in C54; without amsgrad (C56)"
  },
  {
   "property": "C62",
   "status": "partial",
   "theorems": [
    "C62_mixer",
    "C62_gap",
    "C62_gap_overwrites"
   ],
   "note": "exact arithmetic; the claim that GAP adds to the gradient of x is false of the code (add_slice_async is called with beta 0.0): C62_gap_overwrites; C62_gap has the hypothesis that it was zero"
  },
  {
   "property": "C63",
   "status": "proved",
   "theorems": [
    "C63_mlp_mixer_training_step",
    "seg_crossentropy",
    "C63_state_exists"
   ],
   "note": "exact arithmetic; C63_state_exists: every instance has a state in which the step starts"
  },
  {
   "property": "C64",
   "status": "proved",
   "theorems": [
    "C64_sum_slice_fp32",
    "C64_sum_fiber_fp32",
    "C64_sumprod_slice_fp32",
    "ex32_sum",
    "exf32_sum",
    "ksum_keeps_small_terms"
   ],
   "note": "binary32 arithmetic as written in the source: no reassociation, no contraction into fused multiply-add (the build sets neither -ffast-math nor -march); ex32_sum, exf32_sum: concrete instances; ksum_keeps_small_terms: 2^24+1+1 is summed exactly where plain summation loses both ones"
  },
  {
   "property": "C65",
   "status": "proved",
   "theorems": [
    "C65_mlp_mixer_training",
    "C65_state_exists",
    "C65_example"
   ],
   "note": "exact arithmetic; the models C63 covers; hyperparameters of Adam as in C54; without amsgrad (C56); C65_state_exists: every instance has a state in which the training starts"
  },
  {
   "property": "C66",
   "status": "proved",
   "theorems": [
    "C66_deep_relu_training",
    "C66_state_exists",
    "C66_example"
   ],
   "note": "exact arithmetic; side R (the loss wants the classes on the first axis); rectifiers away from the kink at the evaluated parameters; hyperparameters of Adam as in C54; without amsgrad (C56); C66_state_exists: every instance has a state in which the training starts"
  },
  {
   "property": "C67",
   "status": "proved",
   "theorems": [
    "C67_from_array",
    "C67_to_array",
    "C67_tile_from_array",
    "C67_tile_to_array",
    "C67_array_roundtrip",
    "C67_tensor_roundtrip",
    "C67_example_from_array",
    "C67_example_to_array",
    "C67_example_bad_shape"
   ],
   "note": "the array is the column-major memory the C++ function receives: conversions pybind11 makes before the call (dtype, C order) are outside the model"
  },
  {
   "property": "C68",
   "status": "partial",
   "theorems": [
    "C68_fused_checkpoint",
    "C68_adam_checkpoint",
    "C68_fused_adam_fp32_refuted",
    "C68_other_dtype_refuted",
    "C68_adam_amsgrad_refuted",
    "C68_scalar_refuted",
    "C68_example"
   ],
   "note": "the full claim is false of the code: FusedAdam with dtype fp32 cannot load its own file (C68_fused_adam_fp32_refuted), an unknown dtype saves nothing without an error (C68_other_dtype_refuted), Adam with amsgrad saves the last maximum for every parameter (C68_adam_amsgrad_refuted), parameters without dimensions cannot be saved (C68_scalar_refuted); proved in all other cases; pickle and the float16/bfloat16 conversions are parameters of the model"
  },
  {
   "property": "C69",
   "status": "proved",
   "theorems": [
    "C69_deep_relu_resumed_training",
    "C69_gpt2_resumed_training",
    "C69_mlp_mixer_resumed_training",
    "C69_loaded_state",
    "C69_adam_from_file",
    "C69_fused_from_file",
    "C69_example"
   ],
   "note": "over the reals; relu networks: no rectifier at its kink, as in C61/C66; from a file for Adam without amsgrad and FusedAdamW with dtype fp32 (the others: C68); the parameters themselves are assumed to be restored (BaseModel has no save); C69_example: two calls of the DeepReLU loop with Adam"
  },
  {
   "property": "C70",
   "status": "proved",
   "theorems": [
    "C70_from_torch",
    "C70_pretrained_gpt2",
    "C70_state_exists",
    "C70_example",
    "C70_example_mismatch"
   ],
   "note": "over the reals; the torch model is transformers' GPT2LMHeadModel in evaluation mode with an untied language head, described by GptTorchSpec.v and named_parameters (GptTorch.v), which are part of the trusted base; C70_pretrained_gpt2: not for the Relu activation (which GPT2 does not use); names are the lists of components that split('.') returns; all arrays are computed before the first is loaded"
  },
  {
   "property": "C71",
   "status": "proved",
   "theorems": [
    "C71_to_torch",
    "C71_round_trip",
    "C71_example"
   ],
   "note": "same torch model as C70; assignments that broadcast are not modelled (shapes always agree in the theorems)"
  },
  {
   "property": "C72",
   "status": "partial",
   "theorems": [
    "C72_pretrained_mixer_partial",
    "C72_to_torch_partial",
    "C72_round_trip",
    "C72_square_refuted",
    "C72_state_exists",
    "C72_example",
    "C72_example_square",
    "C72_example_made"
   ],
   "note": "proved when the number of pixels of a patch differs from the number of features; when they are equal from_torch does not transpose the first weight (it compares the first dimensions) and the model made computes another function: refuted by C72_square_refuted. The torch model is modelled as real arithmetic"
  },
  {
   "property": "C73",
   "status": "proved",
   "theorems": [
    "C73_pretrained_deep_relu",
    "C73_mismatch_raises",
    "C73_single_layer_raises",
    "C73_state_exists",
    "C73_example"
   ],
   "note": "the torch model is modelled as real arithmetic (torch_mlp); the hypothesis that no rectifier is met at its kink is the one of C66"
  },
  {
   "property": "C74",
   "status": "proved",
   "theorems": [
    "C74_deep_relu_forward",
    "C74_trained_deep_relu",
    "C74_example"
   ],
   "note": "the input is written by copy_async from a tensor of the data set, as pipeline.py does; the example script fills it by from_array, which C67 treats"
  },
  {
   "property": "C75",
   "status": "proved",
   "theorems": [
    "C75_deep_linear_forward",
    "C75_deep_linear_refuses",
    "C75_state_exists",
    "C75_example"
   ],
   "note": "next_tag and init_randn_async are not modelled"
  },
  {
   "property": "C76",
   "status": "proved",
   "theorems": [
    "C76_cross_entropy_accepts",
    "C76_gpt2_refuses",
    "C76_example"
   ],
   "note": "sufficient conditions for GPT2Model to be constructed are those of C61"
  },
  {
   "property": "C77",
   "status": "proved",
   "theorems": [
    "C77_deep_linear_step",
    "C77_state_exists",
    "C77_example"
   ],
   "note": "over the reals; next_tag and init_randn_async are not modelled"
  }
 ]
}