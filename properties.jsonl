{"id": "C01", "title": "Tile coordinates and linear offsets are inverse bijections", "statement": "For a tile of any shape, index_to_linear maps the valid coordinates one-to-one onto [0,nelems), linear_to_index is its inverse, and each call throws exactly when its argument is outside the tile (wrong number of coordinates, a negative or too large coordinate, a negative or too large offset) and never reads outside its vectors.", "quantifier": "every number of dimensions (including 0), every positive shape, every coordinate vector and every offset", "why_tests_cant": "Tests exercise a handful of shapes; a bijection is a statement about all of them.", "anchors": ["include/nntile/tile/traits.hh: TileTraits::index_to_linear, TileTraits::linear_to_index, TileTraits::contains_index"]}
{"id": "C02", "title": "Tile geometry is Fortran order and is rejected when not positive", "statement": "Constructing a tile with a given shape succeeds exactly when all extents are positive; then nelems is the product of extents, stride[i] is the product of the first i extents and matrix_shape[i] is the pair (product of the first i extents, product of the rest), so rows*cols = nelems for every split.", "quantifier": "every shape vector of every length", "why_tests_cant": "Infinite number of shapes.", "anchors": ["include/nntile/tile/traits.hh: TileTraits::TileTraits, TileTraits::_check_shape"]}
{"id": "C03", "title": "The tiles of a tensor partition its elements", "statement": "For any tensor shape and base tile shape, every element coordinate lies in exactly one tile of the grid, at a coordinate inside that tile's own shape, and every coordinate of every tile is an element of the tensor; tile extents are positive, never exceed the base tile, and equal it except possibly for the last tile of each dimension; the tile sizes add up to the number of elements.", "quantifier": "every shape, base tile shape, element coordinate and tile coordinate", "why_tests_cant": "Off-by-one errors in ceil-division and leftover tiles show up only for particular remainders.", "anchors": ["include/nntile/tensor/traits.hh: TensorTraits::TensorTraits, _get_grid_shape, _get_leftover_shape, get_tile_shape"]}
{"id": "C04", "title": "Tensor traits and tensors are accepted exactly when well formed", "statement": "TensorTraits can be constructed exactly when shape and base tile have the same number of dimensions and all extents are positive; get_tile_shape throws exactly outside the grid; a Tensor is constructed exactly when the distribution lists one node per tile, and then tile i has the traits of the i-th grid coordinate and its own storage of exactly that many elements; get_tile(offset) and get_tile(index) throw exactly outside the grid.", "quantifier": "every traits/distribution/offset/coordinate argument", "why_tests_cant": "Error behaviour must hold for every malformed input.", "anchors": ["include/nntile/tensor/traits.hh: TensorTraits", "include/nntile/tensor/tensor.hh: Tensor::Tensor, Tensor::get_tile, Tensor::get_tile_handle, Tensor::get_tile_traits"]}
{"id": "C05", "title": "block_cyclic distributes every tile to an existing node", "statement": "block_cyclic returns one rank per tile, each in [0,max_rank), equal to (start_rank + column-major position of (tile index mod mpi grid)) mod max_rank, hence periodic with the mpi grid; malformed arguments throw; for the scalar (0-dimensional) tensor grid it should do so as well.", "quantifier": "every tensor grid, mpi grid, start and maximum rank", "why_tests_cant": "Unbounded argument space.", "anchors": ["src/tensor/distributions.cc: block_cyclic"]}
{"id": "C06", "title": "Sub-box copy touches exactly the box", "statement": "The sub-array copy kernel copies exactly the elements of the given box from the source (at its start and strides) to the destination (at its start and strides), leaves every other destination element unchanged and never accesses memory outside the two buffers, whenever both boxes lie inside their tiles.", "quantifier": "every dimension count, box, strides and starts that fit the tiles", "why_tests_cant": "The kernel is an incremental odometer over an arbitrary number of dimensions.", "anchors": ["src/kernel/subcopy/cpu.cc: cpu", "src/starpu/subcopy.cc: submit, cpu"]}
{"id": "C07", "title": "Tile copy_intersection copies exactly the intersection", "statement": "Given two tiles placed at offsets in a common coordinate space, copy_intersection sets every destination element whose global coordinate also lies in the source tile to the source value, changes nothing else, does nothing if the boxes do not meet, and throws on mismatched dimensions.", "quantifier": "all shapes and all (possibly negative) offsets", "why_tests_cant": "Relative placements of two boxes are unbounded.", "anchors": ["src/tile/copy_intersection.cc: copy_intersection_async"]}
{"id": "C08", "title": "Tensor copy_intersection is independent of both tilings", "statement": "copy_intersection between two tensors with arbitrary unrelated tilings and offsets sets every destination element whose global coordinate lies in the source tensor to that source element and leaves every other destination element unchanged.", "quantifier": "all shapes, base tiles and offsets of both tensors", "why_tests_cant": "Depends on every combination of tile boundaries crossing each other.", "anchors": ["src/tensor/copy_intersection.cc: copy_intersection_async"]}
{"id": "C09", "title": "scatter and gather are inverse data movements", "statement": "scatter followed by gather returns the original single-tile tensor; each sets every element of its destination to the element of the source with the same coordinate.", "quantifier": "all shapes and tilings, all contents", "why_tests_cant": "Ranges over all tilings and contents.", "anchors": ["src/tensor/scatter.cc: scatter_async", "src/tensor/gather.cc: gather_async"]}
{"id": "C10", "title": "Random generation does not depend on tiling", "statement": "randn of a window of an underlying tensor writes into each element the pseudo-random value determined only by the seed and by that element's coordinate in the underlying tensor: neither tiling nor the order of tiles matters, so the same tensor generated with different tilings (or as a window of it) has identical contents.", "quantifier": "all seeds, shapes, windows and tilings", "why_tests_cant": "Requires the jump-ahead law of the generator for every jump length and every split into tiles.", "anchors": ["src/tensor/randn.cc: randn_async", "src/kernel/randn/cpu.cc: cpu, cpu_ndim0", "src/starpu/randn.cc: cpu", "external/random.h: CORE_rnd64_jump"]}
{"id": "C11", "title": "The jump-ahead of the generator equals stepping", "statement": "CORE_rnd64_jump(n, seed) is the state reached from seed after exactly 2n single steps of the 64-bit linear congruential generator, modulo 2^64, and jumping by a then b equals jumping by a+b.", "quantifier": "all jump lengths below 2^63 and all seeds", "why_tests_cant": "2^63 jump lengths.", "anchors": ["external/random.h: CORE_rnd64_jump, CORE_dlaran, CORE_slaran"]}
{"id": "C12", "title": "Element-wise operations do not see the tiling", "statement": "fill, clear, add_scalar, scal_inplace, pow, sqrt, sqrt_inplace, relu, relu_forward, drelu, gelu, gelutanh, gelutanh_inplace, dgelu, dgelutanh, hypot_scalar_inverse, copy, prod, maximum, addcdiv, relu_backward, gelu_backward and gelutanh_backward apply their scalar formula to every element exactly once and write nothing else; the outcome is bit-for-bit the same for every tiling.", "quantifier": "every shape, tiling, contents and every interpretation of the scalar arithmetic (including IEEE)", "why_tests_cant": "All tilings and contents.", "anchors": ["src/tensor/*.cc", "src/kernel/{fill,add_scalar,pow,sqrt,relu,gelu,gelutanh,prod,maximum,addcdiv,...}/cpu.cc"]}
{"id": "C13", "title": "add computes alpha*src+beta*dst", "statement": "tensor::add(alpha, src, beta, dst) replaces every dst element by alpha*src+beta*dst, for every alpha and beta including the special values 0 and 1.", "quantifier": "all alpha, beta, shapes, tilings and contents", "why_tests_cant": "Special-case dispatch on coefficient values.", "anchors": ["src/tensor/add.cc: add_async", "src/starpu/add.cc: submit", "src/starpu/scal_inplace.cc.in: submit", "src/kernel/add/cpu.cc"]}
{"id": "C14", "title": "scal, axpy, prod and copy semantics", "statement": "scal sets dst=alpha*src, axpy adds alpha*src to dst (with a host scalar or a scalar tensor alpha), scal_inplace multiplies by alpha, each on every element of every tile and nothing else.", "quantifier": "all coefficients, shapes, tilings, contents", "why_tests_cant": "All tilings.", "anchors": ["src/tensor/scal.cc", "src/tensor/axpy.cc", "src/tensor/scal_inplace.cc"]}
{"id": "C15", "title": "hypot computes the Euclidean combination", "statement": "tensor::hypot(alpha, src, beta, dst) replaces every dst element by sqrt((alpha*src)^2+(beta*dst)^2), for every alpha and beta including special values.", "quantifier": "all alpha, beta, tilings, contents", "why_tests_cant": "Special-case dispatch on coefficient values.", "anchors": ["src/tensor/hypot.cc: hypot_async", "src/starpu/hypot.cc: submit", "src/kernel/hypot/cpu.cc"]}
{"id": "C16", "title": "sum_slice sums along an axis for every tiling", "statement": "sum_slice sets dst[..] = beta*dst[..] + alpha*sum over the chosen axis of src, over the whole tensor extent and not per tile, for every axis; if beta is 0 the previous dst contents (even uninitialised) are irrelevant.", "quantifier": "all shapes, tilings, axes, coefficients, contents", "why_tests_cant": "beta must be applied exactly once however many tiles the axis is split into.", "anchors": ["src/tensor/sum_slice.cc: sum_slice_async", "src/starpu/sum_slice.cc", "src/kernel/sum_slice/cpu.cc"]}
{"id": "C17", "title": "sum_fiber sums over all other axes for every tiling", "statement": "sum_fiber sets dst[k,b] = beta*dst + alpha*sum of src over all coordinates with the given axis coordinate k and batch coordinates b, for every tiling.", "quantifier": "all shapes, tilings, axes, batch dims, coefficients, contents", "why_tests_cant": "beta must be applied exactly once per destination tile.", "anchors": ["src/tensor/sum_fiber.cc: sum_fiber_async", "src/kernel/sum_fiber/cpu.cc"]}
{"id": "C18", "title": "norm_slice computes norms along an axis for every tiling", "statement": "norm_slice sets dst = sqrt((beta*dst)^2 + alpha^2 * sum of squares of src along the axis), for every tiling and axis.", "quantifier": "all shapes, tilings, axes, coefficients, contents", "why_tests_cant": "Scaled-sum-of-squares updates over all tile splits.", "anchors": ["src/tensor/norm_slice.cc", "src/kernel/norm_slice/cpu.cc"]}
{"id": "C19", "title": "sumprod_slice and sumprod_fiber contract products", "statement": "sumprod_slice and sumprod_fiber set dst = beta*dst + alpha*sum of src1*src2 along the axis (respectively over all other axes); arguments whose tilings do not match are rejected.", "quantifier": "all shapes, tilings, axes, coefficients, contents", "why_tests_cant": "All tilings of two sources.", "anchors": ["src/tensor/sumprod_slice.cc", "src/tensor/sumprod_fiber.cc", "src/kernel/sumprod_slice/cpu.cc", "src/kernel/sumprod_fiber/cpu.cc"]}
{"id": "C20", "title": "Broadcasts along slices and fibers", "statement": "add_slice, add_slice3, prod_slice, add_fiber, prod_fiber and prod_fiber3 combine each element of the big tensor with the element of the small tensor obtained by dropping (slice) or keeping only (fiber) the axis coordinate, with the documented alpha/beta formula, for every tiling.", "quantifier": "all shapes, tilings, axes, coefficients, contents", "why_tests_cant": "All tilings.", "anchors": ["src/tensor/add_slice.cc", "src/tensor/add_slice3.cc", "src/tensor/prod_slice.cc", "src/tensor/add_fiber.cc", "src/tensor/prod_fiber.cc", "src/tensor/prod_fiber3.cc"]}
{"id": "C21", "title": "maxsumexp is a tiling-independent stable log-sum-exp pair", "statement": "maxsumexp updates dst so that it holds (max, sum of exp(x-max)) over the whole axis together with what dst held before, for every tiling; the pair (0,0) stands for the empty set.", "quantifier": "all shapes, tilings, axes, contents", "why_tests_cant": "Merging of partial maxima over every split.", "anchors": ["src/tensor/maxsumexp.cc", "src/kernel/maxsumexp/cpu.cc", "src/kernel/accumulate_maxsumexp/cpu.cc"]}
{"id": "C22", "title": "softmax rows are probability distributions", "statement": "softmax (and softmax_inplace) with the pair computed by maxsumexp and alpha=1 gives exp(x)/sum exp: entries are positive, sum to one along the axis, are unchanged by adding a constant to the axis and do not depend on the tiling.", "quantifier": "all shapes, tilings, axes, contents", "why_tests_cant": "Real-number identity over all inputs.", "anchors": ["src/tensor/softmax.cc", "src/tensor/softmax_inplace.cc", "src/kernel/softmax/cpu.cc", "src/kernel/softmax_inplace/cpu.cc"]}
{"id": "C23", "title": "logsumexp is the logarithm of the sum of exponents", "statement": "logsumexp applied to the maxsumexp of an axis gives ln(sum exp(x)) for every element.", "quantifier": "all shapes, tilings, contents", "why_tests_cant": "Real-number identity over all inputs.", "anchors": ["src/tensor/logsumexp.cc", "src/kernel/logsumexp/cpu.cc"]}
{"id": "C24", "title": "sumnorm and normalize implement layer normalisation statistics", "statement": "sumnorm writes (sum, Euclidean norm) along the axis for every tiling; normalize then maps x to gamma*(x-mean)/sqrt(var+eps)+beta with mean and population variance of the axis.", "quantifier": "all shapes, tilings, axes, contents, eps>0", "why_tests_cant": "All contents, including all-zero slices.", "anchors": ["src/tensor/sumnorm.cc", "src/tensor/normalize.cc", "src/kernel/sumnorm/cpu.cc", "src/kernel/normalize/cpu.cc"]}
{"id": "C25", "title": "nrm2 is the Euclidean norm of the whole tensor", "statement": "tensor::nrm2 sets dst = sqrt((beta*dst)^2 + alpha^2*sum of squares of all elements), whatever the tiling; with beta=0 the old value of dst is irrelevant.", "quantifier": "all shapes, tilings, coefficients, contents", "why_tests_cant": "All tilings.", "anchors": ["src/tensor/nrm2.cc", "src/tile/nrm2.cc", "src/starpu/nrm2.cc.in"]}
{"id": "C26", "title": "transpose permutes coordinates and is undone by the complementary transpose", "statement": "transpose(alpha, src, dst, ndim) sets dst[j..,i..] = alpha*src[i..,j..] where the first ndim coordinates move to the end; transposing back with alpha=1 restores the tensor.", "quantifier": "all shapes, tilings, split points, contents", "why_tests_cant": "All tilings and dimension splits.", "anchors": ["src/tensor/transpose.cc", "src/kernel/transpose/cpu.cc"]}
{"id": "C27", "title": "gemm argument checks are complete", "statement": "Whenever tensor gemm accepts its arguments, every tile product it submits has matching sizes and no tile kernel reads or writes outside its tiles; mismatched shapes or base tiles are rejected.", "quantifier": "all shapes, base tiles, transposition flags, contraction and batch dims", "why_tests_cant": "A missing check corrupts memory only for particular shapes.", "anchors": ["src/tensor/gemm.cc: gemm_check, gemm_async", "src/tile/gemm.cc: gemm_check"]}
{"id": "C28", "title": "Tiled gemm equals the dense contraction", "statement": "gemm(alpha, opA, A, opB, B, beta, C, ndim, batch_ndim) sets C = alpha*op(A)*op(B)+beta*C with contraction over ndim dimensions and batch over batch_ndim trailing dimensions for every tiling; beta is applied exactly once; with beta=0 the old contents of C are irrelevant.", "quantifier": "all shapes, tilings, transpositions, coefficients, contents", "why_tests_cant": "All tilings and transpositions.", "anchors": ["src/tensor/gemm.cc: gemm_async", "src/starpu/gemm.cc.in"]}
{"id": "C29", "title": "Adam and AdamW steps follow the published update", "statement": "adam_step / adamw_step update first and second moments and parameters by the Adam formula with bias correction, element by element and independently of tiling; on iteration 1 the previous contents of the moment tensors are ignored.", "quantifier": "all hyper-parameters, shapes, tilings, contents, iteration numbers", "why_tests_cant": "All inputs.", "anchors": ["src/tensor/adam_step.cc", "src/tensor/adamw_step.cc", "src/kernel/adam_step/cpu.cc", "src/kernel/adamw_step/cpu.cc", "src/starpu/adam_step.cc"]}
{"id": "C30", "title": "embedding looks up vocabulary columns; its backward is the adjoint", "statement": "embedding sets embed[.., c, ..] = vocab[c, index[..]] for every position; embedding_backward adds to vocab[c, v] the sum of embed[.., c, ..] over the positions whose index is v; the two are adjoint linear maps.", "quantifier": "all shapes, tilings, axes, index contents within the vocabulary", "why_tests_cant": "All tilings and index contents.", "anchors": ["src/tensor/embedding.cc", "src/tensor/embedding_backward.cc", "src/kernel/embedding/cpu.cc", "src/kernel/embedding_backward/cpu.cc"]}
{"id": "C31", "title": "mask_scalar overwrites exactly the masked-out elements", "statement": "mask_scalar sets every element whose mask entry is false to val for every batch index and leaves the others unchanged, for every tiling.", "quantifier": "all shapes, tilings, masks, contents", "why_tests_cant": "All tilings.", "anchors": ["src/tensor/mask_scalar.cc", "src/kernel/mask_scalar/cpu.cc"]}
{"id": "C32", "title": "Cross-entropy pieces: total_sum_accum and subtract_indexed_outputs", "statement": "total_sum_accum adds alpha*sum over samples of (logsumexp - src[label]) to the scalar; subtract_indexed_outputs subtracts val from exactly the labelled entries; together with softmax they give the loss and its exact gradient.", "quantifier": "all shapes, tilings, labels in range, contents", "why_tests_cant": "All inputs; gradient identity over the reals.", "anchors": ["src/tensor/total_sum_accum.cc", "src/tensor/subtract_indexed_outputs.cc", "wrappers/python/nntile/loss/crossentropy.py"]}
{"id": "C33", "title": "Results do not depend on the task schedule", "statement": "Whatever order the runtime runs the submitted tasks in, provided it keeps the order of tasks that conflict on a data handle, the contents of all tensors after wait_for_all are those of running the tasks one by one in submission order.", "quantifier": "every task sequence, every schedule allowed by the data dependencies", "why_tests_cant": "Exponentially many interleavings.", "anchors": ["src/starpu/*.cc: submit", "include/nntile/starpu/config.hh: STARPU_RW_COMMUTE"]}
{"id": "C34", "title": "Declared access modes are sound", "statement": "Every task only writes handles it declared as written, and a handle declared write-only is completely overwritten with values that do not depend on its previous contents, so uninitialised or stale data can never leak into a result.", "quantifier": "every kernel, size, coefficient and previous contents", "why_tests_cant": "Stale data usually looks fine in tests.", "anchors": ["src/starpu/*.cc: submit (access modes)", "src/kernel/*/cpu.cc"]}
{"id": "C35", "title": "Reductions in redux mode give the sequential result", "statement": "When tasks accumulate into a tile in reduction mode, with private zero-initialised copies combined later in any order and grouping, the result equals sequential accumulation, for addition, hypot and maxsumexp.", "quantifier": "every number of workers, assignment of tasks to workers, and combination order", "why_tests_cant": "All assignments and orders.", "anchors": ["include/nntile/tensor/tensor.hh: set_reduction_add, set_reduction_hypot, set_reduction_maxsumexp", "src/kernel/accumulate_*/cpu.cc", "src/starpu/accumulate*.cc"]}
{"id": "C36", "title": "Activation derivatives are the derivatives of the activations", "statement": "The backward kernels (relu_backward, gelu_backward, gelutanh_backward) and derivative kernels (drelu, dgelu, dgelutanh) multiply by / return the true derivative of the forward function at every real input (for relu, at every non-zero input).", "quantifier": "every real input", "why_tests_cant": "A derivative identity over the reals.", "anchors": ["src/kernel/gelutanh/cpu.cc", "src/kernel/gelutanh_backward/cpu.cc", "src/kernel/dgelutanh/cpu.cc", "src/kernel/gelu/cpu.cc", "src/kernel/gelu_backward/cpu.cc", "src/kernel/dgelu/cpu.cc", "src/kernel/relu*/cpu.cc"]}
{"id": "C37", "title": "Packed task arguments are recovered exactly", "statement": "unpack_args_ptr returns, for any number of packed arguments of any sizes, pointers to exactly the packed bytes of each argument in order, and leaves pointers beyond the packed count untouched.", "quantifier": "all argument counts, sizes and contents", "why_tests_cant": "All byte layouts.", "anchors": ["include/nntile/starpu/config.hh: Config::unpack_args_ptr"]}
{"id": "C38", "title": "Handles are released exactly once with the declared policy", "statement": "Every registered handle, however often copied, is unregistered exactly once when its last owner disappears or is reset, using the policy chosen at registration; an invalid mode throws; local access is released exactly once.", "quantifier": "all histories of copy, reset, acquire, release and destruction", "why_tests_cant": "All histories.", "anchors": ["include/nntile/starpu/config.hh: Handle, HandleLocalData, VariableHandle"]}
{"id": "C39", "title": "Codelet placement restriction never disables an operation", "statement": "After any sequence of restrict_where/restore_where calls a codelet's placement mask stays a subset of the implementations it was initialised with; an unsupported request leaves it unchanged, and restore_where always returns to the default.", "quantifier": "all sequences of calls and masks", "why_tests_cant": "All histories.", "anchors": ["include/nntile/starpu/config.hh: Codelet::init, restrict_where, restore_where"]}
{"id": "C40", "title": "Compensated summation is exact over the reals", "statement": "The Kahan-style compensated accumulation used by the summation kernels returns the exact sum when scalar arithmetic is exact, for every number of addends.", "quantifier": "all lengths and contents", "why_tests_cant": "All lengths.", "anchors": ["src/kernel/sum_slice/cpu.cc", "src/kernel/sum_fiber/cpu.cc", "src/kernel/sumprod_slice/cpu.cc"]}
{"id": "C41", "title": "Multi-operand element-wise operations reject operands whose tilings differ", "statement": "adam_step, adamw_step and addcdiv, whose loops pair the i-th tiles of all operands, throw whenever two operands differ in shape or in base tile shape, so that paired tiles always have the same shape.", "quantifier": "all tensors of all shapes and tilings", "why_tests_cant": "The test must cover all pairs of incompatible tilings.", "anchors": ["src/tensor/adam_step.cc", "src/tensor/adamw_step.cc", "src/tensor/addcdiv.cc"]}
{"id": "C42", "title": "Fused attention computes masked scaled-dot-product attention", "statement": "On a cleared max/sum-exp tensor, flash_maxsumexp followed by flash_softmax_gemm stores in the result, for every query, the sum of the values weighted by exp(k.q/sqrt(head)) normalised over the keys the mask allows, and 0 for a query that sees no key, whatever the tiling of sequence, batch and heads (tiles of equal size) and whatever the result and work tensors held before; nothing but the result and the max/sum-exp tensor changes.", "quantifier": "all head sizes, sequence lengths, batch sizes, head counts, even tilings, masks, real inputs and schedules", "why_tests_cant": "Tests use one tiling and a few masks, and compare up to a tolerance.", "anchors": ["src/tensor/flash_maxsumexp.cc", "src/tensor/flash_softmax_gemm.cc", "src/starpu/flash_maxsumexp.cc.in", "src/starpu/flash_softmax_gemm.cc.in"]}
{"id": "C43", "title": "The fused attention backward pass computes the gradient", "statement": "After clearing and filling the max/sum-exp tensor and clearing the per-query work tensor, flash_softmax_gemm_backward stores in dQ, dK and dV the partial derivatives, with respect to each entry of Q, K and V, of the inner product of the given output gradient with the attention result.", "quantifier": "all head sizes, sequence lengths, batch sizes, head counts, even tilings, masks, real inputs and schedules", "why_tests_cant": "A derivative is a limit over all perturbations; tests compare with finite differences or another implementation on samples.", "anchors": ["src/tensor/flash_softmax_gemm_backward.cc", "src/starpu/flash_softmax_gemm_backward_sumprod_slice.cc.in", "src/starpu/flash_softmax_gemm_backward_dq_dk.cc.in"]}
{"id": "C44", "title": "Fused attention rejects tensors it cannot handle", "statement": "flash_maxsumexp throws, without submitting work, when the sequence is not a whole number of tiles or the head dimension is cut into tiles, so that no accepted call reads outside a tile.", "quantifier": "all tensors of all shapes and tilings", "why_tests_cant": "All tilings.", "anchors": ["src/tensor/flash_maxsumexp.cc"]}
{"id": "C45", "title": "A tile operation is the tensor operation on a one-tile tensor", "statement": "Every operation offered for single tiles (nntile::tile) either throws exactly when the tensor operation of the same name throws on the tensors made of those tiles alone, or submits work with exactly the same effect on the tile's elements and on nothing else.", "quantifier": "all tile shapes and numbers of dimensions, all scalar arguments, all contents, all schedules", "why_tests_cant": "The two layers have independently written argument checks and size computations; they must coincide on every shape, axis and scalar.", "anchors": ["src/tile/*.cc", "include/nntile/tile/tile.hh", "src/tensor/*.cc"]}
{"id": "C46", "title": "Linear layer: value and gradients", "statement": "forward_async of a Linear layer stores y = x W + b (side L) or W x + b (side R), contracted over the given number of dimensions, and backward_async then adds to the gradient of x, W and b exactly the derivative of the scalar product of y with the gradient of y, for every entry; nothing else the user holds is changed.", "quantifier": "all shapes and tilings, both sides, transposed or not, with or without bias, all finite contents and initial gradients, all schedules", "why_tests_cant": "For every shape and tiling, and derivatives of a function of all entries.", "anchors": ["wrappers/python/nntile/layer/linear.py"]}
{"id": "C47", "title": "LayerNorm layer: value and gradients", "statement": "forward_async of LayerNorm stores gamma (x - mean)/sqrt(var + eps^2) + beta along the axis, and backward_async adds to the gradients of x, gamma and beta the exact derivatives of the scalar product of y with the gradient of y, with the mean and the variance treated as functions of x.", "quantifier": "all shapes, tilings and axes, eps > 0, all finite contents, all schedules", "why_tests_cant": "The gradient formula must hold for every row length and every input.", "anchors": ["wrappers/python/nntile/layer/layer_norm.py"]}
{"id": "C48", "title": "Act, Add, AddSlice and Embedding layers: value and gradients", "statement": "Each of these layers stores its function of its inputs and adds to the gradients of its inputs (of the vocabulary, for Embedding) the exact derivatives of the scalar product of the output with its gradient; ReLU where no input is 0.", "quantifier": "all shapes, tilings and axes, all finite contents, all index tensors with indices in range, all schedules", "why_tests_cant": "All inputs, repeated indices included.", "anchors": ["wrappers/python/nntile/layer/act.py", "wrappers/python/nntile/layer/add.py", "wrappers/python/nntile/layer/add_slice.py", "wrappers/python/nntile/layer/embedding.py"]}
{"id": "C49", "title": "Back-propagation through a whole model, Frobenius loss", "statement": "For a model made of any number of these layers, in which outputs may be used by several later layers, clear_gradients of the activations, forward, the loss and backward leave loss = 1/2 |output - target|^2 in the loss and add to the gradient of every parameter, for each of its entries, the derivative of that loss with respect to the entry.", "quantifier": "all models of any depth and sharing, shapes, tilings, parameters and inputs, all schedules", "why_tests_cant": "Depth, sharing and shape are unbounded; the claim is an identity of derivatives.", "anchors": ["wrappers/python/nntile/model/base_model.py", "wrappers/python/nntile/loss/frob.py"]}
{"id": "C50", "title": "Back-propagation through a whole model, cross-entropy loss", "statement": "As C49 with the cross-entropy loss: the loss value grows by the sum over the samples of log sum exp of the logits minus the logit of the label, and every parameter gradient by the derivative of that.", "quantifier": "all models, shapes, tilings, parameters, label tensors with labels in range, all schedules including every order of the commuting loss tasks", "why_tests_cant": "As C49, and every order of commutative accesses.", "anchors": ["wrappers/python/nntile/model/base_model.py", "wrappers/python/nntile/loss/crossentropy.py"]}
{"id": "C51", "title": "One step of SGD", "statement": "SGD.step replaces every parameter by p - lr d, with d the gradient plus weight decay, with momentum, dampening and Nesterov as documented, and stores the new momentum buffers; nothing else changes.", "quantifier": "all parameter lists, shapes, tilings, hyper-parameters, contents and iteration numbers, all schedules", "why_tests_cant": "All hyper-parameters and all schedules.", "anchors": ["wrappers/python/nntile/optimizer/sgd.py"]}
{"id": "C52", "title": "One training batch", "statement": "One batch of Pipeline.train_async over any number of minibatches (gradients cleared once per batch, activations once per minibatch) changes every parameter by one SGD step in the gradient of the sum of the minibatch losses at the parameters held before the batch.", "quantifier": "all models, batches of any number of minibatches, data, hyper-parameters, all schedules", "why_tests_cant": "Any number of minibatches, models and schedules.", "anchors": ["wrappers/python/nntile/pipeline.py"]}
{"id": "C53", "title": "A whole training run", "statement": "After any number of batches and epochs the parameters are those of the SGD iteration: each batch starts from the parameters and momentum buffers the previous one produced, with the iteration number counted across epochs.", "quantifier": "all models and sequences of batches of any length, all schedules", "why_tests_cant": "Unbounded histories.", "anchors": ["wrappers/python/nntile/pipeline.py", "wrappers/python/nntile/optimizer/sgd.py"]}
{"id": "C54", "title": "One step of Adam, FusedAdam and FusedAdamW", "statement": "Adam.step (without amsgrad), FusedAdam.step and FusedAdamW.step perform the step of Adam (weight decay added to the gradient) or AdamW (decoupled weight decay) with bias-corrected moments starting from zero whatever the moment tensors held, with the linear learning-rate warm-up of the fused versions; Adam and FusedAdam without warm-up agree. The second-moment tensor holds the square root of the second moment. Other parameters do not change.", "quantifier": "all parameter lists, shapes, tilings, hyper-parameters with 0<=beta1<1, 0<beta2<1, eps>0, contents, iteration numbers, all schedules", "why_tests_cant": "All hyper-parameters, iteration numbers and schedules.", "anchors": ["wrappers/python/nntile/optimizer/adam.py", "wrappers/python/nntile/optimizer/adamw.py"]}
{"id": "C55", "title": "A training run with Adam", "statement": "After any number of batches the parameters and moments are those of the Adam (AdamW) iteration on the gradients of the sums of the minibatch losses, the step number counted across batches and epochs from 1.", "quantifier": "all models and sequences of batches of any length, all schedules", "why_tests_cant": "Unbounded histories.", "anchors": ["wrappers/python/nntile/pipeline.py", "wrappers/python/nntile/optimizer/adam.py"]}
{"id": "C56", "title": "Adam with amsgrad=True performs AMSGrad", "statement": "Adam(amsgrad=True).step divides by the square root of the bias-corrected running maximum of the second moments and otherwise makes the same step as Adam.", "quantifier": "all parameters, hyper-parameters and iteration numbers", "why_tests_cant": "All iteration numbers.", "anchors": ["wrappers/python/nntile/optimizer/adam.py"]}
{"id": "C57", "title": "The Attention layer computes multi-head attention and its gradients", "statement": "Attention.forward_async stores the multi-head (optionally masked, optionally biased) scaled dot-product attention of x_q, x_k and x_v in y, and backward_async adds to the gradient of every input, weight and bias that requires one the derivative of the pairing of y.grad with the output, whatever the temporaries held; also when the three inputs are the same tensor.", "quantifier": "all shapes, tilings (uneven ones and cut heads included), weights, biases, masks and inputs, all schedules", "why_tests_cant": "All sizes, tilings, values and schedules.", "anchors": ["wrappers/python/nntile/layer/attention.py"]}
{"id": "C58", "title": "The FlashAttention layer computes the same attention and gradients as the Attention layer", "statement": "FlashAttention.forward_async stores in y the same multi-head masked scaled dot-product attention of x_q, x_k and x_v as the Attention layer, without ever storing the score matrix, and backward_async adds to the gradient of every input, weight and bias that requires one the derivative of the pairing of y.grad with the output, recomputing the scores from the saved row maxima and sums, whatever the temporaries held.", "quantifier": "all shapes and all even tilings of sequence, batch and heads, all weights, biases, masks and inputs, all schedules", "why_tests_cant": "All sizes, tilings, values and schedules.", "anchors": ["wrappers/python/nntile/layer/flash_attention.py"]}
{"id": "C59", "title": "A training step of GPT2 computes the transformer's loss and its exact gradients", "statement": "GPT2Model and CrossEntropy.generate_simple, called with any valid configuration (any number of blocks, heads, sizes and tilings, plain or flash attention) and any token and position numbers, succeed; and clear_gradients of the activations, forward_async, loss.calc_async and backward_async on the result leave in the output the logits of the decoder-only transformer (token plus position embedding; per block layer norm, causal multi-head attention, residual, layer norm, two-layer MLP, residual; last layer norm; language head), add to the loss the scaled cross-entropy against the labels, leave all parameters unchanged, and add to the gradient of every entry of every parameter the derivative of that loss in it.", "quantifier": "all configurations, all tilings, all contents of parameters, gradients and temporaries, all token, position and label numbers in range, all schedules", "why_tests_cant": "All sizes, depths, tilings, values and schedules; a test compares one configuration to a tolerance.", "anchors": ["wrappers/python/nntile/model/gpt2.py", "wrappers/python/nntile/model/base_model.py", "wrappers/python/nntile/loss/crossentropy.py", "wrappers/python/nntile/layer/"]}
{"id": "C60", "title": "GPT2 is causal and treats sequences independently", "statement": "The logits GPT2 stores for a position of a sequence depend on the tokens at that and earlier positions of the same sequence only: changing later tokens, other sequences of the batch, the batch size, the sequence length or the tiling leaves them exactly as they were.", "quantifier": "all configurations, pairs of inputs that agree up to a position, tilings and schedules", "why_tests_cant": "It compares all pairs of inputs.", "anchors": ["wrappers/python/nntile/model/gpt2.py", "wrappers/python/nntile/layer/attention.py", "wrappers/python/nntile/layer/flash_attention.py"]}
{"id": "C61", "title": "Training GPT2 from its constructors is optimizer descent on the cross-entropy", "statement": "Constructing GPT2, the cross-entropy loss and an optimizer (SGD with or without momentum, Nesterov and weight decay, Adam, AdamW) succeeds, and running the training pipeline over any list of batches of minibatches leaves the parameters equal to the iterates of that optimizer, started with zero state, on the sums over each batch of the scaled cross-entropy of GPT2's logits, computed with the gradient of that function; the value of the loss is that of the last batch before its step. Contents left over in gradients, activations, inputs and optimizer tensors do not matter, and the data is unchanged.", "quantifier": "all configurations, tilings, data sets, batches, minibatches, initial parameters, hyperparameters, and schedules", "why_tests_cant": "It speaks about every number of batches and minibatches, every configuration and every order in which the runtime may run the tasks.", "anchors": ["wrappers/python/nntile/pipeline.py", "wrappers/python/nntile/model/gpt2.py", "wrappers/python/nntile/loss/crossentropy.py", "wrappers/python/nntile/optimizer/sgd.py", "wrappers/python/nntile/optimizer/adam.py", "wrappers/python/nntile/optimizer/adamw.py"]}
{"id": "C62", "title": "The layers Mixer and GAP compute the MLP-Mixer block and the mean over channels, and their gradients", "statement": "Mixer.forward_async computes y = z + mlp_features(norm(z)) with z = x + mlp_channels(norm(x)), and its backward adds to the gradients of x and of the eight parameters the derivatives of the pairing of y with its gradient, if the gradients of its intermediate activations were zero. GAP.forward_async computes the transposed mean over the first dimension; its backward stores the derivative into the gradient of x, so whatever x.grad held before is lost (it is the derivative added to the old gradient only if that was zero).", "quantifier": "all shapes and tilings the constructors make, all finite values, and all schedules", "why_tests_cant": "Tests run a few sizes and one schedule; the claim ranges over all sizes, tilings and orders of tasks, and says exact derivatives.", "anchors": ["wrappers/python/nntile/layer/mixer.py: Mixer, MixerMlp, GAP"]}
{"id": "C63", "title": "A training step of MlpMixer, built by its constructor, computes the logits, the cross-entropy and its gradients", "statement": "MlpMixer(x, ...) built on an input whose channels lie in one tile, with CrossEntropy.generate_simple on its output, succeeds for all positive sizes and at least one layer; the parameters are, in order, the embedding matrix, the eight parameters of every Mixer and the head. clear_activations_grads, forward, CrossEntropy.calc and backward then leave in the output the logits of the MLP-Mixer, add the scaled cross-entropy over the samples to the loss, keep the parameters, and add to the gradient of every parameter the derivative of the loss in it, whatever the order in which the tasks execute - in particular GAP's overwriting of the gradient of its input does no harm because clear_activations_grads has cleared it.", "quantifier": "every number of channels, samples, features, classes and layers, every tile size of samples and input features, every input, labels, parameters, gradients before the step, and every order of execution of the tasks allowed by their declared accesses", "why_tests_cant": "a test fixes one architecture, one tiling, one input and one schedule; derivatives are compared up to a tolerance", "anchors": ["wrappers/python/nntile/model/mlp_mixer.py:MlpMixer.__init__", "wrappers/python/nntile/model/mlp_mixer.py:clear_activations_grads", "wrappers/python/nntile/layer/mixer.py:Mixer.generate_simple", "wrappers/python/nntile/layer/mixer.py:GAP.generate_simple", "wrappers/python/nntile/model/base_model.py:forward_async", "wrappers/python/nntile/model/base_model.py:backward_async", "wrappers/python/nntile/loss/crossentropy.py:CrossEntropy"]}
{"id": "C64", "title": "Sums along slices and fibers in fp32 have an error that does not grow with the number of summands", "statement": "In fp32_t (IEEE binary32, round to nearest even), for finite operands whose absolute values do not add up to an overflow, sum_slice, sum_fiber and sumprod_slice leave a finite number in every element of dst, which differs from the exact beta*dst + alpha*sum by at most (3g+8) 2^-24 times the sum of the absolute values of beta*dst and of the terms alpha*x, plus (4g+1) 2^-150 (sumprod_slice: (3g+10) 2^-24 and an underflow term for every product), where g is the number of tiles that are summed up: the compensated summation in the kernels makes the bound independent of how many elements are added within a tile.", "quantifier": "every well-formed pair of tensors with matching shapes and tilings, every axis, every finite alpha and beta (with beta = 0 also uninitialised destinations), all finite contents, up to 2^20 summands in each tile and 2^20 tiles, and every schedule", "why_tests_cant": "A test compares a few random arrays against a tolerance; the claim is a worst-case bound over all binary32 contents, lengths and tilings.", "anchors": ["src/kernel/sum_slice/cpu.cc: cpu", "src/kernel/sum_fiber/cpu.cc: cpu", "src/kernel/sumprod_slice/cpu.cc: cpu", "src/tensor/sum_slice.cc: sum_slice_async", "src/tensor/sum_fiber.cc: sum_fiber_async", "src/tensor/sumprod_slice.cc: sumprod_slice_async"]}
{"id": "C65", "title": "Training MlpMixer from its constructors is optimizer descent on the cross-entropy", "statement": "Constructing MlpMixer, the cross-entropy loss and an optimizer (SGD with or without momentum, Nesterov and weight decay, Adam, AdamW) succeeds, and running the training pipeline over any list of batches of minibatches of images and labels leaves the parameters equal to the iterates of that optimizer, started with zero state, on the sums over each batch of the scaled cross-entropy over the samples of the MLP-Mixer's logits, computed with the gradient of that function; the value of the loss is that of the last batch before its step. Contents left over in gradients, activations, inputs, labels and optimizer tensors do not matter, and the data is unchanged. No assumption on parameters is needed: the model is smooth everywhere.", "quantifier": "all numbers of channels, samples, features, classes, layers, all tile sizes of samples and input features, data sets, batches, minibatches, initial parameters, hyperparameters, and schedules", "why_tests_cant": "It speaks about every number of batches and minibatches, every architecture and every order in which the runtime may run the tasks.", "anchors": ["wrappers/python/nntile/pipeline.py", "wrappers/python/nntile/model/mlp_mixer.py", "wrappers/python/nntile/layer/mixer.py", "wrappers/python/nntile/loss/crossentropy.py", "wrappers/python/nntile/optimizer/sgd.py", "wrappers/python/nntile/optimizer/adam.py", "wrappers/python/nntile/optimizer/adamw.py"]}
{"id": "C66", "title": "Training DeepReLU from its constructor is optimizer descent on the cross-entropy", "statement": "Constructing DeepReLU on side 'R' (classes on the first axis, as the loss wants them), the cross-entropy loss and an optimizer (SGD with or without momentum, Nesterov and weight decay, Adam, AdamW) succeeds, and running the training pipeline over any list of batches of minibatches leaves the parameters equal to the iterates of that optimizer, started with zero state, on the sums over each batch of the scaled cross-entropy, over all samples, of the multilayer perceptron max(0, W h + b) with a linear head, computed with the gradient of that function; the value of the loss is that of the last batch before its step. Contents left over in gradients, activations, input, labels and optimizer tensors do not matter, and the data is unchanged. Assumed: at the parameters at which a batch is evaluated no rectifier is met exactly at its kink.", "quantifier": "any number and lengths of sample axes and of feature axes, widths, classes, layers, all tile sizes, with and without biases, all data sets, batches, minibatches, initial parameters, hyperparameters, and schedules", "why_tests_cant": "It speaks about every architecture, shape, tiling, number of batches and minibatches and every order in which the runtime may run the tasks.", "anchors": ["wrappers/python/nntile/model/deep_relu.py", "wrappers/python/nntile/pipeline.py", "wrappers/python/nntile/layer/linear.py", "wrappers/python/nntile/layer/act.py", "wrappers/python/nntile/loss/crossentropy.py", "wrappers/python/nntile/optimizer/sgd.py", "wrappers/python/nntile/optimizer/adam.py", "wrappers/python/nntile/optimizer/adamw.py"]}
{"id": "C67", "title": "from_array and to_array exchange exactly the elements with numpy", "statement": "tensor.from_array(a) for a floating-point array of the tensor's shape (of shape (1,) for a tensor without dimensions) gives every element of the tensor the value of the array at the same index, whatever the tiling, and touches no other data; tensor.to_array(a) gives every element of the array the value of the tensor at the same index and leaves the tensor unchanged; for an array of any other shape both throw. Consequently array -> tensor -> array and tensor -> array -> tensor of another tiling are identities. Tile.from_array and Tile.to_array do the same for a single tile.", "quantifier": "all shapes, tile sizes, array shapes, contents, element types copied without conversion, and schedules", "why_tests_cant": "It ranges over all shapes and tilings, including tiles that do not divide the shape, and over every order of the tasks.", "anchors": ["wrappers/python/nntile/nntile_core.cc:tensor_from_array", "wrappers/python/nntile/nntile_core.cc:tensor_to_array", "wrappers/python/nntile/nntile_core.cc:tile_from_array", "wrappers/python/nntile/nntile_core.cc:tile_to_array", "src/tensor/scatter.cc", "src/tensor/gather.cc"]}
{"id": "C68", "title": "save_state and load_state restore an Adam optimizer", "statement": "For Adam, FusedAdam and FusedAdamW: saving the state of an optimizer and loading the file into an optimizer of the same parameter shapes, of any tiling, gives the second the first and second moments (and, with amsgrad, their maxima) of the first, rounded to float16 or bfloat16 if that was asked for and exact otherwise, its hyperparameters and its iteration number.", "quantifier": "all numbers and shapes of parameters, tilings of both sides, contents, dtypes, and schedules", "why_tests_cant": "It ranges over all shapes, tilings, numbers of parameters and contents.", "anchors": ["wrappers/python/nntile/optimizer/adam.py:Adam.save_state", "wrappers/python/nntile/optimizer/adam.py:Adam.load_state", "wrappers/python/nntile/optimizer/adam.py:FusedAdam.save_state", "wrappers/python/nntile/optimizer/adam.py:FusedAdam.load_state", "wrappers/python/nntile/optimizer/adamw.py:FusedAdamW.save_state", "wrappers/python/nntile/optimizer/adamw.py:FusedAdamW.load_state"]}
{"id": "C69", "title": "Training that is resumed gives what uninterrupted training gives", "statement": "Let parameters, iteration number and optimizer state be those that steps on any sequence of losses lead to. Calling the training loop of a constructed GPT2, DeepReLU or MLP mixer with SGD, Adam or AdamW from there (in the same process, or in another one with the state loaded from a file) ends with the parameters, optimizer state and loss that steps on the whole sequence (the past losses followed by the cross-entropies of the new batches) lead to, so that splitting training into any number of calls changes nothing.", "quantifier": "all models of the three kinds (sizes, tilings, numbers of layers), optimizers and hyperparameters, past losses, new batches, and schedules", "why_tests_cant": "It ranges over all sizes, tilings, splits of the training, data and schedules.", "anchors": ["wrappers/python/nntile/pipeline.py:Pipeline.train_async", "wrappers/python/nntile/optimizer/adam.py:Adam.step", "wrappers/python/nntile/optimizer/sgd.py:SGD.step", "wrappers/python/nntile/optimizer/adamw.py:FusedAdamW"]}
{"id": "C70", "title": "GPT2Model.from_torch gives a model that computes what the torch model computes", "statement": "from_torch on any GPT2LMHeadModel (with a language head of its own) whose sizes are those of the configuration raises no exception, loads every parameter of the constructed NNTile model, and the forward pass of that model then writes exactly the logits the torch model computes in evaluation mode on the same tokens and positions, and the loss their cross-entropy.", "quantifier": "all sizes, numbers of layers and heads, tilings, parameter values, tokens, positions, labels, and schedules", "why_tests_cant": "It ranges over all sizes, head counts, tilings and values; a transposed square matrix or permuted heads agree on special values and sizes only.", "anchors": ["wrappers/python/nntile/model/gpt2.py:GPT2Model.from_torch"]}
{"id": "C71", "title": "GPT2Model.to_torch writes the model back into torch", "statement": "to_torch gives the torch model parameters with which it computes exactly what the NNTile model computes with its own, whatever the torch model held before; torch parameters that were loaded by from_torch and written back by to_torch are the original ones, element by element.", "quantifier": "all sizes, numbers of layers and heads, tilings, parameter values of both models, inputs and schedules", "why_tests_cant": "It ranges over all sizes, head counts and values.", "anchors": ["wrappers/python/nntile/model/gpt2.py:GPT2Model.to_torch", "wrappers/python/nntile/model/gpt2.py:GPT2Model.from_torch"]}
{"id": "C72", "title": "MlpMixer exchanges its parameters with torch", "statement": "MlpMixer.from_torch makes, from torch's MLP-Mixer, a model with its sizes and number of layers that computes exactly the same function of the input (in exact arithmetic): the output of a step after the loading is the torch model's output; to_torch writes back parameters with which the torch model computes what the NNTile model computes, and parameters loaded by from_torch and written back are the original ones, element by element.", "quantifier": "all numbers of patches, pixels, features, classes, layers, all parameter values of both models, inputs and schedules", "why_tests_cant": "The rule that decides whether a weight is transposed compares two sizes; the test's sizes do not include the square case, and agreement must hold for all values.", "anchors": ["wrappers/python/nntile/model/mlp_mixer.py:MlpMixer.from_torch", "wrappers/python/nntile/model/mlp_mixer.py:MlpMixer.to_torch", "wrappers/python/nntile/torch_models/mlp_mixer.py"]}
{"id": "C73", "title": "Training a DeepReLU made from a torch MLP", "statement": "DeepReLU.from_torch makes, from a torch nn.Sequential of Linear and ReLU layers (all hidden layers of one size, with or without biases), a model with its number of layers and the shapes of its parameters; loading the parameters and then training changes them exactly as the optimizer changes torch's parameters for the gradient of the summed cross entropy of the torch model's outputs (in exact arithmetic, away from the kinks of the rectifiers), starting at torch's values, and the loss reported is the torch model's. If some torch parameter has another shape than the model's parameter at its place, loading raises instead of filling it; a torch model of a single Linear layer is always refused.", "quantifier": "all numbers of features, rows, hidden features, classes and layers, with and without biases, all parameter values, batches, optimizers and schedules", "why_tests_cant": "The test compares one small network with torch on one input to a tolerance.", "anchors": ["wrappers/python/nntile/model/deep_relu.py:DeepReLU.from_torch", "wrappers/python/nntile/layer/linear.py", "wrappers/python/nntile/pipeline.py"]}
{"id": "C74", "title": "Inference with DeepReLU, before and between training", "statement": "Writing an input into the first activation of a DeepReLU model and calling forward_async leaves, in the last activation, the network's function of that input and of the parameters the model holds, for every sample and class; only values of activations change, whatever the other tensors (gradients, optimizer states) hold, and no assumption about the kinks of the rectifiers is needed. After any number of training batches the outputs are those of the parameters training has reached, and inference between batches does not disturb training: training that goes on after it changes the parameters and reports the loss exactly as training without the interruption.", "quantifier": "all numbers of features, rows, hidden features, classes and layers, both sides of the feature axes (for a constructed model), with and without biases, all inputs and parameters, all batches before and after, optimizers and schedules", "why_tests_cant": "The example script reports an accuracy for the inputs of one data set; a test cannot show that inference leaves the state training depends on alone for every model and point of interruption.", "anchors": ["wrappers/python/examples/deep_relu_image_classification.py", "wrappers/python/nntile/model/base_model.py:BaseModel.forward_async", "wrappers/python/nntile/model/deep_relu.py:DeepReLU", "wrappers/python/nntile/pipeline.py:Pipeline.train_async"]}
{"id": "C75", "title": "DeepLinear: construction and inference", "statement": "DeepLinear with one dimension of features and at least two layers is constructed for every input tensor with any number of dimensions of samples, and has an output of the input's shape and tiling and parameters of the documented shapes. forward_async leaves in the last activation the composition of the affine maps of all layers applied to the input, for every sample and feature, whatever the other tensors hold, and changes only values of activations. With two or more dimensions of features the constructor always raises (the last layer would need a bias of that many dimensions).", "quantifier": "all sizes and tiles of features and samples, hidden sizes, numbers of layers, both sides, all inputs and parameters, all schedules", "why_tests_cant": "A test runs one network of one size.", "anchors": ["wrappers/python/nntile/model/deep_linear.py:DeepLinear.__init__", "wrappers/python/nntile/layer/linear.py:Linear.generate_simple", "wrappers/python/nntile/model/base_model.py:BaseModel.forward_async"]}
{"id": "C76", "title": "What the constructors of CrossEntropy and GPT2Model accept", "statement": "CrossEntropy.generate_simple succeeds for logits (classes first, any number of further dimensions and any tiling of those) exactly when all classes lie in one tile, and then makes labels with the shape and tiling of the samples; otherwise it raises. GPT2Model raises when the tile of the embeddings is not a multiple of the tile of the vocabulary's embeddings, and, with flash attention and at least one block, when the number of heads is not a multiple of their tile.", "quantifier": "all numbers of classes and tile sizes, all shapes and tilings of the samples, all configurations", "why_tests_cant": "Tests construct a few fitting configurations only.", "anchors": ["wrappers/python/nntile/loss/crossentropy.py:CrossEntropy.generate_simple", "wrappers/python/nntile/model/gpt2.py:GPT2Model.__init__", "wrappers/python/nntile/layer/embedding.py:Embedding.generate_simple", "wrappers/python/nntile/layer/flash_attention.py:FlashAttention", "include/nntile/tensor/tensor.hh:Tensor"]}
{"id": "C77", "title": "One step of backpropagation of DeepLinear with the Frobenius loss", "statement": "For a DeepLinear model constructed on an input without gradient and a Frob loss generated on its last activation: after clear_activations_grads, forward_async, loss.calc_async and backward_async, the last activation holds the chain of affine maps of the input, loss.val holds half of the sum of its squared differences to loss.y (whatever it held before: it is not accumulated over minibatches), the input and the parameters are unchanged, and the gradient of every parameter has grown, in each of its entries, by the partial derivative of that value with respect to that entry.", "quantifier": "all numbers of layers of at least two, both sides, all shapes and tilings of samples, features and hidden features, all contents of input, target, parameters and gradients, all contents of other tensors, all schedules", "why_tests_cant": "A test compares a few small models at random points with finite differences or torch.", "anchors": ["wrappers/python/nntile/loss/frob.py:Frob.generate_simple", "wrappers/python/nntile/loss/frob.py:Frob.calc_async", "wrappers/python/nntile/model/deep_linear.py:DeepLinear", "wrappers/python/nntile/model/base_model.py:BaseModel"]}
