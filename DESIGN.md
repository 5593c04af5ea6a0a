# Formal model of NNTile in Rocq/Coq 8.16.1

Source: `/repo` (C++ tensor framework over the StarPU task runtime), read as text.
Everything below lives in `rocq/theories` (logical name `Verif`); the first comment of each file says what it
contains, and each definition of the model cites the lines of `/repo` it models.
`ASSUMPTIONS.md` (generated by `tools/assumptions.py`) lists what `Print Assumptions` says for each theorem of
`MANIFEST.json` (generated by `tools/manifest.py`).  `seeded/LOG.jsonl` records the wrong programs tried.

## 1. How the code is modelled

* **Outcomes.** A C++ function is a Coq function into `res A := Ok a | Throw msg | UB` (`Base.v`).
  `Throw` is a C++ exception; `UB` is an out-of-bounds access, division by zero, or any other undefined behaviour.
  Out-of-bounds reads/writes of any array are `UB`, so memory safety is part of every theorem that says a
  call returns `Ok`.
* **Integers.** `Index` (int64) is `Z`.  Overflow is not modelled, except in the random generator, where arithmetic is
  modulo 2^64 (that is its definition), and in theorems that say so.
  `/` and `%` are C++ truncating division (`Z.quot`, `Z.rem`).
* **Buffers.** A contiguous array is a `list`; kernels are written as the loops they are, with `rd`/`wr`
  (bounds-checked) and `for_`; mutable variables are loop-carried.
* **Scalars.** Floating-point types are an arbitrary type `T` with a record of operations `Ops T` without any laws
  (`Ops.v`): theorems stated for an arbitrary `Ops T` are bit-exact whatever the arithmetic (IEEE included).  Three
  instances: `Rops`, Coq's real numbers (`RealOps.v`); `Xops`, exact arithmetic on reals with the special values
  +inf, -inf, NaN behaving as in IEEE 754 (`XReals.v`; no signed zeros, no rounding, no overflow), used where the code relies on
  infinities (softmax family); `F32ops`, binary32 of the standard library's `SpecFloat` with round to nearest even
  (`Binary32.v`; exp, log, erfc, pow are placeholders that no theorem uses), used in refutations.
* **Tiles, tensors, tasks.** A tensor is its traits plus one handle per tile; a store maps handles to buffers.  A tensor-level call
  is a function returning the list of tasks it submits (or `Throw`/`UB`).  A task has access modes as in the
  `submit` functions of `src/starpu` and a body (the CPU codelet wrapper calling the kernel).  Running a task whose handle is declared
  write-only or scratch starts from an arbitrary buffer of the same type.
* **Schedules** (`Runtime.v`).  The runtime executes any pending task that has no conflict with an earlier pending one, one task at a time
  (`step`, `steps`).  `runs op s P`: the call returns `Ok ts`, the tasks respect their access modes, and *every* execution of `ts` from
  `s`, in every order the runtime may choose and whatever is in write-only and scratch buffers, is free of errors,
  terminates, and ends in a state satisfying `P`.  Variants: `runs_nd` (tasks whose write-only outputs keep part of the previous
  contents), `runs_keep` (tasks that are safe because an index tensor holds valid indices), `runs_comm`/`runs_any` (commuting
  tasks), `redux_runs` (reduction mode).  `throws op`: the call raises an exception and submits nothing.
* **Reduction mode** (`Redux.v`).  A task accessing a handle with `STARPU_REDUX` may run on the main buffer or on any private copy; private
  copies are created by the initialisation codelet and merged by the reduction codelet, with any number of copies, any assignment of tasks to
  copies and any order and grouping of merges.  `redux_runs` says that nothing the runtime may decide fails and that every
  complete execution ends in the same result.
* **Programs** (`Calls.v`, `Psound.v`).  `call` is the type of modelled API calls with their arguments; `submit` maps a call to the tasks of the model.
  C33 and C34 are about arbitrary lists of calls.
* **Python layers** (`PyLayers.v`, `PyTrain.v`).  A Python method is the sequence of the tensor calls it makes (`pyseq`).  `HasRuns.v` has
  assertions on named tensors: node `n` of a model has a value `Val n` and a gradient `Grad n`, layer `k` has temporaries `Tmp k i`; an
  environment gives the tensors behind the names, well-formed and sharing no tile (`env`).  Theorems are for every environment,
  and `ConcreteEnv.v` has concrete ones.  A model is a list of layers, each with a function and its vector-Jacobian product
  (`TapeMath.v`); C49 composes them by the chain rule in any order in which outputs are computed before they are used.
* **Handles** (`Config.v`).  `include/nntile/starpu/config.hh` is a small state machine over `shared_ptr` reference counts
  and StarPU's registration/acquisition protocol.

## 2. Trusted base

* Coq's kernel (coqc; the files are rechecked by coqchk), and what `Print Assumptions` lists: about half of the theorems are closed under the
  global context; the others use `FunctionalExtensionality.functional_extensionality_dep` and, when real numbers appear,
  `ClassicalDedekindReals.sig_forall_dec`, `ClassicalDedekindReals.sig_not_dec` and (through Coquelicot and the standard library's
  trigonometry) `Classical_Prop.classic`.  All four belong to Coq's standard library.  No axiom
  is added.  See `ASSUMPTIONS.md` for the list per theorem.
* Coquelicot is used for derivatives and the Gauss integral (`PropDeriv.v`, definition of erfc); it has no axioms of its own.
* The faithfulness of the hand-written model to the cited lines.
* Facts about software outside `/repo`: BLAS `gemm`, `nrm2`, `scal`, `axpy` are modelled as their reference loops; `starpu_codelet_pack_args`
  writes (number of arguments, then size and bytes of each argument); `STARPU_CPU`=2, `STARPU_CUDA`=8, `STARPU_MAXIMPLEMENTATIONS`=4;
  StarPU enforces sequential data consistency per handle and the reduction protocol above; `std::shared_ptr` calls its
  deleter when the last owner goes away.

### Modelled

| code | where |
|------|-------|
| `tile/traits.hh`, `tensor/traits.hh`, `tensor/tensor.hh`, `tile/tile.hh` (geometry, construction, checks) | `Traits.v` |
| `tensor/distributions.cc` | `Distributions.v` |
| `starpu/config.hh` (unpacking, handles, codelet placement) | `Config.v` |
| element-wise kernels, codelets, tensor loops (fill, clear, add, add_scalar, scal, scal_inplace, axpy, prod, maximum, copy, pow, sqrt*, relu*, gelu*, gelutanh*, d*, hypot, hypot_scalar_inverse, addcdiv, adam_step, adamw_step) | `KernelsElem.v`, `ElemOps.v` |
| slices: add_slice, add_slice3, prod_slice, sum_slice, sumprod_slice, norm_slice | `SliceOps.v` |
| fibers: add_fiber, prod_fiber, prod_fiber3, sum_fiber, sumprod_fiber | `FiberOps.v` |
| maxsumexp, accumulate_maxsumexp, softmax, softmax_inplace, logsumexp, sumnorm, normalize | `SoftmaxOps.v` |
| transpose, gemm, nrm2 | `MatOps.v` |
| subcopy, copy_intersection (tile and tensor), scatter, gather | `SubcopyOps.v` |
| embedding, embedding_backward, mask_scalar, subtract_indexed_outputs, total_sum_accum | `LossOps.v` |
| `external/random.h`, randn (kernel, tile, tensor) | `RandnOps.v` |
| tile level: src/tile/*.cc (all operations with CPU kernels) | `TileOps.v` |
| flash_maxsumexp, flash_softmax_gemm, flash_softmax_gemm_backward (codelets and tensor level) | `FlashOps.v` |
| accumulate, accumulate_hypot, accumulate_maxsumexp codelets as reduction methods | `Redux.v`, `ReduxRuns.v` |

| Python layers Linear, LayerNorm, Act, Add, AddSlice, Embedding, losses Frob and CrossEntropy, `model/base_model.py` (forward, backward, clearing of gradients) | `PyLayers.v` |
| Python `optimizer/sgd.py`, one batch of `pipeline.py` | `PyTrain.v` |
| Python `optimizer/adam.py`, `optimizer/adamw.py` (steps) | `PyAdam.v` |
| Python `layer/attention.py`, `layer/flash_attention.py` (forward, backward) | `PyLayers.v` (model), `PyAttn.v`, `PyFlash.v` (proofs) |
| Python constructors of the optimizers, training of GPT2 by `pipeline.py` | `OptBuild.v`, `GptTrain.v` |
| Python `layer/mixer.py`: GAP, MixerMlp, Mixer (forward, backward) | `PyMixer.v` |
| Python `layer/mixer.py` generate_simple of GAP, MixerMlp, Mixer; `model/mlp_mixer.py` constructor, clear_activations_grads | `PyMixModels.v` |
| Python `model/mlp_mixer.py`: from_torch, to_torch | `MixTorch.v` |
| Python `model/deep_relu.py`: from_torch | `ReluTorch.v` |
| Python inference on DeepReLU (copy into the first activation, forward_async) | `PropInfer.v`, `InferTrain.v` |
| Python `model/deep_linear.py`: constructor; its forward pass | `PyModels.v`, `LinBuild.v`, `PropDeepLinear.v` |
| Python `loss/frob.py`: generate_simple; a step of DeepLinear with it | `LinTrain.v` |
| Python constructors: `generate_simple` of the layers and of CrossEntropy, `model/gpt2.py`, `model/deep_relu.py`, `model/deep_linear.py` | `PyModels.v` |
| Python `model/gpt2.py`: from_torch, to_torch | `GptTorch.v` |

### Not modelled

CUDA code and `where` masks choosing it (beyond C39), StarPU's memory nodes, transfers, performance models and `FLOPS`
hints, MPI (stubbed out in this commit: rank 0 of 1), floating-point rounding (except where said), integer overflow (except
where said), the range checks of `CBLAS_INT`, printing and logging, gemm_ex and fp16/fp32 conversions (CUDA only), `src/layer`, `src/model`, `src/optimizer` (commented out in the build).
Of the Python code: constructors and `generate_simple` functions other than those of C59, C61, C63, C65 and C66 (the theorems before C59 range over all
objects whose tensors have fitting shapes and tilings), initial values of parameters, tags, pickling, checkpoints of models (made with PyTorch), conversion from PyTorch other than GPT2's (C70, C71), MlpMixer's (C72) and DeepReLU's (C73), printing, `redux=True`, the fp16 and tf32 variants; `wont_use` and
`invalidate_submit` are empty in this commit; scalars computed by Python in double precision are computed in the scalar type.

## 3. Properties

For each property: what is modelled and how it is proved.  "Refuted" parts are theorems that the *full* claim is false of the
code, with the inputs that break it; the partial theorem next to them is the claim outside those inputs.

| id | modelled | proof |
|----|----------|-------|
| C01-C02 | `TileTraits` constructor and index functions as loops | loop invariants against the recursive column-major offset |
| C03-C04 | `TensorTraits`, `Tensor` constructors and accessors | arithmetic per dimension, induction on dimensions |
| C05 | `block_cyclic` | loop invariant; the scalar grid and a zero mpi grid are undefined behaviour (refuted) |
| C06-C09 | subcopy kernel, tile/tensor copy_intersection, scatter, gather | odometer invariant; box arithmetic; `runs_nd` for the write-only first subcopy; fp16 codelet refuted |
| C10-C11 | `CORE_rnd64_jump`, randn kernel, tile and tensor randn | affine-map exponentiation mod 2^64; odometer invariant |
| C12 | 23 element-wise operations | generic pointwise-loop lemma + generic per-tile lemma, for any arithmetic |
| C13-C15 | add, scal, axpy, hypot with all their alpha/beta special cases | same, then algebra over R; two bugs refuted |
| C16-C20 | slice/fiber reductions and broadcasts | (m,k,n) reshape lemma, sums over tiles over R, `acc_runs` for accumulation in order |
| C21-C24 | maxsumexp, softmax, logsumexp, sumnorm, normalize | invariant "(max, sumexp) represents a multiset of scores" over `XR` |
| C25 | nrm2 with its temporaries | composition of nrm2 tiles and hypot |
| C26-C28 | transpose, gemm (4 transposition cases, batches) | shapes split in leading/contracted/trailing/batch parts; sum over contraction tiles |
| C29 | Adam, AdamW | pointwise lemma, then algebra over R |
| C30 | embedding, embedding_backward | `runs_keep`; adjointness by exchanging sums; three unchecked inputs refuted |
| C31 | mask_scalar | pointwise lemma with a boolean mask |
| C32 | total_sum_accum, subtract_indexed_outputs, the cross-entropy pipeline | commuting tasks over R; composition of maxsumexp, logsumexp, total_sum_accum |
| C33 | any list of modelled calls, two complete executions | trace commutation from soundness of access modes; COMMUTE refuted in binary32 |
| C34 | access modes of every task of every modelled call | tasks succeed and write the same whatever is in unread buffers; gather refuted |
| C35 | every operation with a `redux` argument | the reduction is a commutative monoid action; transport of the sequential proof; binary32 refuted |
| C36 | activation functions over R | Coquelicot derivatives |
| C37-C39 | config.hh | byte-level parsing, reference-count invariants, bit masks |
| C40 | Kahan summation in the kernels | induction over R |
| C41 | operand checks of multi-operand operations | shape checks proved; missing tile-shape checks refuted |
| C42 | flash_maxsumexp, flash_softmax_gemm on even tilings | batched-gemm and mask lemmas per tile, `fold_rep` invariant over key tiles, against `AttnSpec.attention` |
| C43 | flash_softmax_gemm_backward | two accumulation sweeps (`multi_runs`), then the softmax Jacobian: values equal `a_dq/a_dk/a_dv`, which are proved to be Coquelicot derivatives |
| C45 | `src/tile/*.cc` | every tile operation submits the same tasks as the tensor operation on the one-tile tensor (or both throw), nrm2 by its own branches over R; gelutanh, sqrt, mask_scalar, gemm with ndim 0 refuted |
| C44 | operand checks of flash_maxsumexp | refuted: the executions of two accepted calls are out of bounds |
| C46-C48 | forward_async and backward_async of six layers | a triple per tensor call on named tensors (`HasRuns.v`), vector-Jacobian products as Coquelicot derivatives (`VjpMath.v`, `PyNorm.v`) |
| C49-C50 | a list of layers, a loss, clear/forward/loss/backward | `TapeMath.back_gradient`: adjoint pairing along the tape, by induction on the layers; losses in `Frob.v`, `CeLoss.v` |
| C51-C53 | SGD.step, one batch, a run | the same triples; `PropTrain.training_any`: induction over minibatches and batches for any optimizer with the property `opt_good` |
| C54-C56 | Adam.step, FusedAdam.step, FusedAdamW.step, runs with them | Adam is `opt_good`; amsgrad: what the code computes, and that it is not AMSGrad (refuted) |
| C57 | Attention.forward_async, backward_async, the projections, the temporaries generate_simple makes | symbolic execution over names (HasRuns); vector-Jacobian products of the five stages composed (AttMath) |
| C58 | FlashAttention.forward_async, backward_async (flash_maxsumexp, flash_softmax_gemm, flash_softmax_gemm_backward between the projections) | the values of the three flash operations (C33) in the logic of HasRuns, the same specification and the same vector-Jacobian products as C57. Finding: forward calls `a_maxsumexp.invalidate_submit()` although backward reads that tensor; the theorem relies on `invalidate_submit` being an empty loop in this commit (tensor.hh:136-154) |
| C59 | the constructors: generate_simple of Linear, Act, Add, AddSlice, Embedding, LayerNorm, Attention, FlashAttention, CrossEntropy, GPT2MLP and GPT2Model, the methods of BaseModel (PyModels.v) | a build is the list of what has been allocated (shapes, tilings, handles) and of the layers; by induction over the blocks the build is the expected one (GptBuild.v), its tensors form an environment in which every layer meets the hypotheses of C46-C48, C57, C58 and the model those of C50 (GptModel.v), and the function C50 differentiates is the transformer of GptSpec.v (GptEval.v, GptRun.v). States meeting the hypotheses exist for all contents (C59_state_exists) and for a concrete ragged configuration (small_C59) |
| C60 | as C59 | the specification of GptSpec.v is shown to depend on no later position and on no other sequence, by induction over the blocks; with C59 for two runs |
| C61 | the constructors of the optimizers (OptBuild.v), the copies of a minibatch into the input and label tensors (IntCopy.v), the loops of pipeline.py over batches (GptTrain.v) | one minibatch by C59's machinery from any gradients, a batch by induction over minibatches (the accumulations of the loss value commute: Serial2.v), the training by induction over batches with the optimizer theorems of C51-C55; C61_state_exists builds a starting state for all data |
| C62 | layer/mixer.py: GAP, MixerMlp, Mixer (PyMixer.v), what they compute (MixSpec.v) | a Mixer is a piece of a tape whose backward runs its layers in another order (Segments.v); each half is the layers LayerNorm, Linear, gelu and Linear-plus-residual, whose pullbacks compose (MixerRuns.v, MixerSeg.v); SegDiff.v turns this into derivatives. GAP: two lists of tasks; C62_gap_overwrites shows that it stores and does not add |
| C63 | constructor of MlpMixer (PyMixModels.v), what the model computes (MixSpec.v) | MixBuild.v: what the constructor makes, by induction on the layers; MixModel.v: the objects made are a list of pieces in the sense of Segments.v, in order, whose value is the specification; PropMixModel.v: seg_backprop with the cross-entropy of C50. MixExamples.v: for every instance a state exists; a concrete instance with two layers and ragged tiles |
| C64 | the kernels and calls of C16, C17, C19 with the binary32 operations of Binary32.v (SpecFloat) | Fp32.v: the operations round the exact result, from Flocq; KahanErr.v: invariant of the compensated sum over any list of values (|s - c - S| <= 2uX + 13ku^2X); PropFp.v: induction over the tiles |
| C65 | pipeline.py's loops for the built MlpMixer with the optimizers of OptBuild.v (PropMixTrain.v) | SegTrain.v: the induction of C61 over minibatches and batches, for any list of pieces in the sense of Segments.v whose input is a tensor of floats; PropMixTrain.v: the built mixer is such a list; MixTrainExamples.v: a starting state for all data and parameters, a concrete training with Adam |
| C66 | DeepReLU's constructor (`deep_relu` in PyModels.v) and pipeline.py's loops for it (PropRelu.v) | ReluSpec.v: the perceptron in words; ReluBuild.v: what the constructor makes, by induction over its loop; ReluModel.v: its layers, their order, their values by the fixpoint equation of the tape; PropRelu.v: SegTrain.v at these layers; ReluExamples.v: a starting state for all data and parameters, a concrete training with Adam |
| C67 | nntile_core.cc's from_array/to_array for tensors and tiles (NumpyIO.v); the numpy array is a column-major buffer of the store, the blocking acquire/memcpy/release one task; conversions of pybind11 before the call are not modelled (without forcecast on to_array's argument a C-ordered array would be a temporary copy) | PropNumpy.v: checks = equality of shapes by induction over the loop; one host copy by AccRuns on a one-tile tensor; composed with C09 |
| C68 | save_state/load_state of Adam, FusedAdam, FusedAdamW (Checkpoint.v); a file is the dictionary that is pickled, arrays tagged numpy/torch; the float16/bfloat16 roundings are arbitrary functions; np.zeros' initial zeros left out | PropCheckpoint.v: induction over the list of moments with frames between the transfers; refutations by computation |
| C69 | no new model code: relu_train, gpt2_train, mixer_train from any iteration number and contents of the state tensors (opt_state, OptState.v) | the training theorems are proved in this form first (C61, C65, C66 are the case of no past); opt_iterates of concatenations; C69_*_from_file composes with C68 |
| C70 | gpt2.py from_torch: the loop over named_parameters with its branches, numpy slices, .T and reshape in row-major order (GptTorch.v), loading by from_array (NumpyIO.v); environment: torch's GPT2 as a function (GptTorchSpec.v), and the names, order and shapes of its parameters (named_parameters) | the conversions element by element, a relation between the two sets of parameters (mconv) and equality of the two functions under it (TorchMath.v), induction on the layers; C59 on the loaded state |
| C71 | gpt2.py to_torch: the same loop backwards (GptTorch.v), reading by to_array | the same relation mconv, which determines the torch parameters: C70 and C71 together give the round trip |
| C72 | mlp_mixer.py from_torch (sizes, input tensor, constructor, zip loop with its comparison of first dimensions) and to_torch (MixTorch.v); environment: torch's MLP-Mixer as a function (MixTorchSpec.v) | shapes by number of the parameter, a relation between the two sets of parameters, equality of the functions by induction on the layers, then C67's from_array and C63's step; the square case is refuted with explicit parameters |
| C73 | deep_relu.py from_torch (number of layers and biases from the second parameter's rank, sizes, input tensor, constructor, zip loop) (ReluTorch.v); environment: torch's MLP as a function (`torch_mlp`), the order and shapes of its parameters | the model's shapes are torch's, torch's function is C66's by induction on the layers, C67's from_array composed with C66's training; refusals: case analysis of the checks |
| C74 | evaluation of a batch: copy into activations[0], BaseModel.forward_async (deep_relu_image_classification.py:192-198, pipeline.py:59-60) (PropInfer.v `evaluate`) on the builds of C66/C69 | forward of the layers alone from arbitrary contents of all other tensors (induction on the layers, `inf_ok`), frame: only values of activations change, so `relu_ready` and the optimizer state stay; then composed with C69 (InferTrain.v) |
| C75 | deep_linear.py constructor (PyModels.v `deep_linear`) and forward_async | invariant of the constructor's loop (`lmade`), induction over the layers for the values from arbitrary other contents; refusal by case analysis on the last layer's bias check |
| C76 | CrossEntropy.generate_simple, GPT2Model constructor (PyModels.v `gen_cross_entropy`, `gpt2`) on builds with any well-formed logits | the number of tiles of logits and labels compared with the length of the distribution (CeBuild.v); refusals of GPT2 by cases on the checks of its layers |
| C77 | DeepLinear with Frob.generate_simple (LinTrain.v `gen_frob`) and one step of clear, forward, loss, backward | the tensors of the loss added to the build of C75 (LinTrain.v `gen_frob_ok`); the constructed layers instantiate C49; the values of the tape equal the chain of affine maps of the specification by induction on the layers |
