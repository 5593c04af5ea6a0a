(** * Construction of models in Python

    The generate_simple functions of the layers and the constructors of the models, as functions
    on what has been allocated so far.  A TensorMoments object is a number; its value and gradient
    tensors are named [Val n] and [Grad n], and the other temporaries of the layer number [l] are
    named [Tmp l i].  Tags are not modelled; the handles of the tiles are (Tensor_new).
    redux=False, fp32_fast_tf32=False, fp32_convert_fp16=False.  An exception is [Throw]. *)
From Coq Require Import Reals.
From Verif Require Import Base Spec Geometry Traits Runtime Ops TensorSem Concrete Axis XReals MatOps HasRuns PyLayers.
Local Close Scope R_scope.
Local Open Scope string_scope.
Local Open Scope list_scope.
Local Open Scope Z_scope.

(** A layer object: the objects it refers to. *)
Inductive ldesc :=
| LLinear (sd : side) (tx : transop) (x y w : nat) (nd : Z) (b : option nat)
| LAct (f : actfun) (x y : nat)
| LAdd (x y r : nat)
| LAddSlice (x y u : nat) (axis : Z)
| LEmb (ix : tensor) (y w : nat) (axis : Z)
| LNorm (x y gamma beta : nat) (axis : Z) (eps : R)
| LAttn (flash : bool) (xq xk xv y wq wk wv w : nat) (bias : option (nat * nat * nat * nat)) (mask : option tensor).

(** activations_output (every layer here has one) *)
Definition ld_out (d : ldesc) : nat :=
  match d with
  | LLinear _ _ _ y _ _ _ => y | LAct _ _ y => y | LAdd _ _ r => r | LAddSlice _ _ u _ => u | LEmb _ y _ _ => y
  | LNorm _ y _ _ _ _ => y | LAttn _ _ _ _ y _ _ _ _ _ _ => y
  end.
(** parameters: linear.py:57-62, embedding.py:32, layer_norm.py:43-44, attention.py:68-88 (the
    weights of q, k, v, their biases, the output weight, its bias), add.py:27, act.py:42 *)
Definition ld_params (d : ldesc) : list nat :=
  match d with
  | LLinear _ _ _ _ w _ b => w :: match b with Some b => [b] | None => [] end
  | LAct _ _ _ | LAdd _ _ _ | LAddSlice _ _ _ _ => []
  | LEmb _ _ w _ => [w]
  | LNorm _ _ gamma beta _ _ => [gamma; beta]
  | LAttn _ _ _ _ _ wq wk wv w bias _ =>
      [wq; wk; wv] ++ match bias with Some (bq, bk, bv, _) => [bq; bk; bv] | None => [] end ++ [w] ++
      match bias with Some (_, _, _, bo) => [bo] | None => [] end
  end.

(** What has been made: tensors by name, next free handle, number of TensorMoments objects,
    the lists [layers] and [activations] of the constructor. *)
Record build := mkB { b_mem : gvar -> option tensor; b_next : Z; b_n : nat; b_layers : list ldesc; b_acts : list nat }.
Definition bt (b : build) (x : gvar) : tensor := match b_mem b x with Some t => t | None => std_tensor [] [] 0 end.
Definition bshape (b : build) (n : nat) : list Z := t_shape (bt b (Val n)).
Definition bbase (b : build) (n : nat) : list Z := t_base (bt b (Val n)).
Definition bdistr (b : build) (n : nat) : list Z := tile_distr (bt b (Val n)).

(** type(x)(TensorTraits(sh, ba), distr, next_tag) *)
Definition mk_tensor (sh ba : list Z) (distr : TensorTraits -> list Z) (b : build) : res (tensor * build) :=
  traits <- TensorTraits_new sh ba ;;
  '(t, _) <- Tensor_new traits (distr traits) (b_next b) ;;
  Ok (t, mkB (b_mem b) (b_next b + t_ntiles t) (b_n b) (b_layers b) (b_acts b)).
(** [0] * traits.grid.nelems *)
Definition zeros (t : TensorTraits) : list Z := zrep (tt_nelems (tn_grid t)) 0.
Definition mem_set (m : gvar -> option tensor) (x : gvar) (t : tensor) : gvar -> option tensor := fun y => if gvar_dec y x then Some t else m y.
Definition alloc (x : gvar) (sh ba : list Z) (distr : TensorTraits -> list Z) (b : build) : res build :=
  '(t, b) <- mk_tensor sh ba distr b ;;
  Ok (mkB (mem_set (b_mem b) x t) (b_next b) (b_n b) (b_layers b) (b_acts b)).
(** v = T(traits, distr, tag); g = T(traits, distr, tag); TensorMoments(v, g, True) *)
Definition moments_new (sh ba : list Z) (distr : TensorTraits -> list Z) (b : build) : res (nat * build) :=
  let n := b_n b in
  b <- alloc (Val n) sh ba distr b ;;
  b <- alloc (Grad n) sh ba distr b ;;
  Ok (n, mkB (b_mem b) (b_next b) (S n) (b_layers b) (b_acts b)).
(** the number of the layer under construction *)
Definition lid (b : build) : nat := List.length (b_layers b).

(** Python slices l[:n], l[n:], l[-n:], l[:-n] for n >= 0 (n > 0 in the last two) *)
Definition sl_to {X} (n : Z) (l : list X) := firstn (Z.to_nat n) l.
Definition sl_from {X} (n : Z) (l : list X) := skipn (Z.to_nat n) l.
Definition sl_last {X} (n : Z) (l : list X) := skipn (List.length l - Z.to_nat n) l.
Definition sl_butlast {X} (n : Z) (l : list X) := firstn (List.length l - Z.to_nat n) l.

(** shapes of w and y from those of x and of the new dimensions: linear.py:94-118 *)
Definition lin_cut (sd : side) (tx : transop) (nd : Z) (l a : list Z) : list Z * list Z :=
  match sd, tx with
  | SideL, NoTrans => (sl_last nd l ++ a, sl_butlast nd l ++ a)
  | SideL, Trans => (sl_to nd l ++ a, sl_from nd l ++ a)
  | SideR, NoTrans => (a ++ sl_to nd l, a ++ sl_from nd l)
  | SideR, Trans => (a ++ sl_last nd l, a ++ sl_butlast nd l)
  end.
(** linear.py:84-190 and the constructor, 40-80.  (The constructor checks ndim after all tensors
    are made; for ndim <= 0 both raise.) *)
Definition gen_linear (x : nat) (sd : side) (tx : transop) (nd : Z) (add addb : list Z) (bias : bool) (b : build) : res (ldesc * build) :=
  throw_if (nd <=? 0) "ndim must be positive integer" (
  let '(ws, ys) := lin_cut sd tx nd (bshape b x) add in
  let '(wb, yb) := lin_cut sd tx nd (bbase b x) addb in
  '(w, b) <- moments_new ws wb zeros b ;;
  '(o, b) <- (if bias then throw_if (1 <? zlen add) "Bias is not yet supported for len(add_shape) > 1"
                ('(o, b) <- moments_new add addb zeros b ;; Ok (Some o, b))
              else Ok (None, b)) ;;
  '(y, b) <- moments_new ys yb zeros b ;;
  Ok (LLinear sd tx x y w nd o, b)).

(** act.py:52-66 *)
Definition gen_act (x : nat) (f : actfun) (b : build) : res (ldesc * build) :=
  '(y, b) <- moments_new (bshape b x) (bbase b x) (fun _ => bdistr b x) b ;; Ok (LAct f x y, b).
(** add.py:29-38 *)
Definition gen_add (x y : nat) (b : build) : res (ldesc * build) :=
  '(r, b) <- moments_new (bshape b y) (bbase b y) zeros b ;; Ok (LAdd x y r, b).
(** add_slice.py:57-71 *)
Definition gen_add_slice (x y : nat) (axis : Z) (b : build) : res (ldesc * build) :=
  '(u, b) <- moments_new (bshape b x) (bbase b x) (fun _ => bdistr b x) b ;; Ok (LAddSlice x y u axis, b).
(** embedding.py:41-69: the axis is put at position [axis] of the shape of the indices *)
Definition gen_embedding (ix : tensor) (axis vocab emb y_tile w_tile : Z) (b : build) : res (ldesc * build) :=
  throw_if (negb (y_tile mod w_tile =? 0)) "y_emb_tile % w_emb_tile != 0" (
  '(w, b) <- moments_new [emb; vocab] [w_tile; vocab] zeros b ;;
  '(y, b) <- moments_new (ins axis emb (t_shape ix)) (ins axis y_tile (t_base ix)) zeros b ;;
  Ok (LEmb ix y w axis, b)).
(** layer_norm.py:68-128.  The distributions of gamma, beta, mean and inv_stddev are entries of
    that of x, one for each tile: only their number matters here.  The initial values of gamma
    and beta (124-126) are not modelled here. *)
Definition gen_layer_norm (x : nat) (axis : Z) (eps : R) (b : build) : res (ldesc * build) :=
  let sh := bshape b x in let ba := bbase b x in let d := fun _ : TensorTraits => bdistr b x in
  '(y, b) <- moments_new sh ba d b ;;
  '(g, b) <- moments_new [zn sh axis] [zn ba axis] zeros b ;;
  '(be, b) <- moments_new [zn sh axis] [zn ba axis] zeros b ;;
  let l := lid b in
  b <- alloc (Tmp l 0) sh ba d b ;;
  b <- alloc (Tmp l 1) sh ba d b ;;
  b <- alloc (Tmp l 2) (del axis sh) (del axis ba) zeros b ;;
  b <- alloc (Tmp l 3) (del axis sh) (del axis ba) zeros b ;;
  Ok (LNorm x y g be axis (sqrt eps), b).

(** moments of a temporary of an attention layer: value [Tmp l i], gradient [Tmp l (10+i)] *)
Definition tmp_moments (i : nat) (sh ba : list Z) (b : build) : res build :=
  b <- alloc (Tmp (lid b) i) sh ba zeros b ;; alloc (Tmp (lid b) (10 + i)) sh ba zeros b.
Definition moments_if (c : bool) (sh ba : list Z) (b : build) : res (nat * build) := if c then moments_new sh ba zeros b else Ok (O, b).
(** attention.py:147-395 and flash_attention.py:150-404, which differ in the class made and in the
    assertion of the constructor (flash_attention.py:70), made here at once *)
Definition gen_attention (flash : bool) (xq xk xv : nat) (n_head n_head_tile : Z) (bias : bool) (mask : option tensor) (b : build) : res (ldesc * build) :=
  match bshape b xq, bbase b xq with
  | [n_emb; n_seq; n_batch], [e_tile; s_tile; b_tile] =>
      let head := n_emb / n_head in
      throw_if (negb (n_emb =? head * n_head)) "RuntimeError" (
      throw_if (flash && negb (n_head mod n_head_tile =? 0)) "AssertionError" (
      throw_if (negb (list_eqb Z.eqb (sl_from 1 (bshape b xk)) [n_seq; n_batch])) "Invalid shape of x_k" (
      throw_if (negb (list_eqb Z.eqb (sl_from 1 (bbase b xk)) [s_tile; b_tile])) "Invalid basetile shape of x_k" (
      throw_if (negb (list_eqb Z.eqb (sl_from 1 (bshape b xv)) [n_seq; n_batch])) "Invalid shape of x_v" (
      throw_if (negb (list_eqb Z.eqb (sl_from 1 (bbase b xv)) [s_tile; b_tile])) "Invalid basetile shape of x_v" (
      let ek := zn (bshape b xk) 0 in let ek_tile := zn (bbase b xk) 0 in
      let ev := zn (bshape b xv) 0 in let ev_tile := zn (bbase b xv) 0 in
      let dq := bdistr b xq in
      '(wq, b) <- moments_new [n_head; head; n_emb] [n_head_tile; head; e_tile] zeros b ;;
      '(bq, b) <- moments_if bias [head; n_head] [head; n_head_tile] b ;;
      '(wk, b) <- moments_new [n_head; head; ek] [n_head_tile; head; ek_tile] zeros b ;;
      '(bk, b) <- moments_if bias [head; n_head] [head; n_head_tile] b ;;
      '(wv, b) <- moments_new [n_head; head; ev] [n_head_tile; head; ev_tile] zeros b ;;
      '(bv, b) <- moments_if bias [head; n_head] [head; n_head_tile] b ;;
      '(w, b) <- moments_new [n_emb; n_head; head] [e_tile; n_head_tile; head] zeros b ;;
      let tr_sh := [n_head; head; n_seq; n_batch] in let tr_ba := [n_head_tile; head; s_tile; b_tile] in
      let q_sh := [head; n_seq; n_batch; n_head] in let q_ba := [head; s_tile; b_tile; n_head_tile] in
      b <- tmp_moments 0 tr_sh tr_ba b ;;
      b <- tmp_moments 1 q_sh q_ba b ;;
      b <- tmp_moments 2 tr_sh tr_ba b ;;
      b <- tmp_moments 3 q_sh q_ba b ;;
      b <- tmp_moments 4 tr_sh tr_ba b ;;
      b <- tmp_moments 5 q_sh q_ba b ;;
      b <- tmp_moments 6 [n_seq; n_seq; n_batch; n_head] [s_tile; s_tile; b_tile; n_head_tile] b ;;
      b <- alloc (Tmp (lid b) 7) [2; n_seq; n_batch; n_head] [2; s_tile; b_tile; n_head_tile] zeros b ;;
      b <- alloc (Tmp (lid b) 17) [n_seq; n_batch; n_head] [s_tile; b_tile; n_head_tile] zeros b ;;
      b <- tmp_moments 8 q_sh q_ba b ;;
      b <- tmp_moments 9 tr_sh tr_ba b ;;
      '(bo, b) <- moments_if bias [n_emb] [e_tile] b ;;
      '(y, b) <- moments_new [n_emb; n_seq; n_batch] [e_tile; s_tile; b_tile] (fun _ => dq) b ;;
      Ok (LAttn flash xq xk xv y wq wk wv w (if bias then Some (bq, bk, bv, bo) else None) mask, b)))))))
  | _, _ => Throw "ValueError"
  end.

(** layers.append(new_layer); activations.extend(new_layer.activations_output) *)
Definition push (r : res (ldesc * build)) : res build :=
  '(d, b) <- r ;; Ok (mkB (b_mem b) (b_next b) (b_n b) (b_layers b ++ [d]) (b_acts b ++ [ld_out d])).
(** activations[-k] *)
Definition act (b : build) (k : nat) : nat := nth (List.length (b_acts b) - k) (b_acts b) O.
Fixpoint repeat_build (n : nat) (f : build -> res build) (b : build) : res build :=
  match n with O => Ok b | S n => b <- f b ;; repeat_build n f b end.

(** ** GPT2: gpt2.py *)
Record gpt2_config := { c_vocab : Z; c_vocab_tile : Z; c_embed : Z; c_embed_tile : Z; c_maxpos : Z; c_inner : Z; c_inner_tile : Z;
  c_eps : R; c_layers : nat; c_head : Z; c_head_tile : Z; c_act : actfun; c_flash : bool }.
(** gpt2.py:55-86: GPT2MLP, with lists of its own *)
Definition gpt2_mlp (c : gpt2_config) (x : nat) (b : build) : res build :=
  let b := mkB (b_mem b) (b_next b) (b_n b) [] [x] in
  b <- push (gen_linear x SideR NoTrans 1 [c_inner c] [c_inner_tile c] true b) ;;
  b <- push (gen_act (act b 1) (c_act c) b) ;;
  push (gen_linear (act b 1) SideR NoTrans 1 [c_embed c] [c_embed_tile c] true b).
(** gpt2.py:169-207: one turn of the loop *)
Definition gpt2_block (c : gpt2_config) (mask : tensor) (b : build) : res build :=
  b <- push (gen_layer_norm (act b 1) 0 (c_eps c) b) ;;
  b <- push (gen_attention (c_flash c) (act b 1) (act b 1) (act b 1) (c_head c) (c_head_tile c) true (Some mask) b) ;;
  b <- push (gen_add (act b 3) (act b 1) b) ;;
  b <- push (gen_layer_norm (act b 1) 0 (c_eps c) b) ;;
  m <- gpt2_mlp c (act b 1) b ;;
  let b := mkB (b_mem m) (b_next m) (b_n m) (b_layers b ++ b_layers m) (b_acts b ++ tl (b_acts m)) in
  push (gen_add (act b 5) (act b 1) b).
(** gpt2.py:112-226: the mask (its contents: upper triangular, see the theorems) and the layers.
    [ids] and [pos] are the values of input_ids and positional_ids, which have no gradients;
    [next] is the first free handle.  The list of activations leaves these two out. *)
Definition gpt2 (c : gpt2_config) (ids pos : tensor) (next : Z) : res (tensor * build) :=
  let seq_len := zn (t_shape ids) 0 in let seq_tile := zn (t_base ids) 0 in
  let b := mkB (fun _ => None) next O [] [] in
  '(mask, b) <- mk_tensor [seq_len; seq_len] [seq_tile; seq_tile] zeros b ;;
  b <- push (gen_embedding ids 0 (c_vocab c) (c_embed c) (c_embed_tile c) (c_vocab_tile c) b) ;;
  b <- push (gen_embedding pos 0 (c_maxpos c) (c_embed c) (c_embed_tile c) (c_vocab_tile c) b) ;;
  b <- push (gen_add_slice (act b 2) (act b 1) 2 b) ;;
  b <- repeat_build (c_layers c) (gpt2_block c mask) b ;;
  b <- push (gen_layer_norm (act b 1) 0 (c_eps c) b) ;;
  b <- push (gen_linear (act b 1) SideR NoTrans 1 [c_vocab c] [c_vocab c] false b) ;;
  Ok (mask, b).

(** ** The loss: crossentropy.py:48-72.  Its value is [Tmp l 0], maxsumexp [Tmp l 1], logsumexp
    [Tmp l 2], where [l] is the number of layers.  The labels are made first. *)
Definition gen_cross_entropy (o : nat) (b : build) : res (tensor * build) :=
  let sh := sl_from 1 (bshape b o) in let ba := sl_from 1 (bbase b o) in let d := fun _ : TensorTraits => bdistr b o in
  '(labels, b) <- mk_tensor sh ba d b ;;
  b <- alloc (Tmp (lid b) 1) (2 :: sh) (2 :: ba) d b ;;
  b <- alloc (Tmp (lid b) 0) [] [] (fun _ => [0]) b ;;
  b <- alloc (Tmp (lid b) 2) sh ba d b ;;
  Ok (labels, b).

(** ** DeepReLU (deep_relu.py:27-77) and DeepLinear (deep_linear.py:25-68).  Object 0 is the input
    [x]; its gradient may be None. *)
Definition input_build (x : tensor) (xg : option tensor) (next : Z) : build :=
  mkB (fun y => match y with Val O => Some x | Grad O => xg | _ => None end) next 1 [] [O].
Definition deep_relu (sd : side) (nd add addb : Z) (nlayers : nat) (n_classes : Z) (bias : bool) (b : build) : res build :=
  throw_if (Z.of_nat nlayers <? 2) "nlayers must be at least 2" (
  throw_if (nd <=? 0) "ndim must be positive integer" (
  b <- push (gen_linear O sd NoTrans nd [add] [addb] bias b) ;;
  b <- push (gen_act (act b 1) Relu b) ;;
  b <- repeat_build (nlayers - 2) (fun b =>
         b <- push (gen_linear (act b 1) sd NoTrans 1 [add] [addb] bias b) ;; push (gen_act (act b 1) Relu b)) b ;;
  push (gen_linear (act b 1) sd NoTrans 1 [n_classes] [n_classes] bias b))).
Definition deep_linear (sd : side) (nd add addb : Z) (nlayers : nat) (b : build) : res build :=
  throw_if (Z.of_nat nlayers <? 2) "nlayers must be at least 2" (
  throw_if (nd <=? 0) "ndim must be positive integer" (
  let xs := bshape b O in let xb := bbase b O in
  b <- push (gen_linear O sd NoTrans nd [add] [addb] true b) ;;
  b <- repeat_build (nlayers - 2) (fun b => push (gen_linear (act b 1) sd NoTrans 1 [add] [addb] true b)) b ;;
  let '(ns, nb) := match sd with SideL => (sl_last nd xs, sl_last nd xb) | SideR => (sl_to nd xs, sl_to nd xb) end in
  push (gen_linear (act b 1) sd NoTrans 1 ns nb true b))).

(** ** Methods of the layers and of the model (base_model.py), [req n]: grad_required of object [n] *)
Section Methods.
Variables (req : nat -> bool) (b : build).
Definition bmom (n : nat) : moments := {| m_val := bt b (Val n); m_grad := bt b (Grad n); m_req := req n |}.
Definition btm (l i : nat) : moments := {| m_val := bt b (Tmp l i); m_grad := bt b (Tmp l (10 + i)); m_req := true |}.
Definition ld_py (l : nat) (d : ldesc) : pylayer XR :=
  match d with
  | LLinear sd tx x y w nd o =>
      {| pl_forward := linear_forward sd tx (bmom x) (bmom y) (bmom w) nd (option_map bmom o);
         pl_backward := linear_backward sd tx (bmom x) (bmom y) (bmom w) nd (option_map bmom o) |}
  | LAct f x y => {| pl_forward := act_forward f (bmom x) (bmom y); pl_backward := act_backward f (bmom x) (bmom y) |}
  | LAdd x y r => {| pl_forward := add_forward (bmom x) (bmom y) (bmom r); pl_backward := add_backward (bmom x) (bmom y) (bmom r) |}
  | LAddSlice x y u axis => {| pl_forward := add_slice_forward (bmom x) (bmom y) (bmom u) axis; pl_backward := add_slice_backward (bmom x) (bmom y) (bmom u) axis |}
  | LEmb ix y w axis => {| pl_forward := embedding_forward ix (bmom y) (bmom w) axis; pl_backward := embedding_backward ix (bmom y) (bmom w) axis |}
  | LNorm x y g be axis eps =>
      {| pl_forward := layer_norm_forward (bmom x) (bmom y) (bmom g) (bmom be) (bt b (Tmp l 0)) (bt b (Tmp l 2)) (bt b (Tmp l 3)) axis (Fin eps);
         pl_backward := layer_norm_backward (bmom x) (bmom y) (bmom g) (bmom be) (bt b (Tmp l 0)) (bt b (Tmp l 1)) (bt b (Tmp l 2)) (bt b (Tmp l 3)) axis |}
  | LAttn flash xq xk xv y wq wk wv w bias mask =>
      let bq := option_map (fun p : nat * nat * nat * nat => bmom (fst (fst (fst p)))) bias in
      let bk := option_map (fun p : nat * nat * nat * nat => bmom (snd (fst (fst p)))) bias in
      let bv := option_map (fun p : nat * nat * nat * nat => bmom (snd (fst p))) bias in
      let bo := option_map (fun p : nat * nat * nat * nat => bmom (snd p)) bias in
      let scale := o_div o_one (o_sqrt (o_ofZ (zn (bshape b xq) 0 / zn (bshape b wq) 0))) in
      match flash, mask with
      | true, Some mt =>
          {| pl_forward := flash_attention_forward (bmom xq) (bmom xk) (bmom xv) (bmom y) (bmom wq) (bmom wk) (bmom wv) (bmom w) bq bk bv bo
               (btm l 0) (btm l 1) (btm l 2) (btm l 3) (btm l 4) (btm l 5) (btm l 6) (bt b (Tmp l 7)) (btm l 8) (btm l 9) mt;
             pl_backward := flash_attention_backward (bmom xq) (bmom xk) (bmom xv) (bmom y) (bmom wq) (bmom wk) (bmom wv) (bmom w) bq bk bv bo
               (btm l 0) (btm l 1) (btm l 2) (btm l 3) (btm l 4) (btm l 5) (btm l 6) (bt b (Tmp l 7)) (bt b (Tmp l 17)) (btm l 8) (btm l 9) mt |}
      | true, None => {| pl_forward := Throw "AttributeError"; pl_backward := Throw "AttributeError" |}
      | false, _ =>
          {| pl_forward := attention_forward (bmom xq) (bmom xk) (bmom xv) (bmom y) (bmom wq) (bmom wk) (bmom wv) (bmom w) bq bk bv bo
               (btm l 0) (btm l 1) (btm l 2) (btm l 3) (btm l 4) (btm l 5) (btm l 6) (bt b (Tmp l 7)) (btm l 8) (btm l 9) mask scale NInf;
             pl_backward := attention_backward (bmom xq) (bmom xk) (bmom xv) (bmom y) (bmom wq) (bmom wk) (bmom wv) (bmom w) bq bk bv bo
               (btm l 0) (btm l 1) (btm l 2) (btm l 3) (btm l 4) (btm l 5) (btm l 6) (bt b (Tmp l 17)) (btm l 8) (btm l 9) mask scale |}
      end
  end.
Fixpoint number (k : nat) (ds : list ldesc) : list (pylayer XR) := match ds with [] => [] | d :: ds => ld_py k d :: number (S k) ds end.
(** self.layers, self.parameters, self.activations of the BaseModel *)
Definition bm_layers : list (pylayer XR) := number 0 (b_layers b).
Definition bm_params : list nat := flat_map ld_params (b_layers b).
Definition bm_forward : res (list (task XR)) := model_forward bm_layers.
Definition bm_backward : res (list (task XR)) := model_backward bm_layers.
Definition bm_clear_activations : res (list (task XR)) := clear_grads (map bmom (b_acts b)).
Definition bm_clear_parameters : res (list (task XR)) := clear_grads (map bmom bm_params).
End Methods.
