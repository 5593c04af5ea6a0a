(** * Exchange of parameters with torch's GPT2: gpt2.py, GPT2Model.from_torch and to_torch *)
From Coq Require Import String.
From Verif Require Import Base Spec Geometry Traits Runtime Ops TensorSem Sequence NumpyIO Checkpoint PropCheckpoint.
Import ListNotations.
Local Open Scope string_scope.
Local Open Scope list_scope.
Local Open Scope Z_scope.
Local Notation "x =s y" := (String.eqb x y) (at level 70).

(** ** The operations of numpy and torch that these two functions use
    (environment; a contiguous or a strided array is its shape and its elements) *)
Section Arrays.
Context {X : Type}.
Record narr := mkN { n_shape : list Z; n_at : list Z -> X }.
(** a.T: the axes in reverse order *)
Definition transpose (a : narr) : narr := mkN (rev (n_shape a)) (fun idx => n_at a (rev idx)).
(** place of an element in row-major order, and back *)
Fixpoint c_ravel (sh idx : list Z) : Z :=
  match sh, idx with _ :: sh', i :: idx' => i * prodZ sh' + c_ravel sh' idx' | _, _ => 0 end.
Fixpoint c_unravel (sh : list Z) (k : Z) : list Z :=
  match sh with [] => [] | _ :: sh' => k / prodZ sh' :: c_unravel sh' (k mod prodZ sh') end.
(** a.reshape(sh): same elements in row-major order; a size -1 is not modelled *)
Definition reshape (sh : list Z) (a : narr) : res narr :=
  throw_if (negb (prodZ sh =? prodZ (n_shape a))) "ValueError: cannot reshape array"
    (Ok (mkN sh (fun idx => n_at a (c_unravel (n_shape a) (c_ravel sh idx))))).
(** a[lo:hi] and a[:, lo:hi] for 0 <= lo <= hi: bounds beyond the end are cut *)
Definition rows (lo hi : Z) (a : narr) : res narr :=
  match n_shape a with
  | r :: sh => Ok (mkN ((Z.min hi r - Z.min lo r) :: sh) (fun idx => match idx with i :: k => n_at a (Z.min lo r + i :: k) | [] => n_at a [] end))
  | _ => Throw "IndexError: too many indices for array"
  end.
Definition cols (lo hi : Z) (a : narr) : res narr :=
  match n_shape a with
  | r :: c :: sh => Ok (mkN (r :: (Z.min hi c - Z.min lo c) :: sh) (fun idx => match idx with i :: j :: k => n_at a (i :: Z.min lo c + j :: k) | _ => n_at a idx end))
  | _ => Throw "IndexError: too many indices for array"
  end.
(** a[lo:hi] = x and a[:, lo:hi] = x; SIMPLIFIED: raises if the shapes differ, broadcasting of x is
    not modelled *)
Definition same_shape (a b : narr) : bool := if list_eq_dec Z.eq_dec (n_shape a) (n_shape b) then true else false.
Definition set_rows (lo hi : Z) (a x : narr) : res narr :=
  v <- rows lo hi a ;;
  throw_if (negb (same_shape v x)) "RuntimeError: the expanded size of the tensor must match" (
  let r := hd 0 (n_shape a) in
  Ok (mkN (n_shape a) (fun idx => match idx with
    | i :: k => if (Z.min lo r <=? i) && (i <? Z.min hi r) then n_at x (i - Z.min lo r :: k) else n_at a idx
    | [] => n_at a [] end))).
Definition set_cols (lo hi : Z) (a x : narr) : res narr :=
  v <- cols lo hi a ;;
  throw_if (negb (same_shape v x)) "RuntimeError: the expanded size of the tensor must match" (
  let c := hd 0 (tl (n_shape a)) in
  Ok (mkN (n_shape a) (fun idx => match idx with
    | i :: j :: k => if (Z.min lo c <=? j) && (j <? Z.min hi c) then n_at x (i :: j - Z.min lo c :: k) else n_at a idx
    | _ => n_at a idx end))).
End Arrays.
Arguments narr : clear implicits.

(** an element of [named_parameters()]: the components of its name (name.split(".")) and the tensor *)
Definition named (X : Type) := (list string * narr X)%type.

Section Convert.
Context {X : Type}.
(** gpt2.py:303-304: attn_embed_dim and attn_nheads *)
Variables (e nh : Z).
(** gpt2.py:305 *)
Definition head_size : Z := e / nh.

(** ** from_torch *)
(** gpt2.py:316-324: weight number i of queries, keys, values *)
Definition qkv_weight (p : narr X) (i : Z) : res (narr X) :=
  a <- cols (i * e) ((i + 1) * e) p ;; reshape [nh; head_size; e] (transpose a).
(** gpt2.py:328-335: bias number i *)
Definition qkv_bias (p : narr X) (i : Z) : res (narr X) :=
  a <- rows (i * e) ((i + 1) * e) p ;; a <- reshape [nh; head_size] a ;; Ok (transpose a).
Definition three (f : Z -> res (narr X)) : res (list (narr X)) := a <- f 0 ;; b <- f 1 ;; c <- f 2 ;; Ok [a; b; c].
(** gpt2.py:306-352: one turn of the loop: the arrays that are given to from_array of the next
    parameters of the NNTile model, in order; name.split(".")[-1], [-2], [-3] *)
Definition torch_param (p : named X) : res (list (narr X)) :=
  let '(name, a) := p in
  match rev name with
  | last :: layer :: up =>
      if layer =s "lm_head" then Ok [a]
      else if (layer =s "c_attn") && (last =s "weight") then three (qkv_weight a)
      else if (layer =s "c_attn") && (last =s "bias") then three (qkv_bias a)
      else
        proj <- (if layer =s "c_proj" then match up with u :: _ => Ok (u =s "attn") | [] => Throw "IndexError: list index out of range" end else Ok false) ;;
        if proj : bool then
          if last =s "weight" then w <- reshape [e; nh; head_size] (transpose a) ;; Ok [w]
          else if last =s "bias" then Ok [a] else Ok []
        else Ok [transpose a]
  | _ => Throw "IndexError: list index out of range"
  end.
Fixpoint torch_arrays (ps : list (named X)) : res (list (narr X)) :=
  match ps with
  | [] => Ok []
  | p :: ps => a <- torch_param p ;; r <- torch_arrays ps ;; Ok (a ++ r)
  end.

(** ** to_torch *)
(** self.parameters[nntile_p_idx], read by to_array; [vs] are the values of the parameters that are
    left *)
Definition next_value (vs : list (narr X)) : res (narr X * list (narr X)) :=
  match vs with v :: r => Ok (v, r) | [] => Throw "IndexError: list index out of range" end.
(** gpt2.py:231-238: one turn of the loop over queries, keys, values *)
Definition back_weight (i : Z) (st : narr X * list (narr X)) : res (narr X * list (narr X)) :=
  let '(p, vs) := st in
  '(v, vs) <- next_value vs ;;
  a <- cols (i * e) ((i + 1) * e) p ;;
  c <- reshape (n_shape (transpose a)) v ;;
  p <- set_cols (i * e) ((i + 1) * e) p (transpose c) ;; Ok (p, vs).
(** gpt2.py:242-247; reshape(-1) *)
Definition back_bias (i : Z) (st : narr X * list (narr X)) : res (narr X * list (narr X)) :=
  let '(p, vs) := st in
  '(v, vs) <- next_value vs ;;
  c <- reshape [prodZ (n_shape v)] (transpose v) ;;
  p <- set_rows (i * e) ((i + 1) * e) p c ;; Ok (p, vs).
(** gpt2.py:221-275: one turn of the loop: the new value of the parameter *)
Definition back_param (p : named X) (vs : list (narr X)) : res (narr X * list (narr X)) :=
  let '(name, a) := p in
  match rev name with
  | last :: layer :: up =>
      if layer =s "lm_head" then
        (* to_array into an array of p's shape *)
        '(v, r) <- next_value vs ;;
        throw_if (negb (same_shape v a)) "array.shape()[i] != shape[i]" (Ok (v, r))
      else if (layer =s "c_attn") && (last =s "weight") then
        st <- back_weight 0 (a, vs) ;; st <- back_weight 1 st ;; back_weight 2 st
      else if (layer =s "c_attn") && (last =s "bias") then
        st <- back_bias 0 (a, vs) ;; st <- back_bias 1 st ;; back_bias 2 st
      else
        proj <- (if layer =s "c_proj" then match up with u :: _ => Ok (u =s "attn") | [] => Throw "IndexError: list index out of range" end else Ok false) ;;
        if proj : bool then
          '(v, r) <- next_value vs ;;
          if last =s "weight" then c <- reshape (n_shape (transpose a)) v ;; Ok (transpose c, r)
          else if last =s "bias" then Ok (v, r)
          else Ok (a, vs)
        else
          '(v, r) <- next_value vs ;; Ok (transpose v, r)
  | _ => Throw "IndexError: list index out of range"
  end.
Fixpoint to_torch (ps : list (named X)) (vs : list (narr X)) : res (list (named X)) :=
  match ps with
  | [] => Ok []
  | p :: ps => '(a, vs) <- back_param p vs ;; r <- to_torch ps vs ;; Ok ((fst p, a) :: r)
  end.
End Convert.

Section Load.
Context {T : Type} {O : Ops T}.
(** the arrays are in memory at [mem j], as from_array wants them (py::array::f_style, forcecast) *)
Definition in_memory {X} (mem : nat -> handle) (as_ : list (narr X)) : list ndarray :=
  map (fun '(j, a) => {| a_shape := n_shape a; a_mem := mem j |}) (combine (seq 0 (List.length as_)) as_).
(** gpt2.py:303-354: from_array of every parameter [ts] of the model that was just constructed.
    SIMPLIFIED: all arrays are computed before the first is loaded; torch holds elements of any type
    [X], which [mem] holds converted *)
Definition from_torch {X} (e nh : Z) (ps : list (named X)) (mem : nat -> handle) (q : nat -> slot) (ts : list tensor) : res (list (task T)) :=
  as_ <- torch_arrays e nh ps ;;
  loads false q (map (fun x => (Numpy, x)) (in_memory mem as_)) ts.
(** gpt2.py:225-226, 233-234, 243-244, 250-252, 272-273: every parameter is read by to_array into
    np.zeros; [q] are the places of the arrays and of to_array's one-tile tensors *)
Fixpoint read_parameters (q : nat -> slot) (ts : list tensor) : res (list (task T)) :=
  match ts with
  | [] => Ok []
  | t :: r => then_ (to_array t (zeros_like t (q 0%nat)) (sl_next (q 0%nat)) (sl_scr (q 0%nat))) (read_parameters (fun j => q (S j)) r)
  end.
End Load.

(** ** Environment: named_parameters() of transformers' GPT2LMHeadModel with an untied head *)
Section Named.
Context {X : Type}.
Variables (e inner V maxpos : Z) (num : nat -> string) (Q : nat -> list Z -> X).
Definition torch_block_params (k : nat) : list (named X) :=
  let q := (2 + 12 * k)%nat in
  let pre := ["transformer"; "h"; num k] in
  [(pre ++ ["ln_1"; "weight"], mkN [e] (Q q)); (pre ++ ["ln_1"; "bias"], mkN [e] (Q (q + 1)%nat));
   (pre ++ ["attn"; "c_attn"; "weight"], mkN [e; 3 * e] (Q (q + 2)%nat)); (pre ++ ["attn"; "c_attn"; "bias"], mkN [3 * e] (Q (q + 3)%nat));
   (pre ++ ["attn"; "c_proj"; "weight"], mkN [e; e] (Q (q + 4)%nat)); (pre ++ ["attn"; "c_proj"; "bias"], mkN [e] (Q (q + 5)%nat));
   (pre ++ ["ln_2"; "weight"], mkN [e] (Q (q + 6)%nat)); (pre ++ ["ln_2"; "bias"], mkN [e] (Q (q + 7)%nat));
   (pre ++ ["mlp"; "c_fc"; "weight"], mkN [e; inner] (Q (q + 8)%nat)); (pre ++ ["mlp"; "c_fc"; "bias"], mkN [inner] (Q (q + 9)%nat));
   (pre ++ ["mlp"; "c_proj"; "weight"], mkN [inner; e] (Q (q + 10)%nat)); (pre ++ ["mlp"; "c_proj"; "bias"], mkN [e] (Q (q + 11)%nat))].
Definition named_parameters (layers : nat) : list (named X) :=
  let q := (2 + 12 * layers)%nat in
  [(["transformer"; "wte"; "weight"], mkN [V; e] (Q 0%nat)); (["transformer"; "wpe"; "weight"], mkN [maxpos; e] (Q 1%nat))] ++
  flat_map torch_block_params (seq 0 layers) ++
  [(["transformer"; "ln_f"; "weight"], mkN [e] (Q q)); (["transformer"; "ln_f"; "bias"], mkN [e] (Q (q + 1)%nat)); (["lm_head"; "weight"], mkN [V; e] (Q (q + 2)%nat))].
End Named.
