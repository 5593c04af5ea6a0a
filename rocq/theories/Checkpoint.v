(** * Saving and loading the state of the Adam optimizers
    (optimizer/adam.py:101-153, 209-268; optimizer/adamw.py:74-131) *)
From Verif Require Import Base Spec Geometry Traits Runtime Ops TensorSem ElemOps Sequence PyLayers NumpyIO.
Local Open Scope Z_scope.

(** the argument dtype of save_state: any other string is a fourth case *)
Inductive sdtype := FP32 | FP16 | BF16 | OtherDtype.
(** what is put in the list: a numpy.ndarray or a torch.Tensor *)
Inductive lib := Numpy | Torch.
(** handles of one transfer: memory of the array, temporary tensor and scratch buffer of
    to_array/from_array *)
Record slot := { sl_mem : handle; sl_next : handle; sl_scr : handle }.

Section Ck.
Context {T : Type} {DT : Dflt T}.
(** conversion of an element to float16 / bfloat16 (and back to float32, which is exact) *)
Variables (to_half to_bf16 : T -> T).
Definition half_of (d : sdtype) : option (T -> T) := match d with FP16 => Some to_half | BF16 => Some to_bf16 | _ => None end.

(** lr, beta1, beta2, eps, weight_decay, (start_lr, full_lr_iter), num_iter *)
Record hyper := { hy_lr : T; hy_b1 : T; hy_b2 : T; hy_eps : T; hy_wd : T; hy_warm : option T * option Z; hy_iter : Z }.
(** An optimizer object: for every parameter (first_moments[i], second_moments[i]) -- two lists of
    equal length in the code, filled in one loop of the constructor -- and max_second_moments. *)
Record optobj := { oo_moments : list (tensor * tensor); oo_max : list tensor; oo_hyper : hyper }.
(** The pickled dictionary.  Pickling itself is not modelled: the loader finds the lists the saver
    wrote. *)
Record file := { ck_moments : list ((lib * ndarray) * (lib * ndarray)); ck_max : list ndarray; ck_hyper : hyper }.

(** np.array(np.zeros(t.shape, dtype), order="F"); the zeros written to it are left out *)
Definition zeros_like (t : tensor) (q : slot) : ndarray := {| a_shape := t_shape t; a_mem := sl_mem q |}.
Definition cast_task (f : T -> T) (h : handle) : task T :=
  mkTask [(h, MRW)] (fun b => match b with [BF x] => Ok [BF (map f x)] | _ => UB end).
(** adam.py:106-108, 213-225: f_m = zeros; moment.to_array(f_m); append(f_m.copy()) or
    append(torch.tensor(f_m, dtype=..)).  The copy is the array itself: f_m is not used again. *)
Definition save1 (d : sdtype) (t : tensor) (q : slot) : res (list (task T)) :=
  then_ (to_array t (zeros_like t q) (sl_next q) (sl_scr q))
    (Ok (match half_of d with Some f => [cast_task f (sl_mem q)] | None => [] end)).
Fixpoint save_moments (d : sdtype) (q : nat -> slot) (k : nat) (ms : list (tensor * tensor)) : res (list (task T)) :=
  match ms with
  | [] => Ok []
  | (m, v) :: r => then_ (save1 d m (q k)) (then_ (save1 d v (q (S k))) (save_moments d q (S (S k)) r))
  end.
Fixpoint file_moments (l : lib) (q : nat -> slot) (k : nat) (ms : list (tensor * tensor)) : list ((lib * ndarray) * (lib * ndarray)) :=
  match ms with
  | [] => []
  | (m, v) :: r => ((l, zeros_like m (q k)), (l, zeros_like v (q (S k)))) :: file_moments l q (S (S k)) r
  end.

(** adam.py:209-240 ([w] = Numpy: FusedAdam) and adamw.py:74-105 ([w] = Torch: FusedAdamW): only
    dtype "fp32" differs, f_m.copy() against torch.tensor(f_m).  With any other string the elif
    chain appends nothing. *)
Definition fused_save (w : lib) (o : optobj) (d : sdtype) (q : nat -> slot) : res (list (task T)) * file :=
  (save_moments d q 0 (oo_moments o),
   {| ck_moments := match d with OtherDtype => [] | FP32 => file_moments w q 0 (oo_moments o) | _ => file_moments Torch q 0 (oo_moments o) end;
      ck_max := []; ck_hyper := oo_hyper o |}).

(** moment.from_array(x) and, with [to], moment.from_array(x.to(torch.float32)) *)
Definition load1 (to : bool) (t : tensor) (x : lib * ndarray) (q : slot) : res (list (task T)) :=
  match to, fst x with
  | true, Numpy => Throw "AttributeError: 'numpy.ndarray' object has no attribute 'to'"
  | _, _ => from_array t (snd x) (sl_next q) (sl_scr q)
  end.
Fixpoint load_moments (to : bool) (q : nat -> slot) (k : nat) (fs : list ((lib * ndarray) * (lib * ndarray))) (ms : list (tensor * tensor)) : res (list (task T)) :=
  match fs with
  | [] => Ok []
  | (x, y) :: fs' =>
      match ms with
      | [] => Throw "IndexError: list index out of range"
      | (m, v) :: ms' => then_ (load1 to m x (q k)) (then_ (load1 to v y (q (S k))) (load_moments to q (S (S k)) fs' ms'))
      end
  end.
(** adam.py:242-268, adamw.py:107-131: the tasks, and the object afterwards *)
Definition fused_load (o : optobj) (f : file) (q : nat -> slot) : res (list (task T)) * optobj :=
  (load_moments true q 0 (ck_moments f) (oo_moments o),
   {| oo_moments := oo_moments o; oo_max := oo_max o; oo_hyper := ck_hyper f |}).

(** adam.py:114-117: for every tensor of max_second_moments, the entry at the index the previous
    loop ended with, the last one *)
Definition save_max (q : nat -> slot) (k : nat) (n : nat) (mx : list tensor) : res (list (task T)) * list ndarray :=
  match nth_error mx (n - 1) with
  | Some t => (fold_right (fun j => then_ (save1 FP32 t (q j))) (Ok []) (seq k (List.length mx)), map (fun j => zeros_like t (q j)) (seq k (List.length mx)))
  | None => (match mx with [] => Ok [] | _ => Throw "IndexError: list index out of range" end, [])
  end.
(** adam.py:101-131 *)
Definition adam_save (o : optobj) (q : nat -> slot) : res (list (task T)) * file :=
  let n := List.length (oo_moments o) in
  let '(r, mx) := save_max q (2 * n) n (oo_max o) in
  (then_ (save_moments FP32 q 0 (oo_moments o)) r,
   {| ck_moments := file_moments Numpy q 0 (oo_moments o); ck_max := mx; ck_hyper := oo_hyper o |}).
Fixpoint load_max (q : nat -> slot) (k : nat) (fs : list ndarray) (ts : list tensor) : res (list (task T)) :=
  match fs with
  | [] => Ok []
  | x :: fs' =>
      match ts with
      | [] => Throw "IndexError: list index out of range"
      | t :: ts' => then_ (load1 false t (Numpy, x) (q k)) (load_max q (S k) fs' ts')
      end
  end.
(** adam.py:133-153 *)
Definition adam_load (o : optobj) (f : file) (q : nat -> slot) : res (list (task T)) * optobj :=
  (then_ (load_moments false q 0 (ck_moments f) (oo_moments o)) (load_max q (2 * List.length (ck_moments f)) (ck_max f) (oo_max o)),
   {| oo_moments := oo_moments o; oo_max := oo_max o; oo_hyper := ck_hyper f |}).
End Ck.
Arguments hyper T : clear implicits.
Arguments optobj T : clear implicits.
Arguments file T : clear implicits.
