(** * Model of include/nntile/starpu/config.hh: argument unpacking, data handles, codelets *)
From Verif Require Import Base Runtime.
Local Open Scope Z_scope.

(* ------------------------------------------------------------------ *)
(** ** Config::unpack_args_ptr

    Memory is a list of bytes, a pointer is a position in it.  [int] has 4 bytes and [size_t] 8, little-endian.  Misaligned
    accesses are allowed (as on x86). *)
Definition byte_ok (b : Z) : Prop := 0 <= b < 256.
Fixpoint le_enc (n : nat) (z : Z) : list Z :=
  match n with O => [] | S n => (z mod 256) :: le_enc n (z / 256) end.
Fixpoint le_dec (l : list Z) : Z :=
  match l with [] => 0 | b :: l => b + 256 * le_dec l end.

(** [n] bytes at position [p] *)
Definition slice {A} (mem : list A) (p n : Z) : list A := firstn (Z.to_nat n) (skipn (Z.to_nat p) mem).
Definition load (mem : list Z) (p : Z) (n : nat) : res Z :=
  if (0 <=? p) && (p + Z.of_nat n <=? zlen mem) then Ok (le_dec (slice mem p (Z.of_nat n))) else UB.

(** config.hh:142-161.  [ptrs]: the reference parameters, as a list of (possibly uninitialised) positions. *)
Fixpoint unpack_args_ptr_single_arg (mem : list Z) (cl_args nargs : Z) (ptrs : list (option Z)) : res (list (option Z)) :=
  match ptrs with
  | [] => Ok []                                             (* config.hh:136-140 *)
  | ptr :: rest =>
      if nargs =? 0 then Ok ptrs
      else
        arg_size <- load mem cl_args 8 ;;
        let char_ptr := cl_args + 8 in
        rest' <- unpack_args_ptr_single_arg mem (char_ptr + arg_size) (nargs - 1) rest ;;
        Ok (Some char_ptr :: rest')
  end.
(** config.hh:121-135 *)
Definition unpack_args_ptr (mem : list Z) (ptrs : list (option Z)) : res (list (option Z)) :=
  n <- load mem 0 4 ;;
  let nargs := if n <? 2 ^ 31 then n else n - 2 ^ 32 in    (* int *)
  let cl_args := 4 in
  if 0 <? nargs then unpack_args_ptr_single_arg mem cl_args nargs ptrs else Ok ptrs.

(** The layout starpu_task_insert gives to STARPU_VALUE arguments (starpu_codelet_pack_args; trusted):
    their number as an [int], then for each its size as a [size_t] and its bytes. *)
Definition pack_args (args : list (list Z)) : list Z :=
  le_enc 4 (zlen args) ++ flat_map (fun a => le_enc 8 (zlen a) ++ a) args.

(* ------------------------------------------------------------------ *)
(** ** Handle, VariableHandle, HandleLocalData

    std::shared_ptr: a control block per adopted raw handle, with its deleter and the number of owners; the deleter runs when
    the number of owners drops to zero.  Runtime calls are recorded in a trace.
    Raw handles are identified with the index of their registration. *)
Inductive policy := Unregister | Unregister_no_coherency | Unregister_submit.
Inductive event :=
| ERegister (h : nat)
| EUnregister (p : policy) (h : nat)
| EAcquire (h : nat)
| ERelease (h : nat).

(** config.hh:199-220 *)
Definition deleter_of (m : mode) : option policy :=
  match m with
  | MR => Some Unregister_no_coherency
  | MRW | MW => Some Unregister
  | MSCRATCH => Some Unregister_submit
  | MCOMMUTE | MREDUX => None                             (* default: throw *)
  end.

Record block := mkBlock { b_handle : nat; b_policy : policy; b_count : nat }.
(** The member [handle] of a Handle: empty or a control block (by index). *)
Definition sptr := option nat.
Record local := mkLocal { l_handle : sptr; l_acquired : bool }.

Record world := mkWorld {
  w_next : nat;                                             (* number of registrations so far *)
  w_blocks : list block;                                    (* all control blocks created so far *)
  w_vars : nat -> option sptr;                              (* live Handle objects *)
  w_locals : nat -> option local;                           (* live HandleLocalData objects *)
  w_trace : list event
}.
Definition world0 : world := mkWorld 0 [] (fun _ => None) (fun _ => None) [].

Definition emit (e : event) (w : world) : world :=
  mkWorld (w_next w) (w_blocks w) (w_vars w) (w_locals w) (w_trace w ++ [e]).
Definition set_blocks (bs : list block) (w : world) : world :=
  mkWorld (w_next w) bs (w_vars w) (w_locals w) (w_trace w).
Definition set_var (x : nat) (v : option sptr) (w : world) : world :=
  mkWorld (w_next w) (w_blocks w) (fun y => if Nat.eqb y x then v else w_vars w y) (w_locals w) (w_trace w).
Definition set_local (x : nat) (v : option local) (w : world) : world :=
  mkWorld (w_next w) (w_blocks w) (w_vars w) (fun y => if Nat.eqb y x then v else w_locals w y) (w_trace w).
Definition set_count (b : block) (c : nat) : block := mkBlock (b_handle b) (b_policy b) c.

(** Copy of a shared_ptr: one more owner. *)
Definition sp_inc (p : sptr) (w : world) : res world :=
  match p with
  | None => Ok w
  | Some i => match nth_error (w_blocks w) i with
              | Some b => Ok (set_blocks (upd (w_blocks w) i (set_count b (S (b_count b)))) w)
              | None => UB
              end
  end.
(** Destruction or reset of a shared_ptr: one owner less; the deleter runs at zero (config.hh:174-198). *)
Definition sp_dec (p : sptr) (w : world) : res world :=
  match p with
  | None => Ok w
  | Some i => match nth_error (w_blocks w) i with
              | Some b => match b_count b with
                          | O => UB
                          | S c => let w := set_blocks (upd (w_blocks w) i (set_count b c)) w in
                                   Ok (match c with O => emit (EUnregister (b_policy b) (b_handle b)) w | S _ => w end)
                          end
              | None => UB
              end
  end.

(** What a program can do with these classes.  [status] is the value starpu_data_acquire returns. *)
Inductive hop :=
| HDefault (x : nat)                                        (* Handle x; *)
| HVariable (x : nat) (size : Z) (m : mode)                 (* VariableHandle x(size, m); or x(ptr, size, m); *)
| HCopy (x y : nat)                                         (* Handle x(y); *)
| HAssign (x y : nat)                                       (* x = y; *)
| HUnregister (x : nat)                                     (* x.unregister(); *)
| HDestroy (x : nat)                                        (* end of the lifetime of x *)
| LAcquire (l x : nat) (status : Z)                         (* HandleLocalData l(x, mode); or auto l = x.acquire(mode); *)
| LReacquire (l : nat) (status : Z)                         (* l.acquire(mode); *)
| LRelease (l : nat)                                        (* l.release(); *)
| LCopy (l l' : nat)                                        (* HandleLocalData l(l'); (implicit copy constructor) *)
| LDestroy (l : nat).                                       (* end of the lifetime of l *)

Definition var (w : world) (x : nat) : res sptr := match w_vars w x with Some p => Ok p | None => UB end.
Definition loc (w : world) (l : nat) : res local := match w_locals w l with Some p => Ok p | None => UB end.
Definition fresh_var (w : world) (x : nat) : res unit := match w_vars w x with None => Ok tt | Some _ => UB end.
Definition fresh_local (w : world) (l : nat) : res unit := match w_locals w l with None => Ok tt | Some _ => UB end.
(** The raw handle behind a non-empty Handle (config.hh:244-248); passing nullptr to StarPU is undefined. *)
Definition raw (w : world) (p : sptr) : res nat :=
  match p with Some i => match nth_error (w_blocks w) i with Some b => Ok (b_handle b) | None => UB end | None => UB end.

(** config.hh:358-394, 221-257, 293-336: the result is the state and whether an exception was thrown.  _reg_data registers before
    _get_shared_ptr looks at the mode. *)
Definition hstep (o : hop) (w : world) : res (world * bool) :=
  match o with
  | HDefault x => _ <- fresh_var w x ;; Ok (set_var x (Some None) w, false)
  | HVariable x size m =>
      _ <- fresh_var w x ;;
      if size =? 0 then Ok (w, true)
      else
        let h := w_next w in
        let w := emit (ERegister h) (mkWorld (S h) (w_blocks w) (w_vars w) (w_locals w) (w_trace w)) in
        match deleter_of m with
        | None => Ok (w, true)
        | Some p => Ok (set_var x (Some (Some (List.length (w_blocks w))))
                          (set_blocks (w_blocks w ++ [mkBlock h p 1]) w), false)
        end
  | HCopy x y =>
      _ <- fresh_var w x ;; p <- var w y ;; w <- sp_inc p w ;; Ok (set_var x (Some p) w, false)
  | HAssign x y =>
      q <- var w x ;; p <- var w y ;; w <- sp_inc p w ;;
      w <- sp_dec q (set_var x (Some p) w) ;; Ok (w, false)
  | HUnregister x => p <- var w x ;; w <- sp_dec p (set_var x (Some None) w) ;; Ok (w, false)
  | HDestroy x => p <- var w x ;; w <- sp_dec p (set_var x None w) ;; Ok (w, false)
  | LAcquire l x status =>                                  (* config.hh:299-304, 312-322 *)
      _ <- fresh_local w l ;; p <- var w x ;; w <- sp_inc p w ;;
      h <- raw w p ;;
      if negb (status =? 0) then w <- sp_dec p w ;; Ok (w, true)
      else Ok (emit (EAcquire h) (set_local l (Some (mkLocal p true)) w), false)
  | LReacquire l status =>                                  (* config.hh:312-322 *)
      d <- loc w l ;; h <- raw w (l_handle d) ;;
      if negb (status =? 0) then Ok (w, true)
      else Ok (emit (EAcquire h) (set_local l (Some (mkLocal (l_handle d) true)) w), false)
  | LRelease l =>                                           (* config.hh:323-328 *)
      d <- loc w l ;; h <- raw w (l_handle d) ;;
      Ok (emit (ERelease h) (set_local l (Some (mkLocal (l_handle d) false)) w), false)
  | LCopy l l' =>
      _ <- fresh_local w l ;; d <- loc w l' ;; w <- sp_inc (l_handle d) w ;; Ok (set_local l (Some d) w, false)
  | LDestroy l =>                                           (* config.hh:305-311 *)
      d <- loc w l ;;
      w <- (if l_acquired d then h <- raw w (l_handle d) ;; Ok (emit (ERelease h) w) else Ok w) ;;
      w <- sp_dec (l_handle d) (set_local l None w) ;; Ok (w, false)
  end.
Fixpoint hrun (os : list hop) (w : world) : res world :=
  match os with
  | [] => Ok w
  | o :: os => '(w, _) <- hstep o w ;; hrun os w
  end.

(* ------------------------------------------------------------------ *)
(** ** Codelet (config.hh:397-475).  Masks are bit masks; the values are those of StarPU. *)
Definition STARPU_CPU := 2.
Definition STARPU_CUDA := 8.
Definition STARPU_MAXIMPLEMENTATIONS := 4.
(** A function pointer is an option: [None] is nullptr. *)
Record codelet := mkCodelet {
  c_cpu : list (option Z);
  c_cuda : list (option Z);
  c_where : Z;
  c_default : Z
}.
(** config.hh:403-407: everything is set to zero, where_default included. *)
Definition codelet0 : codelet := mkCodelet (zrep STARPU_MAXIMPLEMENTATIONS None) (zrep STARPU_MAXIMPLEMENTATIONS None) 0 0.

(** config.hh:408-458; the second component says whether it threw. *)
Definition c_init (cpu cuda : list (option Z)) (c : codelet) : res (codelet * bool) :=
  if STARPU_MAXIMPLEMENTATIONS <? zlen cpu then Ok (c, true)
  else
    c <- for_ 0 (zlen cpu) (fun i c =>
      f <- rd cpu i ;;
      match f with
      | Some _ => l <- wr (c_cpu c) i f ;; Ok (mkCodelet l (c_cuda c) STARPU_CPU STARPU_CPU)
      | None => Ok c
      end) c ;;
    if STARPU_MAXIMPLEMENTATIONS <? zlen cuda then Ok (c, true)
    else
      c <- for_ 0 (zlen cuda) (fun i c =>
        f <- rd cuda i ;;
        match f with
        | Some _ => l <- wr (c_cuda c) i f ;;
                    let d := Z.lor (c_default c) STARPU_CUDA in Ok (mkCodelet (c_cpu c) l d d)
        | None => Ok c
        end) c ;;
      Ok (c, false).
(** config.hh:459-469 *)
Definition restrict_where (where_ : Z) (c : codelet) : codelet :=
  if Z.land (c_default c) where_ =? where_ then mkCodelet (c_cpu c) (c_cuda c) where_ (c_default c) else c.
(** config.hh:470-473 *)
Definition restore_where (c : codelet) : codelet := mkCodelet (c_cpu c) (c_cuda c) (c_default c) (c_default c).

Inductive cop := CInit (cpu cuda : list (option Z)) | CRestrict (where_ : Z) | CRestore.
Definition cstep (o : cop) (c : codelet) : res codelet :=
  match o with
  | CInit cpu cuda => '(c, _) <- c_init cpu cuda c ;; Ok c
  | CRestrict m => Ok (restrict_where m c)
  | CRestore => Ok (restore_where c)
  end.
Fixpoint crun (os : list cop) (c : codelet) : res codelet :=
  match os with [] => Ok c | o :: os => c <- cstep o c ;; crun os c end.
