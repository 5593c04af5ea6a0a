(** * Element-wise operations: C12, C14, C29 and the general parts of C13, C15 *)
From Verif Require Import Base Spec Geometry Traits TraitsProofs Runtime Ops TensorSem ElemGeneric OneOut
  KernelsElem ElemOps ElemProofs Formulas.
Local Open Scope ops_scope.

Section C12.
Context {T : Type} {O : Ops T}.

(** Statement schemes.  [runs] (OneOut.v): submission succeeds, access modes are sound,
    every schedule runs without error and ends in a state with the given property. *)
Definition unary_elementwise (op : tensor -> res (list (task T))) (f : T -> T) : Prop :=
  forall A s, wf_tensor A -> stored KF s A ->
    runs (op A) s (fun s' =>
      (forall idx, inb (t_shape A) idx -> elem s' A idx = f (elem s A idx)) /\ frame [A] s s').

Definition same_tiling (A B : tensor) : Prop := t_shape A = t_shape B /\ t_base A = t_base B.

Definition binary_elementwise (op : tensor -> tensor -> res (list (task T))) (f : T -> T -> T) : Prop :=
  forall src dst s, wf_tensor src -> wf_tensor dst ->
    (same_tiling src dst -> stored KF s src -> stored KF s dst -> disj src dst ->
     runs (op src dst) s (fun s' =>
       (forall idx, inb (t_shape dst) idx -> elem s' dst idx = f (elem s src idx) (elem s dst idx)) /\
       frame [dst] s s')) /\
    (~ same_tiling src dst -> throws (op src dst)).

Definition ternary_elementwise (op : tensor -> tensor -> tensor -> res (list (task T))) (f : T -> T -> T -> T) : Prop :=
  forall x y dst s, wf_tensor x -> wf_tensor y -> wf_tensor dst ->
    (same_tiling x dst -> same_tiling y dst ->
     stored KF s x -> stored KF s y -> stored KF s dst -> disj x dst -> disj y dst ->
     runs (op x y dst) s (fun s' =>
       (forall idx, inb (t_shape dst) idx ->
          elem s' dst idx = f (elem s x idx) (elem s y idx) (elem s dst idx)) /\
       frame [dst] s s')) /\
    (~ same_tiling x dst \/ ~ same_tiling y dst -> throws (op x y dst)).

Ltac kmap F := rewrite (map_loop _ F);
  [reflexivity | assumption | intros i st Hi Hlen; rds; try reflexivity].

Lemma unary_scheme op sub m f body :
  (forall A, op A = tiles1 A sub) ->
  (forall n h, sub n h = mkTask [(h, m)] (body n)) ->
  m = MW \/ m = MRW -> (m = MW -> forall x y, f x = f y) ->
  (forall n d, 0 < n -> zlen d = n -> body n [BF d] = Ok [BF (ztab n (fun i => f (zn d i)))]) ->
  unary_elementwise op f.
Proof.
  intros Hop Hsub Hm Hmw Hb A s Hwf Hst. apply wf_wft in Hwf. rewrite Hop.
  apply (ew1 A m f body); auto. rewrite tiles1_ok by assumption. f_equal. apply ztab_ext. auto.
Qed.

Lemma binary_scheme op (chk : forall X, tensor -> tensor -> res X -> res X) (G : tensor -> tensor -> tensor) sub m f body :
  (forall A B, op A B = chk _ A B (tiles2 (G A B) A B sub)) ->
  (forall A B, wft A -> wft B -> t_shape A = t_shape B -> t_base A = t_base B ->
     wft (G A B) /\ t_shape (G A B) = t_shape B /\ t_base (G A B) = t_base B) ->
  (forall X A B (k : res X), wft A -> wft B -> t_shape A = t_shape B -> t_base A = t_base B -> chk X A B k = k) ->
  (forall X A B (k : res X), wft A -> wft B -> t_shape A <> t_shape B \/ t_base A <> t_base B -> throws (chk X A B k)) ->
  (forall n h1 h2, sub n h1 h2 = mkTask [(h1, MR); (h2, m)] (body n)) ->
  m = MW \/ m = MRW -> (m = MW -> forall a x y, f a x = f a y) ->
  (forall n a d, 0 < n -> zlen a = n -> zlen d = n ->
     body n [BF a; BF d] = Ok [BF a; BF (ztab n (fun i => f (zn a i) (zn d i)))]) ->
  binary_elementwise op f.
Proof.
  intros Hop HG Hc Hc' Hsub Hm Hmw Hb A B s HA HB. apply wf_wft in HA, HB. split.
  - intros (ES & EB) HsA HsB Hd. rewrite Hop, Hc by assumption.
    destruct (HG A B HA HB ES EB) as (HwG & EG1 & EG2).
    apply (ew2 A B m f body); auto. rewrite tiles2_ok by assumption. f_equal. apply ztab_ext. auto.
  - intros Hn. rewrite Hop. apply Hc'; auto. unfold same_tiling in Hn.
    destruct (list_eq_dec Z.eq_dec (t_shape A) (t_shape B)); [|auto].
    destruct (list_eq_dec Z.eq_dec (t_base A) (t_base B)); [|auto]. tauto.
Qed.

Lemma ternary_scheme op sub m f body :
  (forall A B C, op A B C = check_same A B (check_same A C (tiles3 A A B C sub))) ->
  (forall n h1 h2 h3, sub n h1 h2 h3 = mkTask [(h1, MR); (h2, MR); (h3, m)] (body n)) ->
  m = MW \/ m = MRW -> (m = MW -> forall a b x y, f a b x = f a b y) ->
  (forall n a b d, 0 < n -> zlen a = n -> zlen b = n -> zlen d = n ->
     body n [BF a; BF b; BF d] = Ok [BF a; BF b; BF (ztab n (fun i => f (zn a i) (zn b i) (zn d i)))]) ->
  ternary_elementwise op f.
Proof.
  intros Hop Hsub Hm Hmw Hb A B C s HA HB HC. apply wf_wft in HA, HB, HC. split.
  - intros (E1 & E2) (E3 & E4) HsA HsB HsC Hd1 Hd2. rewrite Hop.
    rewrite check_same_ok by congruence. rewrite check_same_ok by congruence.
    apply (ew3 A B C m f body); auto. rewrite tiles3_ok by auto. f_equal. apply ztab_ext. auto.
  - intros Hn. rewrite Hop. unfold same_tiling in Hn.
    destruct (list_eq_dec Z.eq_dec (t_shape A) (t_shape B)) as [E1|]; [|apply check_same_bad; auto].
    destruct (list_eq_dec Z.eq_dec (t_base A) (t_base B)) as [E2|]; [|apply check_same_bad; auto].
    rewrite check_same_ok by assumption.
    apply check_same_bad.
    destruct (list_eq_dec Z.eq_dec (t_shape A) (t_shape C)); [|auto].
    destruct (list_eq_dec Z.eq_dec (t_base A) (t_base C)); [|auto].
    exfalso. destruct Hn as [Hn|Hn]; apply Hn; split; congruence.
Qed.

Ltac unary m body := eapply (unary_scheme _ _ m _ body); [reflexivity|reflexivity|auto|try discriminate; try reflexivity|].

(** *** One tensor *)
Theorem C12_fill (val : T) : unary_elementwise (fill_async val) (fun _ => val).
Proof.
  unary MW (fun n => wrap1 (k_fill n val)). intros n d Hn Hd. unfold wrap1, k_fill.
  kmap (fun (i : Z) (x : T) => val).
Qed.

Theorem C12_relu : unary_elementwise relu_async f_relu.
Proof.
  unary MRW (fun n => wrap1 (k_relu n)). intros n d Hn Hd. unfold wrap1, k_relu.
  kmap (fun (i : Z) (x : T) => f_relu x).
Qed.

Theorem C12_drelu : unary_elementwise drelu_async f_drelu.
Proof.
  unary MRW (fun n => wrap1 (k_drelu n)). intros n d Hn Hd. unfold wrap1, k_drelu.
  kmap (fun (i : Z) (x : T) => f_drelu x). unfold f_drelu. destruct (o_zero <? zn st i); reflexivity.
Qed.

Theorem C12_gelu : unary_elementwise gelu_async f_gelu.
Proof.
  unary MRW (fun n => wrap1 (k_gelu n)). intros n d Hn Hd. unfold wrap1, k_gelu; cbv zeta.
  kmap (fun (i : Z) (x : T) => f_gelu x).
Qed.

Theorem C12_dgelu : unary_elementwise dgelu_async f_dgelu.
Proof.
  unary MRW (fun n => wrap1 (k_dgelu n)). intros n d Hn Hd. unfold wrap1, k_dgelu; cbv zeta.
  kmap (fun (i : Z) (x : T) => f_dgelu x).
Qed.

Theorem C12_gelutanh_inplace : unary_elementwise gelutanh_inplace_async f_gelutanh_inplace.
Proof.
  unary MRW (fun n => wrap1 (k_gelutanh_inplace n)). intros n d Hn Hd. unfold wrap1, k_gelutanh_inplace; cbv zeta.
  kmap (fun (i : Z) (x : T) => f_gelutanh_inplace x).
Qed.

Theorem C12_dgelutanh : unary_elementwise dgelutanh_async f_dgelutanh.
Proof.
  unary MRW (fun n => wrap1 (k_dgelutanh n)). intros n d Hn Hd. unfold wrap1, k_dgelutanh; cbv zeta.
  kmap (fun (i : Z) (x : T) => f_dgelutanh x). unfold f_dgelutanh.
  change (@c_f3 T O) with (@g3 T O). change (@c_f4 T O) with (@g4 T O). change (@c_f5 T O) with (@g5 T O).
  cbv zeta. destruct (o_isinf _); reflexivity.
Qed.

Theorem C12_sqrt_inplace : unary_elementwise sqrt_inplace_async o_sqrt.
Proof.
  unary MRW (fun n => wrap1 (k_sqrt_inplace n)). intros n d Hn Hd. unfold wrap1, k_sqrt_inplace.
  kmap (fun (i : Z) (x : T) => o_sqrt x).
Qed.

Theorem C12_pow (alpha exp : T) : unary_elementwise (pow_async alpha exp) (f_pow alpha exp).
Proof.
  unary MRW (fun n => wrap1 (k_pow n alpha exp)). intros n d Hn Hd. unfold wrap1, k_pow.
  kmap (fun (i : Z) (x : T) => f_pow alpha exp x). unfold f_pow. destruct (exp ==? _); reflexivity.
Qed.

Theorem C12_scal_inplace (alpha : T) : unary_elementwise (scal_inplace_async alpha) (fun x => alpha * x).
Proof.
  unary MRW (fun n => wrap1 (blas_scal n alpha)). intros n d Hn Hd. unfold wrap1, blas_scal.
  kmap (fun (i : Z) (x : T) => alpha * x).
Qed.

Theorem C12_hypot_scalar_inverse (eps alpha : T) :
  unary_elementwise (hypot_scalar_inverse_async eps alpha) (fun x => o_one / o_hypot (alpha * x) eps).
Proof.
  unary MRW (fun n => wrap1 (k_hypot_scalar_inverse n eps alpha)). intros n d Hn Hd.
  unfold wrap1, k_hypot_scalar_inverse.
  kmap (fun (i : Z) (x : T) => o_one / o_hypot (alpha * x) eps).
Qed.

Theorem C12_clear : unary_elementwise clear_async (fun _ => o_zero).
Proof.
  intros A s Hwf Hst. apply wf_wft in Hwf.
  apply (ew1 A MW (fun _ => o_zero) (fun _ => clear_cpu)); auto.
  - intros n d Hn Hd. unfold clear_cpu. rewrite Hd. do 3 f_equal.
    apply list_ext; [rewrite zlen_zrep, zlen_ztab; lia|]. intros i Hi. rewrite zlen_zrep in Hi by lia.
    rewrite zn_zrep, zn_ztab by lia. reflexivity.
  - unfold clear_async. rewrite t_ntiles_eq by assumption. apply for_tasks.
    intros i acc Hi. rewrite get_tile_handle_ok by assumption. bnd. reflexivity.
Qed.

(** add_scalar: when alpha = 0 and beta = 1 nothing is submitted; the formula then needs
    0 + 1*x = x, which is the only arithmetic law used. *)
Theorem C12_add_scalar (alpha beta : T) :
  (forall x, alpha ==? o_zero = true -> beta ==? o_one = true -> alpha + beta * x = x) ->
  unary_elementwise (add_scalar_async alpha beta) (fun x => alpha + beta * x).
Proof.
  intros Hid A s Hwf Hst. unfold add_scalar_async.
  destruct (alpha ==? o_zero) eqn:Ea, (beta ==? o_one) eqn:Eb; cbn [andb]; cbv iota.
  1: { apply nop_runs. split; [intros idx Hidx; symmetry; apply Hid; reflexivity|intros h Hh; reflexivity]. }
  all: apply (unary_scheme (fun A => tiles1 A (fun n => add_scalar_submit n alpha beta))
         (fun n => add_scalar_submit n alpha beta) MRW (fun x => alpha + beta * x)
         (fun n => wrap1 (k_add_scalar n alpha beta))); auto; [discriminate|];
    intros n d Hn Hd; unfold wrap1, k_add_scalar;
    kmap (fun (i : Z) (x : T) => alpha + beta * x).
Qed.

(** *** Two tensors *)
Ltac binary_same m body G := eapply (binary_scheme _ (fun X A B k => check_same A B k) G _ m _ body);
  [reflexivity | auto | intros; apply check_same_ok; assumption | intros; apply check_same_bad; assumption
  |reflexivity|auto|try discriminate; try reflexivity|].
Ltac binary_loop m body G := eapply (binary_scheme _ (fun X A B k => check_loop B A k) G _ m _ body);
  [reflexivity | auto | intros; apply check_loop_ok; congruence
  | intros ? ? ? ? ? ? [?|?]; apply check_loop_bad; auto
  |reflexivity|auto|try discriminate; try reflexivity|].

Theorem C12_relu_forward : binary_elementwise relu_forward_async (fun x _ => f_relu x).
Proof.
  binary_same MW (fun n => wrap2 (k_relu_forward n)) (fun A B : tensor => B).
  intros n a d Hn Ha Hd. unfold wrap2, k_relu_forward.
  kmap (fun (i : Z) (x : T) => f_relu (zn a i)).
Qed.

Theorem C12_sqrt : binary_elementwise sqrt_async (fun x _ => o_sqrt x).
Proof.
  binary_loop MW (fun n => wrap2 (k_sqrt n)) (fun A B : tensor => A).
  intros n a d Hn Ha Hd. unfold wrap2, k_sqrt.
  kmap (fun (i : Z) (x : T) => o_sqrt (zn a i)).
Qed.

Theorem C12_gelutanh : binary_elementwise gelutanh_async (fun x _ => f_gelutanh x).
Proof.
  binary_loop MW (fun n => wrap2 (k_gelutanh n)) (fun A B : tensor => A).
  intros n a d Hn Ha Hd. unfold wrap2, k_gelutanh; cbv zeta.
  kmap (fun (i : Z) (x : T) => f_gelutanh (zn a i)).
Qed.

Theorem C12_prod : binary_elementwise prod_async (fun x d => d * x).
Proof.
  binary_same MRW (fun n => wrap2 (k_prod n)) (fun A B : tensor => A).
  intros n a d Hn Ha Hd. unfold wrap2, k_prod.
  kmap (fun (i : Z) (x : T) => x * zn a i).
Qed.

Theorem C12_maximum : binary_elementwise maximum_async (fun x d => o_fmax x d).
Proof.
  binary_same MRW (fun n => wrap2 (k_maximum n)) (fun A B : tensor => A).
  intros n a d Hn Ha Hd. unfold wrap2, k_maximum.
  kmap (fun (i : Z) (x : T) => o_fmax (zn a i) x).
Qed.

Theorem C14_axpy (alpha : T) : binary_elementwise (axpy_async alpha) (fun x d => alpha * x + d).
Proof.
  binary_same MRW (fun n => wrap2 (blas_axpy n alpha)) (fun A B : tensor => A).
  intros n a d Hn Ha Hd. unfold wrap2, blas_axpy.
  kmap (fun (i : Z) (x : T) => alpha * zn a i + x).
Qed.

Theorem C12_copy : binary_elementwise copy_async (fun x _ => x).
Proof.
  intros A B s HA HB. apply wf_wft in HA, HB. split.
  - intros (ES & EB) HsA HsB Hd. unfold copy_async. rewrite check_same_ok by assumption.
    apply (ew2 A B MW (fun x _ => x) (fun _ => copy_cpu)); auto.
    + intros n a d Hn Ha Hd'. unfold copy_cpu, memcpy.
      destruct (Z.leb_spec (zlen a) (zlen d)); [|lia]. cbn [bind].
      rewrite skipn_all2 by (unfold zlen in *; lia). rewrite app_nil_r. rewrite <- Ha, ztab_zn. reflexivity.
    + rewrite t_ntiles_eq by assumption. rewrite (ntiles_ext A B) by assumption. apply for_tasks.
      intros i acc Hi. rewrite get_tile_handle_ok by (auto; rewrite (ntiles_ext A B); assumption). bnd.
      rewrite get_tile_handle_ok by assumption. bnd. reflexivity.
  - intros Hn. unfold copy_async. apply check_same_bad. unfold same_tiling in Hn.
    destruct (list_eq_dec Z.eq_dec (t_shape A) (t_shape B)); [|auto].
    destruct (list_eq_dec Z.eq_dec (t_base A) (t_base B)); [|auto]. tauto.
Qed.

(** *** Three tensors *)
Theorem C12_relu_backward : ternary_elementwise relu_backward_async
  (fun x dy dx => if o_zero <? x then dx + dy else dx).
Proof.
  eapply (ternary_scheme _ _ MRW _ (fun n => wrap3 (k_relu_backward n))); [reflexivity|reflexivity|auto|discriminate|].
  intros n a b d Hn Ha Hb Hd. unfold wrap3, k_relu_backward.
  kmap (fun (i : Z) (x : T) => if o_zero <? zn a i then x + zn b i else x).
  destruct (o_zero <? zn a i); rds; [reflexivity|]. symmetry. apply wr_same. lia.
Qed.

Theorem C12_gelu_backward : ternary_elementwise gelu_backward_async
  (fun x dy dx => dx + f_dgelu x * dy).
Proof.
  eapply (ternary_scheme _ _ MRW _ (fun n => wrap3 (k_gelu_backward n))); [reflexivity|reflexivity|auto|discriminate|].
  intros n a b d Hn Ha Hb Hd. unfold wrap3, k_gelu_backward; cbv zeta.
  kmap (fun (i : Z) (x : T) => x + f_dgelu (zn a i) * zn b i).
Qed.

Theorem C12_gelutanh_backward : ternary_elementwise gelutanh_backward_async
  (fun x dy dx => if o_isinf (o_exp (x * (g3 + g4 * (x * x)))) then dx else dx + f_dgelutanh x * dy).
Proof.
  eapply (ternary_scheme _ _ MRW _ (fun n => wrap3 (k_gelutanh_backward n))); [reflexivity|reflexivity|auto|discriminate|].
  intros n a b d Hn Ha Hb Hd. unfold wrap3, k_gelutanh_backward; cbv zeta.
  kmap (fun (i : Z) (x : T) => if o_isinf (o_exp (zn a i * (g3 + g4 * (zn a i * zn a i)))) then x else x + f_dgelutanh (zn a i) * zn b i).
  unfold f_dgelutanh.
  change (@c_f3 T O) with (@g3 T O). change (@c_f4 T O) with (@g4 T O). change (@c_f5 T O) with (@g5 T O).
  cbv zeta. destruct (o_isinf _); cbn [negb]; rds; [symmetry; apply wr_same; lia|reflexivity].
Qed.

End C12.
