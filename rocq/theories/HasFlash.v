(** * Assertions on named tensors: the flash operations *)
From Coq Require Import Reals Lra.
From Verif Require Import Base Spec Geometry Traits TraitsProofs Runtime Ops RealOps TensorSem ElemGeneric OneOut ElemOps Axis AccRuns RSum PropElem PropElemR SoftmaxOps PairGeo SoftmaxProofs Sequence XReals SoftmaxScalar PropSoftmax NdRuns FlashOps FlashGeo FlashRuns AttnSpec PropFlash XTriples HasRuns AttMath.
Local Close Scope Z_scope.
Local Open Scope R_scope.

(** the scores of query [i] of batch entry [x] and head [y]; -inf where masked *)
Definition arow (h n : Z) (m : list Z -> bool) (kv qv : arr) (i x y : Z) : list XR :=
  map (fun k => if m [k; i] then Fin (ascore h kv qv k i x y) else NInf) (zrange n).
Definition reps (h n nb nh : Z) (m : list Z -> bool) (kv qv : arr) (f : list Z -> XR) : Prop :=
  forall i x y, (0 <= i < n)%Z -> (0 <= x < nb)%Z -> (0 <= y < nh)%Z -> rep (f [0; i; x; y]%Z, f [1; i; x; y]%Z) (arow h n m kv qv i x y).

Section Has.
Context {E : env}.
Implicit Types (M : smap) (s : store XR).

Lemma K_frame ys s s' : (forall y, In y ys -> U y) -> tinv s s' -> frame (map A ys) s s' -> K s -> K s'.
Proof.
  revert s. induction ys as [|y ys IH]; intros s HU Ht Hf HK.
  - assert (forall h, s' h = s h) by (intros h; apply Hf; intros t []).
    replace s' with s; [assumption|]. apply FunctionalExtensionality.functional_extensionality. intros h. symmetry. apply H.
  - set (s1 := fun h => if in_dec Z.eq_dec h (tile_handles (A y)) then s' h else s h).
    apply (IH s1).
    + intros z Hz. apply HU. right. assumption.
    + intros h. unfold s1. destruct (in_dec Z.eq_dec h (tile_handles (A y))); [reflexivity|apply Ht].
    + intros h Hh. unfold s1. destruct (in_dec Z.eq_dec h (tile_handles (A y))) as [|Hn]; [reflexivity|]. apply Hf. intros t [<-|Hin]; [assumption|apply Hh; assumption].
    + apply (UK y s s1); [apply HU; left; reflexivity| | |assumption].
      * intros h. unfold s1. destruct (in_dec Z.eq_dec h (tile_handles (A y))); [apply Ht|reflexivity].
      * intros h Hh. unfold s1. destruct (in_dec Z.eq_dec h (tile_handles (A y))) as [Hi|]; [|reflexivity]. exfalso. apply (Hh (A y)); [left; reflexivity|assumption].
Qed.
Lemma has_writes M M' s s' ys : has M s -> (forall y, In y ys -> U y) -> tinv s s' -> frame (map A ys) s s' ->
  (forall x, ~ In x ys -> M' x = M x) -> (forall x f, In x ys -> M' x = Some f -> xval s' (A x) f) -> has M' s'.
Proof.
  intros [HK H] HU Ht Hf Ho Hv. split; [eapply K_frame; eassumption|]. intros x Hx. destruct (H x Hx) as [S V].
  split; [eapply tinv_stored; eassumption|]. intros f Hm. destruct (in_dec gvar_dec x ys) as [Hi|Hn]; [apply Hv; assumption|].
  rewrite Ho in Hm by assumption. intros idx Hi. rewrite <- (V f Hm idx Hi).
  apply (frame_elem (map A ys)); [apply wf_wft, UW; assumption|assumption| |assumption].
  intros t Hin. apply in_map_iff in Hin as (y & <- & Hy). apply UD; [assumption|apply HU; assumption|]. intros ->. contradiction.
Qed.

Section F.
Variables (h st bt nt gs gb gn : Z).
Hypothesis He : even h st bt nt gs gb gn.
Local Notation n := (gs * st)%Z. Local Notation nb := (gb * bt)%Z. Local Notation nh := (gn * nt)%Z.
Local Notation seqt := (seq_tensor h st bt nt gs gb gn).
Local Notation pairt' := (seq_tensor 2 st bt nt gs gb gn).
Local Notation maskt := (mask_tensor st gs).
Local Notation scoret := (score_tensor st bt nt gs gb gn).
Local Notation rowt := (row_tensor st bt nt gs gb gn).
Variables (mask : tensor) (m : list Z -> bool).
Hypothesis TM : maskt mask.
(** the mask holds [m] *)
Hypothesis HM : forall s, K s -> stored KB s mask /\ forall idx, inb (t_shape mask) idx -> belem s mask idx = m idx.

Lemma row_arow s q k fq fk i x y : K s -> seqt (A q) -> seqt (A k) -> holds s (A q) fq -> holds s (A k) fk ->
  (0 <= i < n)%Z -> (0 <= x < nb)%Z -> (0 <= y < nh)%Z -> row h st gs (A q) (A k) mask s i x y = arow h n m fk fq i x y.
Proof.
  intros HK Tq Tk Vq Vk Hi Hx Hy. unfold row, arow. apply map_ext_in. intros z Hz. apply zrange_In in Hz.
  rewrite (xsc_val h st bt nt gs gb gn He (A q) (A k) mask fq fk Tq Tk s Vq Vk) by assumption.
  rewrite (proj2 (HM s HK)); [reflexivity|]. destruct TM as (_ & -> & _). inbt.
Qed.
Lemma h_flash_max M s q k ms a fq fk : has M s -> U q -> U k -> U ms -> U a -> q <> ms -> k <> ms -> a <> ms ->
  seqt (A q) -> seqt (A k) -> pairt' (A ms) -> scoret (A a) -> disj mask (A ms) -> M q = Some (fin fq) -> M k = Some (fin fk) ->
  runs_nd (then_ (clear_async (A ms)) (flash_maxsumexp_async (A q) (A k) mask (A ms) (A a) false)) s (fun s' =>
    exists f, has (upd ms (Some f) M) s' /\ reps h n nb nh m fk fq f).
Proof.
  intros Hs Uq Uk Us Ua N1 N2 N3 Tq Tk Ts Ta Dm Mq Mk. destruct (HM s (has_K _ _ Hs)) as [SM VM].
  assert (Vq := has_val _ _ _ _ Hs Uq Mq). assert (Vk := has_val _ _ _ _ Hs Uk Mk).
  apply runs_runs_nd. eapply runs_weaken; [apply (clear_flash_maxsumexp h st bt nt gs gb gn He (A q) (A k) mask (A ms) fq fk)|]; try assumption;
    try (apply UD; assumption); try (eapply has_st; eassumption).
  intros s' Ht [R1 F1]. exists (fun idx => elem s' (A ms) idx). split.
  - eapply has_write; try eassumption. intros f Ef. inversion Ef; subst. intros idx _. reflexivity.
  - intros i x y Hi Hx Hy. destruct (R1 i x y Hi Hx Hy) as [R2 _]. rewrite (row_arow s q k fq fk) in R2 by (try assumption; apply Hs). exact R2.
Qed.
Lemma h_flash_gemm M s q k v ms a y fq fk fv f g : has M s -> U q -> U k -> U v -> U ms -> U a -> U y -> q <> y -> k <> y -> v <> y -> ms <> y -> a <> y ->
  seqt (A q) -> seqt (A k) -> seqt (A v) -> pairt' (A ms) -> scoret (A a) -> seqt (A y) -> disj mask (A y) ->
  M q = Some (fin fq) -> M k = Some (fin fk) -> M v = Some (fin fv) -> M ms = Some f -> reps h n nb nh m fk fq f ->
  (forall d i x z, (0 <= d < h)%Z -> (0 <= i < n)%Z -> (0 <= x < nb)%Z -> (0 <= z < nh)%Z -> attention h n m fk fq fv d i x z = g [d; i; x; z]) ->
  runs_nd (flash_softmax_gemm_async (A q) (A k) (A v) mask (A ms) (A y) (A a) false) s (has (upd y (Some (fin g)) M)).
Proof.
  intros Hs Uq Uk Uv Us Ua Uy N1 N2 N3 N4 N5 Tq Tk Tv Ts Ta Ty Dm Mq Mk Mv Mf Hr Hg. destruct (HM s (has_K _ _ Hs)) as [SM VM].
  assert (Vq := has_val _ _ _ _ Hs Uq Mq). assert (Vk := has_val _ _ _ _ Hs Uk Mk). assert (Vv := has_val _ _ _ _ Hs Uv Mv). assert (Vs := has_val _ _ _ _ Hs Us Mf).
  apply runs_runs_nd. eapply runs_weaken; [apply (flash_softmax_gemm_vals h st bt nt gs gb gn He (A q) (A k) (A v) mask (A ms) fq fk fv Tq Tk Tv TM Ts m)|]; try assumption;
    try (apply UD; assumption); try (eapply has_st; eassumption).
  - intros i j Hi Hj. apply VM. destruct TM as (_ & -> & _). inbt.
  - intros i x z Hi Hx Hz. rewrite (row_arow s q k fq fk) by (try assumption; apply Hs). unfold pelem. rewrite !Vs by (apply (inb2 st bt nt gs gb gn); (assumption || lia)). apply Hr; assumption.
  - intros s' Ht [R1 F1]. eapply has_write; try eassumption. intros f' Ef. inversion Ef; subst. intros idx Hi. destruct Ty as (_ & Sy & _). rewrite Sy in Hi.
    apply inb4_inv in Hi as (d & i & x & z & -> & ? & ? & ? & ?). rewrite R1 by assumption. unfold fin. rewrite Hg by assumption. reflexivity.
Qed.
Lemma h_flash_bwd M s q dq k dk v dv ms da a ga sp fq fk fv fg f gq gk gv : has M s ->
  U q -> U dq -> U k -> U dk -> U v -> U dv -> U ms -> U da -> U a -> U ga -> U sp -> NoDup [q; dq; k; dk; v; dv; ms; da; a; ga; sp] ->
  seqt (A q) -> seqt (A dq) -> seqt (A k) -> seqt (A dk) -> seqt (A v) -> seqt (A dv) -> pairt' (A ms) -> seqt (A da) -> scoret (A a) -> scoret (A ga) -> rowt (A sp) ->
  disj mask (A dq) -> disj mask (A dk) -> disj mask (A dv) -> disj mask (A sp) ->
  M q = Some (fin fq) -> M k = Some (fin fk) -> M v = Some (fin fv) -> M da = Some (fin fg) -> M ms = Some f -> M sp = Some (fin (fun _ => 0)) -> reps h n nb nh m fk fq f ->
  (forall d i x z, (0 <= d < h)%Z -> (0 <= i < n)%Z -> (0 <= x < nb)%Z -> (0 <= z < nh)%Z ->
     a_dq h n m fk fq fv fg d i x z = gq [d; i; x; z] /\ a_dk h n m fk fq fv fg d i x z = gk [d; i; x; z] /\ a_dv h n m fk fq fg d i x z = gv [d; i; x; z]) ->
  runs_nd (flash_softmax_gemm_backward_async (A q) (A dq) (A k) (A dk) (A v) (A dv) mask (A ms) (A da) (A a) (A ga) (A sp) false) s
    (has (upd dq (Some (fin gq)) (upd dk (Some (fin gk)) (upd dv (Some (fin gv)) (upd sp None M))))).
Proof.
  intros Hs Uq Udq Uk Udk Uv Udv Us Uda Ua Uga Usp ND Tq Tdq Tk Tdk Tv Tdv Ts Tda Ta Tga Tsp D1 D2 D3 D4 Mq Mk Mv Mg Mf Mz Hr Hg. destruct (HM s (has_K _ _ Hs)) as [SM VM].
  assert (Vq := has_val _ _ _ _ Hs Uq Mq). assert (Vk := has_val _ _ _ _ Hs Uk Mk). assert (Vv := has_val _ _ _ _ Hs Uv Mv). assert (Vs := has_val _ _ _ _ Hs Us Mf).
  assert (Vg := has_val _ _ _ _ Hs Uda Mg). assert (Vz := has_val _ _ _ _ Hs Usp Mz).
  rewrite !NoDup_cons_iff in ND. cbn [In] in ND. destruct ND as (N1 & N2 & N3 & N4 & N5 & N6 & N7 & N8 & N9 & N10 & _).
  apply runs_runs_nd. eapply runs_weaken; [apply (flash_backward_vals h st bt nt gs gb gn He (A q) (A k) (A v) mask (A ms) fq fk fv fg Tq Tk Tv TM Ts m)|]; try assumption;
    try (apply UD; try assumption; intros C; subst; tauto); try (eapply has_st; eassumption).
  - intros X [<-|[<-|[<-|[<-|[<-|[]]]]]]; (split; [|split; [|split]]); try assumption; (apply UD; try assumption; intros C; subst; tauto).
  - intros X [<-|[<-|[<-|[]]]]; split; (apply UD; try assumption; intros C; subst; tauto).
  - intros X [<-|[<-|[<-|[<-|[<-|[<-|[<-|[<-|[<-|[<-|[<-|[]]]]]]]]]]]]; eapply has_st; eassumption.
  - intros i j Hi Hj. apply VM. destruct TM as (_ & -> & _). inbt.
  - intros i x z Hi Hx Hz. rewrite (row_arow s q k fq fk) by (try assumption; apply Hs). unfold pelem. rewrite !Vs by (apply (inb2 st bt nt gs gb gn); (assumption || lia)). apply Hr; assumption.
  - intros s' Ht [R1 F1].
    apply (has_writes M _ s s' [dq; dk; dv; sp] Hs).
    + intros y [<-|[<-|[<-|[<-|[]]]]]; assumption.
    + exact Ht.
    + exact F1.
    + intros y Hy. cbn [In] in Hy. rewrite !upd_ne by (intros C; subst; tauto). reflexivity.
    + assert (W : forall y (g' : arr), seqt (A y) -> (forall d i x z, (0 <= d < h)%Z -> (0 <= i < n)%Z -> (0 <= x < nb)%Z -> (0 <= z < nh)%Z -> elem s' (A y) [d; i; x; z] = Fin (g' [d; i; x; z])) -> xval s' (A y) (fin g')).
      { intros y g' Ty Hy idx Hi. destruct Ty as (_ & Sy & _). rewrite Sy in Hi. apply inb4_inv in Hi as (d & i & x & z & -> & ? & ? & ? & ?). apply Hy; assumption. }
      intros y f' Hy Ef.
      destruct (gvar_dec y dq) as [->|Nq]; [rewrite upd_eq in Ef; inversion Ef; subst; apply W; [assumption|]; intros d i x z Hd Hi Hx Hz; destruct (R1 d i x z Hd Hi Hx Hz) as (P1 & _); rewrite P1; f_equal; apply Hg; assumption|].
      rewrite upd_ne in Ef by assumption.
      destruct (gvar_dec y dk) as [->|Nk]; [rewrite upd_eq in Ef; inversion Ef; subst; apply W; [assumption|]; intros d i x z Hd Hi Hx Hz; destruct (R1 d i x z Hd Hi Hx Hz) as (_ & P1 & _); rewrite P1; f_equal; apply Hg; assumption|].
      rewrite upd_ne in Ef by assumption.
      destruct (gvar_dec y dv) as [->|Nv]; [rewrite upd_eq in Ef; inversion Ef; subst; apply W; [assumption|]; intros d i x z Hd Hi Hx Hz; destruct (R1 d i x z Hd Hi Hx Hz) as (_ & _ & P1); rewrite P1; f_equal; apply Hg; assumption|].
      rewrite upd_ne in Ef by assumption.
      destruct Hy as [C|[C|[C|[<-|[]]]]]; try (exfalso; congruence). rewrite upd_eq in Ef. discriminate Ef.
Qed.
End F.
End Has.
