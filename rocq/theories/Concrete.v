(** * Concrete tensors and stores, used to show that hypotheses are satisfiable and in refutations *)
From Verif Require Import Base Spec Geometry Traits TraitsProofs Runtime Ops TensorSem ElemGeneric.

(** The tensor built by the constructor with handles next, next+1, ... *)
Definition std_tensor (shape base : list Z) (next : handle) : tensor :=
  let g := gridZ shape base in
  mkTensor (tn_of shape base)
    (ztab (prodZ g) (fun i => tt_of (tshape shape base (unoff g i))))
    (ztab (prodZ g) (fun i => next + i)) (zrep (prodZ g) 0).

Lemma std_shape shape base next : t_shape (std_tensor shape base next) = shape.
Proof. reflexivity. Qed.
Lemma std_base shape base next : t_base (std_tensor shape base next) = base.
Proof. reflexivity. Qed.
Lemma std_ntiles shape base next : ntiles (std_tensor shape base next) = prodZ (gridZ shape base).
Proof. reflexivity. Qed.

Lemma NoDup_ztab {A} n (f : Z -> A) : (forall i j, 0 <= i < n -> 0 <= j < n -> f i = f j -> i = j) -> NoDup (ztab n f).
Proof.
  intros Hf. unfold ztab. pose proof (NoDup_zrange n) as H.
  assert (G : forall l, (forall x, In x l -> 0 <= x < n) -> NoDup l -> NoDup (map f l)).
  { induction l as [|x l IH]; intros Hl Hn; simpl; constructor.
    - intros Hin. apply in_map_iff in Hin as (y & E & Hy). inversion Hn; subst.
      rewrite (Hf y x) in Hy by (auto; apply Hl; simpl; auto). contradiction.
    - inversion Hn; subst. apply IH; auto. intros; apply Hl; right; assumption. }
  apply G; [|assumption]. intros x Hx. apply zrange_In. assumption.
Qed.

Lemma std_wf shape base next : zlen shape = zlen base -> pos shape -> pos base -> wf_tensor (std_tensor shape base next).
Proof.
  intros Hl Hs Hb. assert (Hg : 0 < prodZ (gridZ shape base)).
  { apply prodZ_pos, gridZ_pos; auto. unfold zlen in Hl. lia. }
  exists shape, base. repeat split; auto; cbn [std_tensor tr tile_traits tile_handles].
  - rewrite zlen_ztab; lia.
  - apply NoDup_ztab. intros; lia.
Qed.

Lemma std_th shape base next i : 0 <= i < prodZ (gridZ shape base) -> th (std_tensor shape base next) i = next + i.
Proof. intros Hi. unfold th. cbn [std_tensor tile_handles]. apply zn_ztab. assumption. Qed.

Lemma std_handles shape base next h : In h (tile_handles (std_tensor shape base next)) <->
  next <= h < next + prodZ (gridZ shape base).
Proof.
  cbn [std_tensor tile_handles]. rewrite In_ztab. split.
  - intros (i & Hi & ->). lia.
  - intros Hh. exists (h - next). lia.
Qed.

Lemma std_disj s1 b1 n1 s2 b2 n2 : n1 + prodZ (gridZ s1 b1) <= n2 \/ n2 + prodZ (gridZ s2 b2) <= n1 ->
  disj (std_tensor s1 b1 n1) (std_tensor s2 b2 n2).
Proof. intros H h H1 H2. apply std_handles in H1, H2. lia. Qed.

Section Put.
Context {T : Type} {D : Dflt T}.

(** Position of a handle in a list. *)
Fixpoint hpos (l : list handle) (h : handle) : option Z :=
  match l with
  | [] => None
  | x :: l' => if x =? h then Some 0 else match hpos l' h with Some i => Some (i + 1) | None => None end
  end.

Lemma hpos_nth l n h : NoDup l -> nth_error l n = Some h -> hpos l h = Some (Z.of_nat n).
Proof.
  intros Hnd. revert n; induction Hnd as [|x l Hx Hnd IH]; intros n E; [destruct n; discriminate|].
  destruct n; simpl in *.
  - inversion E; subst. rewrite Z.eqb_refl. reflexivity.
  - destruct (Z.eqb_spec x h) as [->|]; [exfalso; apply Hx; eapply nth_error_In; eassumption|].
    rewrite (IH n E). f_equal. lia.
Qed.
Lemma hpos_none l h : ~ In h l -> hpos l h = None.
Proof.
  induction l as [|x l IH]; simpl; intros H; [reflexivity|].
  destruct (Z.eqb_spec x h); [tauto|]. rewrite IH by tauto. reflexivity.
Qed.

(** Store with tensor [t] holding element [c idx] at [idx], [s] elsewhere. *)
Definition put_gen (mk : Z -> (Z -> list Z) -> buf T) (t : tensor) (s : store T) : store T :=
  fun h => match hpos (tile_handles t) h with
           | Some i => mk (tsz t i) (fun o => eidx t i o)
           | None => s h
           end.
Definition put (t : tensor) (c : list Z -> T) : store T -> store T :=
  put_gen (fun n g => BF (ztab n (fun o => c (g o)))) t.
Definition puti (t : tensor) (c : list Z -> Z) : store T -> store T :=
  put_gen (fun n g => BI (ztab n (fun o => c (g o)))) t.
Definition putb (t : tensor) (c : list Z -> bool) : store T -> store T :=
  put_gen (fun n g => BB (ztab n (fun o => c (g o)))) t.

Lemma hpos_th t i : wft t -> 0 <= i < ntiles t -> hpos (tile_handles t) (th t i) = Some i.
Proof.
  intros H Hi. rewrite (hpos_nth _ (Z.to_nat i)).
  - f_equal. lia.
  - apply (wf_nd _ H).
  - unfold th, zn. apply nth_error_nth'. pose proof (wf_hl _ H). unfold zlen in *. lia.
Qed.

Lemma put_other mk t s h : ~ In h (tile_handles t) -> put_gen mk t s h = s h.
Proof. intros H. unfold put_gen. rewrite hpos_none by assumption. reflexivity. Qed.

Lemma put_stored t c s : wft t -> stored KF (put t c s) t.
Proof.
  intros H i Hi. unfold put, put_gen. rewrite hpos_th by assumption. simpl.
  pose proof (tsz_pos _ _ H Hi). rewrite zlen_ztab by lia. reflexivity.
Qed.
Lemma puti_stored t c s : wft t -> stored KI (puti t c s) t.
Proof.
  intros H i Hi. unfold puti, put_gen. rewrite hpos_th by assumption. simpl.
  pose proof (tsz_pos _ _ H Hi). rewrite zlen_ztab by lia. reflexivity.
Qed.
Lemma putb_stored t c s : wft t -> stored KB (putb t c s) t.
Proof.
  intros H i Hi. unfold putb, put_gen. rewrite hpos_th by assumption. simpl.
  pose proof (tsz_pos _ _ H Hi). rewrite zlen_ztab by lia. reflexivity.
Qed.

Lemma put_stored_other mk k t t' s : wft t' -> disj t' t -> stored k s t' -> stored k (put_gen mk t s) t'.
Proof.
  intros H Hd Hs i Hi. rewrite put_other; [apply Hs; assumption|].
  intros Hin. apply (Hd (th t' i)); [apply th_In; assumption|assumption].
Qed.

Lemma eidx_of t idx : wft t -> inb (t_shape t) idx -> eidx t (etile t idx) (eoff t idx) = idx.
Proof.
  intros H Hi. unfold eidx. rewrite tsh_etile by assumption. unfold etile, eoff.
  rewrite unoff_off by (apply tile_of_inb; [apply wf_len'|apply wf_pb|]; assumption).
  rewrite unoff_off by (apply in_tile_inb; [apply wf_len'|apply wf_pb|]; assumption).
  eapply glob_of; [apply wf_len'|apply wf_pb|]; eassumption.
Qed.

Lemma put_elem t c s idx : wft t -> inb (t_shape t) idx -> elem (put t c s) t idx = c idx.
Proof.
  intros H Hi. unfold elem, put, put_gen. rewrite hpos_th by (auto; apply etile_bound; assumption).
  simpl. rewrite zn_ztab by (apply eoff_bound; assumption). rewrite eidx_of by assumption. reflexivity.
Qed.
Lemma puti_ielem t c s idx : wft t -> inb (t_shape t) idx -> ielem (puti t c s) t idx = c idx.
Proof.
  intros H Hi. unfold ielem, puti, put_gen. rewrite hpos_th by (auto; apply etile_bound; assumption).
  simpl. rewrite zn_ztab by (apply eoff_bound; assumption). rewrite eidx_of by assumption. reflexivity.
Qed.
Lemma putb_belem t c s idx : wft t -> inb (t_shape t) idx -> belem (putb t c s) t idx = c idx.
Proof.
  intros H Hi. unfold belem, putb, put_gen. rewrite hpos_th by (auto; apply etile_bound; assumption).
  simpl. rewrite zn_ztab by (apply eoff_bound; assumption). rewrite eidx_of by assumption. reflexivity.
Qed.
Lemma put_elem_other mk t t' s idx : wft t' -> disj t' t -> inb (t_shape t') idx ->
  elem (put_gen mk t s) t' idx = elem s t' idx.
Proof.
  intros H Hd Hi. unfold elem. rewrite put_other; [reflexivity|].
  intros Hin. apply (Hd (th t' (etile t' idx))); [apply th_In; [assumption|apply etile_bound; assumption]|assumption].
Qed.
End Put.

(** Discharges wf/pos side conditions of closed std_tensors. *)
Ltac std_wf_tac := apply std_wf; [reflexivity | repeat constructor | repeat constructor].
