(** * C13 (add), C14 (scal, axpy, ...), C15 (hypot), C29 (Adam), C41 (operand checks) *)
From Verif Require Import Base Spec Geometry Traits TraitsProofs Runtime Ops TensorSem ElemGeneric OneOut
  KernelsElem ElemOps ElemProofs Formulas Concrete PropElem.

Ltac kmap F := rewrite (map_loop _ F);
  [try reflexivity | assumption | intros i st Hi Hlen; rds; try reflexivity].

Section Gen.
Context {T : Type} {O : Ops T}.
Local Open Scope ops_scope.

(** ** Generic facts, any arithmetic *)

Lemma clear_body n (d : list T) : zlen d = n -> 0 < n -> clear_cpu [BF d] = Ok [BF (ztab n (fun i => o_zero))].
Proof.
  intros Hd Hn. unfold clear_cpu. rewrite Hd. do 3 f_equal.
  apply list_ext; [rewrite zlen_zrep, zlen_ztab; lia|]. intros i Hi. rewrite zlen_zrep in Hi by lia.
  rewrite zn_zrep, zn_ztab by lia. reflexivity.
Qed.

(** scal: alpha = 0 clears dst *)
Theorem C14_scal_generic (alpha : T) :
  binary_elementwise (scal_async alpha) (fun x _ => if alpha ==? o_zero then o_zero else alpha * x).
Proof.
  destruct (alpha ==? o_zero) eqn:Ea.
  - intros A B s HA HB. apply wf_wft in HA, HB. split.
    + intros (ES & EB) HsA HsB Hd. unfold scal_async. rewrite check_loop_ok by congruence.
      apply (runs_weaken _ _ (fun s' => (forall idx, inb (t_shape B) idx -> elem s' B idx = o_zero) /\ frame [B] s s'));
        [|intros s' _ [H1 H2]; split; auto].
      apply (ew1 B MW (fun _ => o_zero) (fun _ => clear_cpu)); auto.
      * intros n d Hn Hd'. apply clear_body; auto.
      * rewrite tiles2_ok by auto. f_equal. apply ztab_ext. intros i Hi. unfold scal_submit. rewrite Ea. reflexivity.
    + intros Hn. unfold scal_async. apply check_loop_bad; auto. unfold same_tiling in Hn.
      destruct (list_eq_dec Z.eq_dec (t_shape A) (t_shape B)); [|auto].
      destruct (list_eq_dec Z.eq_dec (t_base A) (t_base B)); [|auto]. tauto.
  - apply (binary_scheme _ (fun X A B k => check_loop B A k) (fun A B : tensor => A) (fun n => scal_submit n alpha) MW _
      (fun n => wrap2 (k_scal n alpha))); auto.
    + intros; apply check_loop_ok; congruence.
    + intros ? ? ? ? ? ? [?|?]; apply check_loop_bad; auto.
    + intros n h1 h2. unfold scal_submit. rewrite Ea. reflexivity.
    + intros n a d Hn Ha Hd. unfold wrap2, k_scal. kmap (fun (i : Z) (x : T) => alpha * zn a i).
Qed.

(** add with general coefficients (no special case) *)
Theorem C13_add_generic (alpha beta : T) : alpha ==? o_zero = false -> beta ==? o_zero = false ->
  binary_elementwise (fun src dst => add_async alpha src beta dst) (fun x d => alpha * x + beta * d).
Proof.
  intros Ea Eb. unfold add_async. rewrite Ea. cbn [andb].
  apply (binary_scheme _ (fun X A B k => check_loop B A k) (fun A B : tensor => A)
    (fun n hs hd => add_submit n alpha hs beta hd) MRW _ (fun n => wrap2 (fun s d => k_add n alpha s beta d))); auto.
  - intros; apply check_loop_ok; congruence.
  - intros ? ? ? ? ? ? [?|?]; apply check_loop_bad; auto.
  - intros n h1 h2. unfold add_submit. rewrite Ea, Eb. destruct (beta ==? o_one); reflexivity.
  - discriminate.
  - intros n a d Hn Ha Hd. unfold wrap2, k_add. kmap (fun (i : Z) (x : T) => alpha * zn a i + beta * x).
Qed.

(** add with beta = 0 is scal *)
Lemma add_beta0 (alpha beta : T) src dst : beta ==? o_zero = true -> beta ==? o_one = false ->
  add_async alpha src beta dst = scal_async alpha src dst.
Proof.
  intros Eb Eb1. unfold add_async, scal_async. rewrite Eb1, andb_false_r.
  f_equal. unfold tiles2. f_equal. unfold add_submit. rewrite Eb. reflexivity.
Qed.

(** hypot: the formula of the special cases *)
Theorem C15_hypot_generic (alpha beta : T) :
  (beta ==? o_zero = true -> beta ==? o_one = false) ->
  (alpha ==? o_zero) && (beta ==? o_one) = false ->
  binary_elementwise (fun src dst => hypot_async alpha src beta dst) (fun x d => f_hypot alpha x beta d).
Proof.
  intros H01 E. unfold hypot_async. rewrite E.
  apply (binary_scheme _ (fun X A B k => check_loop B A k) (fun A B : tensor => A)
    (fun n hs hd => hypot_submit n alpha hs beta hd) (if beta ==? o_one then MRW else if beta ==? o_zero then MW else MRW) _
    (fun n => wrap2 (fun s d => k_hypot n alpha s beta d))); auto.
  - intros; apply check_loop_ok; congruence.
  - intros ? ? ? ? ? ? [?|?]; apply check_loop_bad; auto.
  - destruct (beta ==? o_one); auto. destruct (beta ==? o_zero); auto.
  - intros Em a x y. unfold f_hypot. destruct (beta ==? o_one); [discriminate|].
    destruct (beta ==? o_zero); [|discriminate]. reflexivity.
  - intros n a d Hn Ha Hd. unfold wrap2, k_hypot, f_hypot.
    destruct (alpha ==? o_zero), (beta ==? o_zero).
    + kmap (fun (i : Z) (x : T) => o_zero).
    + kmap (fun (i : Z) (x : T) => o_abs (beta * x)).
    + kmap (fun (i : Z) (x : T) => o_abs (alpha * zn a i)).
    + kmap (fun (i : Z) (x : T) => o_hypot (alpha * zn a i) (beta * x)).
Qed.

(** axpy with alpha held by a 0-dimensional tensor *)
Theorem C14_axpy_tensor alpha src dst s : wf_tensor alpha -> wf_tensor src -> wf_tensor dst ->
  (t_shape alpha = [] -> same_tiling src dst ->
   stored KF s alpha -> stored KF s src -> stored KF s dst -> disj alpha dst -> disj src dst ->
   runs (axpy_tensor_async alpha src dst) s (fun s' =>
     (forall idx, inb (t_shape dst) idx ->
        elem s' dst idx = elem s alpha [] * elem s src idx + elem s dst idx) /\
     frame [dst] s s')) /\
  (t_shape alpha <> [] \/ ~ same_tiling src dst -> throws (axpy_tensor_async alpha src dst)).
Proof.
  intros Hal HA HB. apply wf_wft in Hal, HA, HB. split.
  - intros Esh (ES & EB) Hs0 HsA HsB Hd0 Hd. unfold axpy_tensor_async. rewrite Esh. cbn [zlen].
    unfold throw_if. change (zlen (@nil Z) =? 0)%Z with true. cbn [negb]. cbv iota.
    rewrite check_same_ok by assumption.
    assert (Ebs : t_base alpha = []).
    { pose proof (wf_len _ Hal) as E. rewrite Esh in E. destruct (t_base alpha); [reflexivity|].
      rewrite zlen_cons in E. pose proof (zlen_nonneg l). change (zlen (@nil Z)) with 0%Z in E. lia. }
    assert (Hn1 : ntiles alpha = 1%Z) by (unfold ntiles; rewrite Esh, Ebs; reflexivity).
    rewrite get_tile_handle_ok by (auto; lia). bnd.
    rewrite tiles2_ok by auto.
    set (ha := th alpha 0).
    set (F := fun i (st : store T) => BF (ztab (tsz dst i) (fun k => zn (fl (st ha)) 0 * zn (fl (st (th src i))) k + zn (fl (st (th dst i))) k))).
    set (body := fun n => wrap3 (fun a x y => a0 <- rd a 0%Z ;; blas_axpy n a0 x y) : list (buf T) -> res (list (buf T))).
    set (ws := ztab (ntiles dst) (fun i => mkW (map (fun x => (x, MR)) [ha; th src i] ++ [(th dst i, MRW)]) (body (tsz dst i)) (th dst i) (F i))).
    assert (Hne : forall i j, (0 <= i < ntiles dst)%Z -> (0 <= j < ntiles dst)%Z -> th src i <> th dst j).
    { intros i j Hi Hj. apply th_neq; auto. rewrite (ntiles_ext src dst); assumption. }
    assert (Hne0 : forall j, (0 <= j < ntiles dst)%Z -> ha <> th dst j).
    { intros j Hj. apply th_neq; auto. lia. }
    assert (Hty : forall st i, (0 <= i < ntiles dst)%Z -> tinv s st ->
       (exists a, st ha = BF a /\ zlen a = 1%Z) /\ (exists x, st (th src i) = BF x /\ zlen x = tsz dst i) /\
       (exists y, st (th dst i) = BF y /\ zlen y = tsz dst i)).
    { intros st i Hi Hst. split; [|split]; apply ty_BF; rewrite Hst.
      - unfold ha. rewrite (Hs0 0%Z) by lia. f_equal. unfold tsz, tsh. rewrite Esh, Ebs. reflexivity.
      - rewrite (HsA i) by (rewrite (ntiles_ext src dst); assumption). rewrite (tsz_ext src dst) by assumption. reflexivity.
      - apply HsB; assumption. }
    eapply runs_weaken; [apply (one_runs_unique s ws)|].
    + unfold ws. rewrite map_ztab. reflexivity.
    + intros w Hw. apply In_ztab in Hw as (i & Hi & ->). apply w_ok_last; auto.
      * intros [E|[E|[]]]; [apply (Hne0 i Hi); assumption|apply (Hne i i Hi Hi); assumption].
      * intros s1 s2 H1 H2. unfold F. rewrite (H1 ha), (H1 (th src i)), H2 by (simpl; auto). reflexivity.
      * intros st Hst. unfold F. simpl. rewrite (HsB i Hi). rewrite zlen_ztab; [reflexivity|].
        pose proof (tsz_pos _ _ HB Hi); lia.
      * intros st b Hst Hb Hbb. destruct (Hty st i Hi Hst) as ((a & Ea & La) & (x & Ex & Lx) & (y & Ey & Ly)).
        pose proof (tsz_pos _ _ HB Hi). rewrite Hbb by reflexivity. cbn [map app]. rewrite Ea, Ex, Ey.
        unfold body, wrap3. rewrite rd_ok by lia. bnd. unfold blas_axpy.
        rewrite (map_loop _ (fun k v => zn a 0 * zn x k + v)) by (auto; intros k st' Hk Hl; rds; reflexivity).
        bnd. unfold F. rewrite Ea, Ex, Ey. reflexivity.
    + intros w w' m Hw Hw' Hin _. apply In_ztab in Hw as (i & Hi & ->). apply In_ztab in Hw' as (j & Hj & ->).
      cbn [w_h w_acc map app] in *. destruct Hin as [E|[E|[E|[]]]]; inversion E; subst; auto.
      * exfalso. apply (Hne0 j Hj). congruence.
      * exfalso. apply (Hne i j Hi Hj). congruence.
    + unfold ws. rewrite map_ztab. cbn [w_h]. apply NoDup_ztab. intros i j Hi Hj E. apply (th_inj dst); assumption.
    + intros s' _ (Hv & Hf). split.
      * intros idx Hidx. pose proof (etile_bound _ _ HB Hidx) as Hi. pose proof (eoff_bound _ _ HB Hidx) as Ho.
        unfold elem at 1. set (i := etile dst idx) in *.
        specialize (Hv (mkW (map (fun x => (x, MR)) [ha; th src i] ++ [(th dst i, MRW)]) (body (tsz dst i)) (th dst i) (F i))).
        cbn [w_h w_F] in Hv. rewrite Hv by (apply In_ztab; eauto). unfold F. simpl fl. rewrite zn_ztab by assumption.
        unfold elem. rewrite (etile_ext src dst), (eoff_ext src dst) by assumption.
        replace (etile alpha []) with 0%Z by (unfold etile; rewrite Esh, Ebs; reflexivity).
        replace (eoff alpha []) with 0%Z by (unfold eoff; rewrite Esh, Ebs; reflexivity). reflexivity.
      * intros h Hh. apply Hf. intros w Hw. apply In_ztab in Hw as (i & Hi & ->). cbn [w_h]. intros <-.
        apply (Hh dst); [left; reflexivity|]. apply th_In; assumption.
  - intros Hn. unfold axpy_tensor_async, throw_if.
    destruct (Z.eqb_spec (zlen (t_shape alpha)) 0) as [E|]; cbn [negb]; cbv iota; [|eexists; reflexivity].
    assert (t_shape alpha = []) by (destruct (t_shape alpha); [reflexivity|rewrite zlen_cons in E; pose proof (zlen_nonneg l); lia]).
    destruct Hn as [Hn|Hn]; [contradiction|]. apply check_same_bad. unfold same_tiling in Hn.
    destruct (list_eq_dec Z.eq_dec (t_shape src) (t_shape dst)); [|auto].
    destruct (list_eq_dec Z.eq_dec (t_base src) (t_base dst)); [|auto]. tauto.
Qed.

(** addcdiv only compares shapes *)
Theorem C12_addcdiv (val eps : T) nom denom src s : wf_tensor nom -> wf_tensor denom -> wf_tensor src ->
  (same_tiling nom src -> same_tiling denom src ->
   stored KF s nom -> stored KF s denom -> stored KF s src -> disj nom src -> disj denom src ->
   runs (addcdiv_async val eps nom denom src) s (fun s' =>
     (forall idx, inb (t_shape src) idx ->
        elem s' src idx = elem s src idx + val * elem s nom idx / (elem s denom idx + eps)) /\
     frame [src] s s')) /\
  (t_shape nom <> t_shape src \/ t_shape denom <> t_shape src -> throws (addcdiv_async val eps nom denom src)).
Proof.
  intros HA HB HC. apply wf_wft in HA, HB, HC. split.
  - intros (E1 & E2) (E3 & E4) HsA HsB HsC Hd1 Hd2. unfold addcdiv_async, throw_if.
    replace (ms_eqb nom denom) with true by (symmetry; apply ms_eqb_spec; auto; congruence).
    replace (ms_eqb src nom) with true by (symmetry; apply ms_eqb_spec; auto; congruence).
    cbn [negb]; cbv iota.
    apply (ew3 nom denom src MRW (fun a b d => d + val * a / (b + eps)) (fun n => wrap3 (k_addcdiv val eps n))); auto.
    + discriminate.
    + intros n a b d Hn Ha Hb Hd. unfold wrap3, k_addcdiv.
      kmap (fun (i : Z) (x : T) => x + val * zn a i / (zn b i + eps)).
    + rewrite t_ntiles_eq by assumption. apply for_tasks. intros i acc Hi.
      rewrite get_tile_handle_ok by assumption. bnd.
      rewrite get_tile_handle_ok by (auto; rewrite (ntiles_ext nom src); assumption). bnd.
      rewrite get_tile_handle_ok by (auto; rewrite (ntiles_ext denom src); assumption). bnd.
      rewrite get_tile_traits_ok by assumption. bnd. reflexivity.
  - intros Hn. unfold addcdiv_async, throw_if.
    destruct (ms_eqb nom denom) eqn:E1; cbn [negb]; cbv iota; [|eexists; reflexivity].
    destruct (ms_eqb src nom) eqn:E2; cbn [negb]; cbv iota; [|eexists; reflexivity].
    apply ms_eqb_spec in E1; auto. apply ms_eqb_spec in E2; auto. destruct Hn; congruence.
Qed.

(** ** Adam: new moments and parameters by the scalar formulas of Formulas.v, for any tiling *)
Definition adam_correct (op : tensor -> tensor -> tensor -> tensor -> res (list (task T)))
    (fm fv fp : T -> T -> T -> T -> T) : Prop :=
  forall grad m v p s, wf_tensor grad -> wf_tensor m -> wf_tensor v -> wf_tensor p ->
    same_tiling grad p -> same_tiling m p -> same_tiling v p ->
    stored KF s grad -> stored KF s m -> stored KF s v -> stored KF s p ->
    disj grad m -> disj grad v -> disj grad p -> disj m v -> disj m p -> disj v p ->
    runs (op grad m v p) s (fun s' =>
      (forall idx, inb (t_shape p) idx ->
         let g0 := elem s grad idx in let m0 := elem s m idx in
         let v0 := elem s v idx in let p0 := elem s p idx in
         elem s' m idx = fm g0 m0 v0 p0 /\ elem s' v idx = fv g0 m0 v0 p0 /\ elem s' p idx = fp g0 m0 v0 p0) /\
      frame [m; v; p] s s').

Lemma adam_scheme (t : Z) sub k (fm fv fp : T -> T -> T -> T -> T) (body : Z -> list (buf T) -> res (list (buf T))) :
  let mm := if Z.eqb t 1 then MW else MRW in
  (forall n g m v p, sub n g m v p = mkTask [(g, MR); (m, mm); (v, mm); (p, MRW)] (body n)) ->
  (forall n, body n = adam_cpu (k n)) ->
  (t = 1%Z -> forall g m m' v v' p, fm g m v p = fm g m' v' p /\ fv g m v p = fv g m' v' p /\ fp g m v p = fp g m' v' p) ->
  (forall n g m v p, 0 < n -> zlen g = n -> zlen m = n -> zlen v = n -> zlen p = n ->
     k n g m v p = Ok (ztab n (fun i => fm (zn g i) (zn m i) (zn v i) (zn p i)),
                       ztab n (fun i => fv (zn g i) (zn m i) (zn v i) (zn p i)),
                       ztab n (fun i => fp (zn g i) (zn m i) (zn v i) (zn p i))))%Z ->
  adam_correct (fun grad m v p => adam_loop p grad m v sub) fm fv fp.
Proof.
  intros mm Hsub Hbody Hone Hk grad m v p s Hg Hm Hv Hp (Eg1 & Eg2) (Em1 & Em2) (Ev1 & Ev2) Sg Sm Sv Sp D1 D2 D3 D4 D5 D6.
  apply wf_wft in Hg, Hm, Hv, Hp.
  unfold adam_loop, throw_if.
  replace (ms_eqb p grad) with true by (symmetry; apply ms_eqb_spec; auto).
  replace (ms_eqb p m) with true by (symmetry; apply ms_eqb_spec; auto).
  replace (ms_eqb p v) with true by (symmetry; apply ms_eqb_spec; auto).
  cbn [negb]; cbv iota.
  assert (Hmm : mm = MW \/ mm = MRW) by (unfold mm; destruct (Z.eqb t 1); auto).
  assert (Hw : writes mm = true) by (destruct Hmm as [->| ->]; reflexivity).
  set (a4 := fun (F : T -> T -> T -> T -> T) (v : list T) => F (nth 0 v o_zero) (nth 1 v o_zero) (nth 2 v o_zero) (nth 3 v o_zero)).
  set (ps := [(grad, MR, fun _ => o_zero); (m, mm, a4 fm); (v, mm, a4 fv); (p, MRW, a4 fp)] : list operand).
  assert (H1 : forall q, In q ps -> wft (pt q) /\ t_shape (pt q) = t_shape p /\ t_base (pt q) = t_base p).
  { intros q [<-|[<-|[<-|[<-|[]]]]]; cbn; auto. }
  assert (H2 : forall q, In q ps -> stored KF s (pt q)) by (intros q [<-|[<-|[<-|[<-|[]]]]]; assumption).
  assert (H3 : forall q, In q ps -> pm q = MR \/ pm q = MW \/ pm q = MRW).
  { intros q [<-|[<-|[<-|[<-|[]]]]]; cbn; auto; destruct Hmm; auto. }
  assert (H4 : ForallOrdPairs (fun q r => writes (pm q) || writes (pm r) = true -> disj (pt q) (pt r)) ps).
  { repeat constructor; cbn; intros; assumption. }
  assert (H5 : forall n ls, (0 < n)%Z -> List.length ls = List.length ps -> Forall (fun l => zlen l = n) ls ->
    body n (map BF ls) = Ok (map BF (ew_out ps n ls))).
  { intros n ls Hn Hl HF. destruct ls as [|a [|b [|c [|d [|? ?]]]]]; try discriminate.
    inversion HF as [|? ? Ha HF1]; subst. inversion HF1 as [|? ? Hb HF2]; subst.
    inversion HF2 as [|? ? Hc HF3]; subst. inversion HF3 as [|? ? Hd HF4]; subst.
    cbn [map ew_out map2 ps pm pf fst snd]. rewrite Hw. cbn [writes].
    rewrite Hbody. unfold adam_cpu. rewrite Hk by auto. reflexivity. }
  assert (H6 : forall q v1 v2, In q ps -> writes (pm q) = true -> agree ps v1 v2 -> pf q v1 = pf q v2).
  { intros q v1 v2 Hq Hwq Hag.
    destruct v1 as [|a1 [|a2 [|a3 [|a4' [|? ?]]]]], v2 as [|b1 [|b2 [|b3 [|b4 [|? ?]]]]]; cbn in Hag; try tauto.
    destruct Hag as (Ha1 & Ha2 & Ha3 & Ha4 & _). rewrite Ha1, Ha4 by reflexivity.
    unfold mm in *. destruct (Z.eqb_spec t 1) as [Et|Et].
    - destruct Hq as [<-|[<-|[<-|[<-|[]]]]]; [discriminate| | |]; cbn; unfold a4; cbn; apply Hone; assumption.
    - rewrite Ha2, Ha3 by reflexivity. reflexivity. }
  assert (H7 : ps <> []) by discriminate.
  eexists. split.
  { rewrite t_ntiles_eq by assumption. apply for_tasks. intros i acc Hi.
    rewrite get_tile_handle_ok by assumption. bnd.
    rewrite get_tile_handle_ok by (auto; rewrite (ntiles_ext grad p); assumption). bnd.
    rewrite get_tile_handle_ok by (auto; rewrite (ntiles_ext m p); assumption). bnd.
    rewrite get_tile_handle_ok by (auto; rewrite (ntiles_ext v p); assumption). bnd.
    rewrite get_tile_traits_ok by assumption. bnd. rewrite Hsub.
    change (tt_nelems (tt_of (tsh p i))) with (tsz0 (t_shape p) (t_base p) i).
    change (mkTask [(th grad i, MR); (th m i, mm); (th v i, mm); (th p i, MRW)] (body (tsz0 (t_shape p) (t_base p) i)))
      with (ew_task ps (body (tsz0 (t_shape p) (t_base p) i)) i).
    reflexivity. }
  split; [exact (ew_sound (t_shape p) (t_base p) ps s body H1 H2 H3 H4 H5 H6 H7)|].
  split; [exact (ew_ordered (t_shape p) (t_base p) ps body H3)|].
  eapply always_weaken; [exact (ew_always (t_shape p) (t_base p) ps s body H1 H2 H3 H4 H5 H6 H7)|].
  intros s' (He & Hf & Ht). split; [assumption|]. split.
  - intros idx Hidx. cbv zeta. split; [|split].
    + apply (He (m, mm, a4 fm)); auto. right; left; reflexivity.
    + apply (He (v, mm, a4 fv)); auto. right; right; left; reflexivity.
    + apply (He (p, MRW, a4 fp)); auto. do 3 right; left; reflexivity.
  - cbn in Hf. rewrite Hw in Hf. exact Hf.
Qed.

(** The loop over elements with three written arrays. *)
Lemma triple_loop n (fm fv fp : Z -> T -> T -> T -> T) body (m v p : list T) :
  zlen m = n -> zlen v = n -> zlen p = n ->
  (forall i m v p, (0 <= i < n)%Z -> zlen m = n -> zlen v = n -> zlen p = n ->
     body i (m, v, p) = (m' <- wr m i (fm i (zn m i) (zn v i) (zn p i)) ;;
                         v' <- wr v i (fv i (zn m i) (zn v i) (zn p i)) ;;
                         p' <- wr p i (fp i (zn m i) (zn v i) (zn p i)) ;; Ok (m', v', p'))) ->
  for_ 0 n body (m, v, p) =
    Ok (ztab n (fun i => fm i (zn m i) (zn v i) (zn p i)), ztab n (fun i => fv i (zn m i) (zn v i) (zn p i)),
        ztab n (fun i => fp i (zn m i) (zn v i) (zn p i))).
Proof.
  intros Lm Lv Lp Hb. pose proof (zlen_nonneg m).
  destruct (for_inv (fun k st => let '(m', v', p') := st in
     zlen m' = n /\ zlen v' = n /\ zlen p' = n /\
     forall j, (0 <= j < n)%Z ->
       zn m' j = (if j <? k then fm j (zn m j) (zn v j) (zn p j) else zn m j)%Z /\
       zn v' j = (if j <? k then fv j (zn m j) (zn v j) (zn p j) else zn v j)%Z /\
       zn p' j = (if j <? k then fp j (zn m j) (zn v j) (zn p j) else zn p j)%Z) 0 n body (m, v, p))
    as ([[m' v'] p'] & E & L1 & L2 & L3 & HI).
  - lia.
  - repeat split; auto; destruct (Z.ltb_spec j 0); auto; lia.
  - intros i [[m1 v1] p1] Hi (L1 & L2 & L3 & HI). rewrite Hb by assumption.
    destruct (wr_ok m1 i (fm i (zn m1 i) (zn v1 i) (zn p1 i))) as (m2 & -> & Lm2 & Hm2); [lia|]. bnd.
    destruct (wr_ok v1 i (fv i (zn m1 i) (zn v1 i) (zn p1 i))) as (v2 & -> & Lv2 & Hv2); [lia|]. bnd.
    destruct (wr_ok p1 i (fp i (zn m1 i) (zn v1 i) (zn p1 i))) as (p2 & -> & Lp2 & Hp2); [lia|]. bnd.
    exists (m2, v2, p2). split; [reflexivity|]. repeat split; try congruence.
    all: destruct (HI j ltac:(assumption)) as (A1 & A2 & A3);
      rewrite ?Hm2, ?Hv2, ?Hp2 by lia;
      destruct (Z.eqb_spec j i) as [->|];
      [ destruct (HI i ltac:(assumption)) as (-> & -> & ->);
        destruct (Z.ltb_spec i i); [lia|]; destruct (Z.ltb_spec i (i + 1)); [reflexivity|lia]
      | rewrite ?A1, ?A2, ?A3; destruct (Z.ltb_spec j i), (Z.ltb_spec j (i + 1)); try reflexivity; lia ].
  - rewrite E. do 2 f_equal; [f_equal|]; apply list_ext; rewrite ?zlen_ztab by lia; try assumption;
      intros j Hj; destruct (HI j) as (A1 & A2 & A3); try lia;
      rewrite zn_ztab by lia; rewrite ?A1, ?A2, ?A3; destruct (Z.ltb_spec j n); auto; lia.
Qed.

Theorem C29_adam_step (t : Z) (b1 b2 eps lr wd : T) :
  adam_correct (adam_step_async t b1 b2 eps lr wd)
    (fun g m v p => adam_m t b1 m (adam_g wd g p))
    (fun g m v p => adam_v t b2 v (adam_g wd g p))
    (fun g m v p => adam_p t b1 b2 eps lr p (adam_m t b1 m (adam_g wd g p)) (adam_v t b2 v (adam_g wd g p))).
Proof.
  apply (adam_scheme t (fun n => adam_step_submit t n b1 b2 eps lr wd) (fun n => k_adam_step t n b1 b2 eps lr wd) _ _ _
    (fun n => adam_cpu (k_adam_step t n b1 b2 eps lr wd))); auto.
  - intros -> g m m' v v' p. repeat split.
  - intros n g m v p Hn Lg Lm Lv Lp. unfold k_adam_step. cbv zeta.
    rewrite (triple_loop n
      (fun i m v p => adam_m t b1 m (adam_g wd (zn g i) p))
      (fun i m v p => adam_v t b2 v (adam_g wd (zn g i) p))
      (fun i m v p => adam_p t b1 b2 eps lr p (adam_m t b1 m (adam_g wd (zn g i) p)) (adam_v t b2 v (adam_g wd (zn g i) p))));
      auto.
    intros i m1 v1 p1 Hi L1 L2 L3. unfold adam_m, adam_v, adam_p, adam_g.
    rds. destruct (Z.eqb t 1); rds.
    all: repeat match goal with |- context [wr ?l ?i ?x] =>
      let l' := fresh "l" in let E := fresh "E" in destruct (wr_ok l i x) as (l' & E & _ & _); [lia|];
      rewrite E; bnd end;
      repeat bnd; repeat match goal with E1 : wr _ _ _ = Ok ?a, E2 : wr _ _ _ = Ok ?b |- _ =>
        lazymatch a with b => fail | _ => let Q := fresh in assert (Q : a = b) by (pose proof (eq_trans (eq_sym E1) E2) as Q'; injection Q' as Q'; exact Q'); subst b; clear E2 end end; reflexivity.
Qed.

Theorem C29_adamw_step (t : Z) (b1 b2 eps lr wd : T) :
  adam_correct (adamw_step_async t b1 b2 eps lr wd)
    (fun g m v p => adam_m t b1 m g)
    (fun g m v p => adam_v t b2 v g)
    (fun g m v p => adam_p t b1 b2 eps lr (adamw_p wd lr p) (adam_m t b1 m g) (adam_v t b2 v g)).
Proof.
  apply (adam_scheme t (fun n => adamw_step_submit t n b1 b2 eps lr wd) (fun n => k_adamw_step t n b1 b2 eps lr wd) _ _ _
    (fun n => adam_cpu (k_adamw_step t n b1 b2 eps lr wd))); auto.
  - intros -> g m m' v v' p. repeat split.
  - intros n g m v p Hn Lg Lm Lv Lp. unfold k_adamw_step. cbv zeta.
    rewrite (triple_loop n
      (fun i m v p => adam_m t b1 m (zn g i))
      (fun i m v p => adam_v t b2 v (zn g i))
      (fun i m v p => adam_p t b1 b2 eps lr (adamw_p wd lr p) (adam_m t b1 m (zn g i)) (adam_v t b2 v (zn g i))));
      auto.
    intros i m1 v1 p1 Hi L1 L2 L3. unfold adam_m, adam_v, adam_p, adamw_p.
    rds. destruct (Z.eqb t 1); rds.
    all: repeat match goal with |- context [wr ?l ?i ?x] =>
      let l' := fresh "l" in let E := fresh "E" in destruct (wr_ok l i x) as (l' & E & _ & _); [lia|];
      rewrite E; bnd end;
      repeat bnd; repeat match goal with E1 : wr _ _ _ = Ok ?a, E2 : wr _ _ _ = Ok ?b |- _ =>
        lazymatch a with b => fail | _ => let Q := fresh in assert (Q : a = b) by (pose proof (eq_trans (eq_sym E1) E2) as Q'; injection Q' as Q'; exact Q'); subst b; clear E2 end end; reflexivity.
Qed.

(** Shapes are checked ... *)
Theorem C41_adam_rejects_shapes (t : Z) (b1 b2 eps lr wd : T) grad m v p :
  wf_tensor grad -> wf_tensor m -> wf_tensor v -> wf_tensor p ->
  t_shape grad <> t_shape p \/ t_shape m <> t_shape p \/ t_shape v <> t_shape p ->
  throws (adam_step_async t b1 b2 eps lr wd grad m v p) /\
  throws (adamw_step_async t b1 b2 eps lr wd grad m v p).
Proof.
  intros Hg Hm Hv Hp H. apply wf_wft in Hg, Hm, Hv, Hp.
  unfold adam_step_async, adamw_step_async, adam_loop, throw_if.
  destruct (ms_eqb p grad) eqn:E1; cbn [negb]; cbv iota; [|split; eexists; reflexivity].
  destruct (ms_eqb p m) eqn:E2; cbn [negb]; cbv iota; [|split; eexists; reflexivity].
  destruct (ms_eqb p v) eqn:E3; cbn [negb]; cbv iota; [|split; eexists; reflexivity].
  apply ms_eqb_spec in E1, E2, E3; auto. exfalso. destruct H as [H|[H|H]]; congruence.
Qed.

(** ... but the tilings are not: with equal shapes and different base tiles the tile loop reads
    past the list of tiles of an operand. *)
Theorem C41_adam_tiling_refuted : exists grad m v p,
  wf_tensor grad /\ wf_tensor m /\ wf_tensor v /\ wf_tensor p /\
  t_shape grad = t_shape p /\ t_shape m = t_shape p /\ t_shape v = t_shape p /\ ~ same_tiling grad p /\
  forall t (b1 b2 eps lr wd : T), adam_step_async t b1 b2 eps lr wd grad m v p = UB /\
    adamw_step_async t b1 b2 eps lr wd grad m v p = UB.
Proof.
  exists (std_tensor [4] [4] 0)%Z, (std_tensor [4] [2] 10)%Z, (std_tensor [4] [2] 20)%Z, (std_tensor [4] [2] 30)%Z.
  split; [std_wf_tac|]. split; [std_wf_tac|]. split; [std_wf_tac|]. split; [std_wf_tac|].
  do 3 (split; [reflexivity|]). split; [intros (_ & E); discriminate|].
  intros. split; reflexivity.
Qed.

Theorem C41_addcdiv_tiling_refuted : exists nom denom src,
  wf_tensor nom /\ wf_tensor denom /\ wf_tensor src /\
  t_shape nom = t_shape src /\ t_shape denom = t_shape src /\ ~ same_tiling nom src /\
  forall (val eps : T), addcdiv_async val eps nom denom src = UB.
Proof.
  exists (std_tensor [4] [4] 0)%Z, (std_tensor [4] [2] 10)%Z, (std_tensor [4] [2] 20)%Z.
  split; [std_wf_tac|]. split; [std_wf_tac|]. split; [std_wf_tac|].
  do 2 (split; [reflexivity|]). split; [intros (_ & E); discriminate|].
  intros. reflexivity.
Qed.
End Gen.
