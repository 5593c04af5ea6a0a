(** * C10, C11: random generation *)
From Verif Require Import Base Spec Geometry Traits TraitsProofs Axis Loops Runtime Ops TensorSem KernelsElem ElemOps ElemGeneric OneOut AccRuns
  Sequence Serial NdRuns GemmRuns SubcopyOps SubcopyKernel SubcopyLoops SubcopyRuns ScatterRuns Concrete RandnOps RandnProofs Binary32.

(** ** C11 *)
(** [lcg] (RandnProofs.v) is the generator X -> 6364136223846793005 X + 1 mod 2^64 and [lcg_iter n] its n-th iterate. *)
(** It is the step of the state made by CORE_slaran and CORE_dlaran. *)
Theorem C11_step {T} {OT : Ops T} (x : Z) : snd (CORE_laran x) = lcg x.
Proof. unfold CORE_laran. cbn [snd]. apply u64_step. Qed.
(** Jumping by n is 2n steps, for every n (the length is reduced modulo 2^64 by the code, the period makes this harmless). *)
Theorem C11_jump (n seed : Z) : 0 <= n -> 0 <= seed < 2 ^ 64 ->
  CORE_rnd64_jump n seed = Ok (Nat.iter (Z.to_nat (2 * n)) lcg seed).
Proof. apply jump_ok. Qed.
Theorem C11_compose (a b seed : Z) : 0 <= a -> 0 <= b -> 0 <= seed < 2 ^ 64 ->
  (x <- CORE_rnd64_jump a seed ;; CORE_rnd64_jump b x) = CORE_rnd64_jump (a + b) seed.
Proof.
  intros Ha Hb Hs. rewrite !jump_ok by (assumption || lia). bnd. rewrite jump_ok by (assumption || apply iter_word, Hs). f_equal.
  rewrite <- iter_add by lia. f_equal. lia.
Qed.
Example C11_case : CORE_rnd64_jump 3 100 = Ok (lcg (lcg (lcg (lcg (lcg (lcg 100)))))) /\ CORE_rnd64_jump 3 100 <> Ok 100.
Proof. split; [vm_compute; reflexivity|vm_compute; discriminate]. Qed.

(** ** C10 *)
Section Spec10.
Context {T : Type} {OT : Ops T} (o_cos : T -> T).
Local Open Scope ops_scope.
(** A normal number from a state of the generator, by the Box-Muller formula on two successive uniform numbers. *)
Definition uniform (x : Z) : T := (o_ofZ x * o_lit 54210108624275222 (10 ^ 36))%ops.
Definition normal (mean stddev : T) (x : Z) : T :=
  (stddev * (o_sqrt (o_neg (o_lit 2 1) * o_log (uniform x)) * o_cos (uniform (lcg x) * o_lit 62831853071795864769252867663 (10 ^ 28))) + mean)%ops.
(** The number that belongs to a coordinate of the underlying array. *)
Definition random_value (underlying_shape : list Z) (seed : Z) (mean stddev : T) (coord : list Z) : T :=
  normal mean stddev (lcg_iter (2 * off underlying_shape coord) seed).
End Spec10.

Lemma rs_carry_ok : forall start base grid cur ps pb pg pi pt fuel j,
  zlen start = zlen grid -> zlen base = zlen grid -> zlen cur = zlen grid ->
  j = zlen pi -> zlen ps = j -> zlen pb = j -> zlen pg = j -> zlen pt = j -> (List.length grid < fuel)%nat ->
  fits (zrep (zlen grid) 0) grid cur ->
  rs_carry fuel j (ps ++ start) (pb ++ base) (pg ++ grid) (pi ++ cur) (pt ++ map2 Z.add start (map2 Z.mul cur base)) =
    Ok (pi ++ norm (zrep (zlen grid) 0) grid cur, pt ++ map2 Z.add start (map2 Z.mul (norm (zrep (zlen grid) 0) grid cur) base)).
Proof.
  intros start base grid. revert start base.
  induction grid as [|g grid IH]; intros start base cur ps pb pg pi pt fuel j H1 H2 H3 Ej E1 E2 E3 E4 Hf HF.
  { cbn in HF. contradiction. }
  rewrite zlen_cons in *. pose proof (zlen_nonneg grid) as Nn.
  assert (Ez : zrep (zlen grid + 1) 0 = 0 :: zrep (zlen grid) 0).
  { unfold zrep. replace (Z.to_nat (zlen grid + 1)) with (S (Z.to_nat (zlen grid))) by lia. reflexivity. }
  rewrite Ez in *.
  destruct start as [|st start]; [rewrite zlen_nil in H1; lia|]. destruct base as [|b0 base]; [rewrite zlen_nil in H2; lia|].
  destruct cur as [|c cs]; [rewrite zlen_nil in H3; lia|]. rewrite !zlen_cons in *.
  destruct fuel as [|fuel]; [cbn in Hf; lia|]. cbn [List.length] in Hf. cbn [rs_carry map2].
  rewrite (rd_mid pi c) by lia. bnd. rewrite (rd_mid pg g) by lia. bnd. cbn [norm fits] in *. rewrite Z.add_0_l in *.
  destruct (Z.eqb_spec c g) as [Ec|Ec]; [|reflexivity].
  rewrite (wr_mid pi c) by lia. bnd. rewrite (rd_mid ps st) by lia. bnd. rewrite (wr_mid pt (st + c * b0)) by lia. bnd. cbv zeta.
  destruct cs as [|y cs].
  { exfalso. cbn [bump] in HF. destruct grid; cbn in HF; [contradiction|]. unfold zrep in HF. destruct (Z.to_nat _); cbn in HF; contradiction. }
  destruct start as [|s1 start]; [exfalso; rewrite zlen_nil, zlen_cons in *; pose proof (zlen_nonneg cs); lia|].
  destruct base as [|b1 base]; [exfalso; rewrite zlen_nil, zlen_cons in *; pose proof (zlen_nonneg cs); lia|].
  cbn [map2 bump] in *.
  replace (pi ++ 0 :: y :: cs) with ((pi ++ [0]) ++ y :: cs) by (rewrite <- app_assoc; reflexivity).
  assert (L1 : forall l : list Z, forall z, zlen l = j -> j + 1 = zlen (l ++ [z])) by (intros; rewrite zlen_app, zlen_cons, zlen_nil; lia).
  rewrite (rd_mid (pi ++ [0]) y) by (apply L1; lia). bnd. rewrite (wr_mid (pi ++ [0]) y) by (apply L1; lia). bnd.
  match goal with |- context [pt ++ st :: ?a :: ?r] => replace (pt ++ st :: a :: r) with ((pt ++ [st]) ++ a :: r) by (rewrite <- app_assoc; reflexivity) end.
  rewrite (rd_mid (pt ++ [st])) by (apply L1; lia). bnd.
  replace (pb ++ b0 :: b1 :: base) with ((pb ++ [b0]) ++ b1 :: base) by (rewrite <- app_assoc; reflexivity).
  rewrite (rd_mid (pb ++ [b0])) by (apply L1; lia). bnd. rewrite (wr_mid (pt ++ [st])) by (apply L1; lia). bnd.
  specialize (IH (s1 :: start) (b1 :: base) ((y + 1) :: cs) (ps ++ [st]) (pb ++ [b0]) (pg ++ [g]) (pi ++ [0]) (pt ++ [st]) fuel (j + 1)).
  cbn [map2] in IH. replace (s1 + (y + 1) * b1) with (s1 + y * b1 + b1) in IH by ring.
  replace (ps ++ st :: s1 :: start) with ((ps ++ [st]) ++ s1 :: start) by (rewrite <- app_assoc; reflexivity).
  replace (pg ++ g :: grid) with ((pg ++ [g]) ++ grid) by (rewrite <- app_assoc; reflexivity).
  rewrite IH; clear IH; try (symmetry; apply L1; lia); try (apply L1; lia); try (rewrite ?zlen_cons in *; lia); [|assumption].
  rewrite <- !app_assoc. cbn [app]. replace (st + 0 * b0) with st by lia. reflexivity.
Qed.

Section C10.
Context {T : Type} {OT : Ops T} (o_cos : T -> T).
Local Existing Instance DfltOps.

Lemma gv_normal mean stddev x : gv o_cos mean stddev x = normal o_cos mean stddev x.
Proof. unfold gv, chameleon_randn, CORE_laran, normal, uniform. cbv beta iota zeta. cbn [fst]. rewrite u64_step. reflexivity. Qed.

Definition randn_ok (shape start us : list Z) : Prop :=
  zlen start = zlen shape /\ zlen us = zlen shape /\ forall k, 0 <= k < zlen shape -> 0 <= zn start k /\ zn start k + zn shape k <= zn us k.

Section Run.
Variables (dst : tensor) (start us : list Z) (seed : Z) (mean stddev : T) (scr : handle).
Hypothesis (Hd : wft dst).
Notation n := (zlen (t_shape dst)).

Definition rn_task (i : Z) : task T :=
  mkTask (mk_acc [] (th dst i) MW [] [scr]) (fun b =>
      match b with
      | [BF d; BI tmp] =>
          '(d, tmp) <- k_randn o_cos n (tsz dst i) seed mean stddev (map2 Z.add start (tstart dst i)) (tsh dst i) us d (strides (tsh dst i)) tmp ;; Ok [BF d; BI tmp]
      | _ => UB
      end).

Lemma randn_checks (k : res (list (task T))) :
  (randn_ok (t_shape dst) start us ->
    throw_if (negb (t_ndim dst =? zlen start)) "dst.ndim != start.size()" (
    throw_if (negb (t_ndim dst =? zlen us)) "dst.ndim != underlying_shape.size()" (
    _ <- for_ 0 (t_ndim dst) (fun i _ =>
      s <- rd start i ;;
      throw_if (s <? 0) "start[i] < 0" (
      d <- rd (t_shape dst) i ;; u <- rd us i ;;
      throw_if (u <? s + d) "start[i]+dst.shape[i] > underlying_shape[i]" (Ok tt))) tt ;; k)) = k) /\
  (~ randn_ok (t_shape dst) start us ->
    throws (throw_if (negb (t_ndim dst =? zlen start)) "dst.ndim != start.size()" (
    throw_if (negb (t_ndim dst =? zlen us)) "dst.ndim != underlying_shape.size()" (
    _ <- for_ 0 (t_ndim dst) (fun i _ =>
      s <- rd start i ;;
      throw_if (s <? 0) "start[i] < 0" (
      d <- rd (t_shape dst) i ;; u <- rd us i ;;
      throw_if (u <? s + d) "start[i]+dst.shape[i] > underlying_shape[i]" (Ok tt))) tt ;; k)))).
Proof.
  rewrite (t_ndim_eq _ Hd). unfold randn_ok.
  destruct (Z.eqb_spec n (zlen start)) as [E1|E1]; cbn [negb throw_if]; [|split; [intros (Q & _); lia|eexists; reflexivity]].
  destruct (Z.eqb_spec n (zlen us)) as [E2|E2]; cbn [negb throw_if]; [|split; [intros (_ & Q & _); lia|eexists; reflexivity]].
  assert (C : checks (forall i, 0 <= i < n -> 0 <= zn start i /\ zn start i + zn (t_shape dst) i <= zn us i)
    (for_ 0 n (fun i _ => s <- rd start i ;; throw_if (s <? 0) "start[i] < 0" (d <- rd (t_shape dst) i ;; u <- rd us i ;;
      throw_if (u <? s + d) "start[i]+dst.shape[i] > underlying_shape[i]" (Ok tt))) tt)).
  { apply checks_for. intros i Hi. rewrite rd_ok by lia. bnd. apply checks_if.
    - intros Q. apply Z.ltb_lt in Q. lia.
    - intros Q. apply Z.ltb_ge in Q. exact Q.
    - intros _. rewrite !rd_ok by lia. do 2 bnd. eapply checks_iff; [|apply checks_if; [| |intros _; apply checks_ok]].
      + instantiate (1 := zn start i + zn (t_shape dst) i <= zn us i). tauto.
      + intros Q. apply Z.ltb_lt in Q. lia.
      + intros Q. apply Z.ltb_ge in Q. exact Q. }
  destruct (checks_use _ _ k C) as [C1 C2]. split.
  - intros (_ & _ & Q). apply C1, Q.
  - intros Q. apply C2. intros Q'. apply Q. split; [lia|]. split; [lia|assumption].
Qed.

Hypothesis (Hok : randn_ok (t_shape dst) start us).
Lemma randn_tasks : 0 < n -> randn_async o_cos dst start us seed mean stddev scr = Ok (map rn_task (zrange (ntiles dst))).
Proof.
  intros Np. pose proof (ntiles_pos dst Hd) as Ntp. pose proof (wf_len _ Hd) as Lb. unfold randn_async. cbv zeta. rewrite (proj1 (randn_checks _) Hok).
  rewrite (t_ntiles_eq _ Hd), (t_ndim_eq _ Hd). destruct (Z.eqb_spec n 0) as [Q|_]; [lia|]. destruct Hok as (Ls & Lu & _).
  set (grid := gridZ (t_shape dst) (t_base dst)). assert (Lg : zlen grid = n) by (apply zlen_gridZ, (wf_len _ Hd)).
  assert (G0 : zrep n 0 = unoff grid 0) by (rewrite unoff_zero, Lg; reflexivity).
  assert (S0 : start = map2 Z.add start (tstart dst 0)).
  { apply list_ext; [rewrite zlen_map2; rewrite ?zlen_tstart by assumption; lia|]. intros k Hk. rewrite zn_map2 by (rewrite ?zlen_tstart by assumption; lia).
    rewrite zn_tstart by (assumption || lia). fold grid. rewrite <- G0, zn_zrep by lia. lia. }
  edestruct (for_inv (fun i (st : list Z * list Z * list (task T)) =>
      fst (fst st) = map2 Z.add start (tstart dst (Z.min i (ntiles dst - 1))) /\ snd (fst st) = unoff grid (Z.min i (ntiles dst - 1)) /\
      snd st = map rn_task (zrange i)) 0 (ntiles dst)) as (st & E & I);
    [lia| | |rewrite E; bnd; destruct st as [[a b] c]; destruct I as (_ & _ & I); cbn [snd] in I; rewrite I; reflexivity].
  - cbn [fst snd]. replace (Z.min 0 (ntiles dst - 1)) with 0 by lia. split; [assumption|]. split; [assumption|reflexivity].
  - intros i [[a b] c] Hi. cbn [fst snd]. intros (-> & -> & ->). cbv beta iota. replace (Z.min i (ntiles dst - 1)) with i by lia.
    rewrite get_tile_handle_ok, get_tile_traits_ok by (assumption || lia). do 2 bnd. cbv zeta.
    assert (Et : randn_submit o_cos n (tt_nelems (tt_of (tsh dst i))) seed mean stddev (map2 Z.add start (tstart dst i)) (tt_shape (tt_of (tsh dst i)))
       (tt_stride (tt_of (tsh dst i))) us (th dst i) scr = rn_task i).
    { unfold randn_submit, rn_task, mk_acc. destruct (Z.ltb_spec 0 n); [|lia]. rewrite tt_stride_of. reflexivity. }
    rewrite Et. assert (Em : map rn_task (zrange i) ++ [rn_task i] = map rn_task (zrange (i + 1))) by (rewrite zrange_succ, map_app by lia; reflexivity).
    rewrite Em. destruct (Z.eqb_spec i (ntiles dst - 1)) as [Ei|Ei].
    + eexists. split; [reflexivity|]. cbn [fst snd]. replace (Z.min (i + 1) (ntiles dst - 1)) with i by lia. auto.
    + replace (Z.min (i + 1) (ntiles dst - 1)) with (i + 1) by lia.
      assert (Hgi : i + 1 < prodZ grid) by (change (prodZ grid) with (ntiles dst); lia).
      assert (Hi0 : 0 <= i) by lia.
      destruct (unoff_incr grid i (wf_pg _ Hd) Hi0 Hgi) as [F N].
      unfold tstart. fold grid. pose proof (zlen_unoff grid i) as Lun. destruct (unoff grid i) as [|c cs] eqn:Ecs.
      { exfalso. rewrite zlen_nil in Lun. lia. }
      destruct start as [|s0 st'] eqn:Est; [rewrite zlen_nil in Ls; lia|]. destruct (t_base dst) as [|b0 base] eqn:Eb; [rewrite zlen_nil in Lb; lia|].
      cbn [map2]. rewrite !zlen_cons in *. cbn [bump] in *.
      change (c :: cs) with ([] ++ c :: cs). rewrite (rd_mid [] c) by reflexivity. bnd. rewrite (wr_mid [] c) by reflexivity. bnd.
      set (r := map2 Z.add st' (map2 Z.mul cs base)). change (s0 + c * b0 :: r) with ([] ++ (s0 + c * b0) :: r).
      rewrite (rd_mid [] (s0 + c * b0)) by reflexivity. bnd. change (b0 :: base) with ([] ++ b0 :: base). rewrite (rd_mid [] b0) by reflexivity. bnd.
      rewrite (wr_mid [] (s0 + c * b0)) by reflexivity. bnd. cbn [app].
      assert (Eg : tt_shape (t_grid dst) = grid) by (rewrite (t_grid_eq _ Hd); unfold grid; rewrite Eb; reflexivity). rewrite Eg.
      pose proof (rs_carry_ok (s0 :: st') (b0 :: base) grid ((c + 1) :: cs) [] [] [] [] [] (S (Z.to_nat n)) 0) as C. cbn [app map2] in C.
      fold r in C. replace (s0 + (c + 1) * b0) with (s0 + c * b0 + b0) in C by ring.
      rewrite C; clear C; try reflexivity; try (rewrite ?zlen_cons; lia); [|unfold zlen in *; lia|assumption].
      bnd. rewrite N. eexists. split; [reflexivity|]. cbn [fst snd]. auto.
Qed.

Lemma randn_runs s : 0 < n -> stored KF s dst -> ~ In scr (tile_handles dst) -> ty (s scr) = (KI, 2 * n) -> word seed ->
  runs (Ok (map rn_task (zrange (ntiles dst)))) s (fun s' =>
    (forall idx, inb (t_shape dst) idx -> elem s' dst idx = random_value o_cos us seed mean stddev (map2 Z.add start idx)) /\ frame [dst] s s').
Proof.
  intros Np Sd Hscr Hty Hw. destruct Hok as (Ls & Lu & Hb).
  assert (Hbox : forall i, 0 <= i < ntiles dst -> box_in us (map2 Z.add start (tstart dst i)) (tsh dst i)).
  { intros i Hi. destruct (tstart_box dst Hd i Hi) as (Q1 & Q2 & Q3). unfold box_in. rewrite zlen_map2 by (rewrite zlen_tstart; (assumption || lia)).
    rewrite zlen_tsh by assumption. split; [lia|]. split; [lia|]. intros k Hk. rewrite zn_map2 by (rewrite ?zlen_tstart by assumption; lia).
    specialize (Q3 k ltac:(lia)). specialize (Hb k ltac:(lia)). lia. }
  eapply runs_weaken; [apply (acc_elem dst (zrange (ntiles dst)) (fun i => i) (fun _ => MW) (fun _ => []) (fun _ => []) (fun _ => [scr])
    (fun i b => match b with
      | [BF d; BI tmp] =>
          '(d, tmp) <- k_randn o_cos n (tsz dst i) seed mean stddev (map2 Z.add start (tstart dst i)) (tsh dst i) us d (strides (tsh dst i)) tmp ;; Ok [BF d; BI tmp]
      | _ => UB
      end)
    (fun i pre post o v => gv o_cos mean stddev (lcg_iter (2 * off us (map2 Z.add (map2 Z.add start (tstart dst i)) (unoff (tsh dst i) o))) seed)) s);
    try assumption|].
  - reflexivity.
  - intros i Hi. apply zrange_In in Hi. assumption.
  - auto.
  - intros i h _ [[]|[[]|[<-|[]]]]. assumption.
  - reflexivity.
  - intros i st d sc Hi Hti Hd' Hsc. apply zrange_In in Hi. cbn [map app].
    destruct sc as [|c [|]]; [discriminate| |discriminate]. cbn [map] in Hsc. inversion Hsc as [Hc]. rewrite Hty in Hc.
    destruct (ty_BI _ _ Hc) as (tmp & -> & Lt). unfold tsz in *.
    destruct (k_randn_ok o_cos n seed mean stddev (map2 Z.add start (tstart dst i)) (tsh dst i) us d tmp) as (tmp' & Lt' & E); try assumption; try lia; [apply Hbox; assumption|].
    exists [BI tmp']. split; [|reflexivity]. rewrite E. bnd. reflexivity.
  - intros s' _ [G1 G2]. split; [|assumption]. intros idx Hidx. rewrite (G1 idx Hidx).
    pose proof (etile_bound dst idx Hd Hidx) as He.
    rewrite (fold_single _ _ (etile dst idx)).
    + rewrite gv_normal. unfold random_value. do 4 f_equal. rewrite tsh_etile by assumption. unfold eoff. rewrite <- tsh_etile by assumption.
      pose proof (eoff_bound dst idx Hd Hidx) as Heo.
      assert (Eu : unoff (tsh dst (etile dst idx)) (off (tsh dst (etile dst idx)) (in_tile (t_base dst) idx)) = in_tile (t_base dst) idx).
      { apply unoff_off. rewrite tsh_etile by assumption. apply in_tile_inb; [apply wf_len'|apply wf_pb|]; assumption. }
      rewrite Eu. destruct (proj1 (TraitsProofs.inb_zn _ _) Hidx) as [Li Hx]. pose proof (wf_len _ Hd) as Lb.
      assert (Lt : zlen (tstart dst (etile dst idx)) = n) by (apply zlen_tstart; assumption).
      assert (Ln : zlen (in_tile (t_base dst) idx) = n) by (rewrite zlen_in_tile; lia).
      apply list_ext; [rewrite !zlen_map2; rewrite ?zlen_map2; lia|]. rewrite zlen_map2 by (rewrite zlen_map2; lia). rewrite zlen_map2 by lia. intros k Hk.
      rewrite !zn_map2 by (rewrite ?zlen_map2; lia). rewrite zn_tstart by (assumption || lia). rewrite zn_in_tile by lia.
      unfold etile. rewrite unoff_off by (apply tile_of_inb; [apply wf_len'; assumption|apply wf_pb; assumption|assumption]).
      rewrite zn_tile_of by lia. assert (Hb0 : zn (t_base dst) k <> 0) by (pose proof (proj1 (pos_zn _) (wf_pb _ Hd) k ltac:(lia)); lia).
      rewrite Z.mod_eq by assumption. lia.
    + apply filter_single; [apply NoDup_zrange|apply zrange_In; assumption|apply Z.eqb_refl|]. intros y _ Q. apply Z.eqb_eq in Q. assumption.
Qed.
End Run.

(** Every element receives the number of its coordinate in the underlying array, whatever the tiling and the schedule; bad windows are rejected. *)
Theorem C10_randn (dst : tensor) (start us : list Z) (seed : Z) (mean stddev : T) (scr : handle) (s : store T) : wf_tensor dst -> 0 <= seed < 2 ^ 64 ->
  let ok := zlen start = zlen (t_shape dst) /\ zlen us = zlen (t_shape dst) /\
    forall k, 0 <= k < zlen (t_shape dst) -> 0 <= zn start k /\ zn start k + zn (t_shape dst) k <= zn us k in
  (ok -> stored KF s dst -> ~ In scr (tile_handles dst) -> ty (s scr) = (KI, 2 * zlen (t_shape dst)) ->
   runs (randn_async o_cos dst start us seed mean stddev scr) s (fun s' =>
     (forall idx, inb (t_shape dst) idx -> elem s' dst idx = random_value o_cos us seed mean stddev (map2 Z.add start idx)) /\ frame [dst] s s')) /\
  (~ ok -> throws (randn_async o_cos dst start us seed mean stddev scr)).
Proof.
  intros Hd Hw ok. apply wf_wft in Hd. split.
  - intros Hok Sd Hscr Hty. pose proof (zlen_nonneg (t_shape dst)) as Nn. destruct (Z.eq_dec (zlen (t_shape dst)) 0) as [E|Hne].
    + assert (Esh : t_shape dst = []) by (destruct (t_shape dst); [reflexivity|rewrite zlen_cons in E; pose proof (zlen_nonneg l); lia]).
      assert (Ent : ntiles dst = 1) by (unfold ntiles; rewrite Esh; reflexivity).
      assert (Er : randn_async o_cos dst start us seed mean stddev scr = Ok (map (fun i => mkTask (mk_acc [] (th dst i) MW [] []) (wrap1 (k_randn_ndim0 o_cos seed mean stddev))) [0])).
      { unfold randn_async. cbv zeta. rewrite (proj1 (randn_checks dst start us mean Hd _) Hok). rewrite (t_ndim_eq _ Hd), E, Z.eqb_refl.
        rewrite get_tile_handle_ok by (assumption || lia). bnd. reflexivity. }
      eapply runs_weaken; [apply (acc_elem dst [0] (fun i => i) (fun _ => MW) (fun _ => []) (fun _ => []) (fun _ => [])
        (fun _ => wrap1 (k_randn_ndim0 o_cos seed mean stddev)) (fun _ _ _ _ _ => gv o_cos mean stddev seed) s); try assumption|].
      * intros x [<-|[]]. lia.
      * auto.
      * intros x h _ [[]|[[]|[]]].
      * reflexivity.
      * intros x st d sc [<-|[]] _ Hd' Hsc. destruct sc; [|discriminate]. exists []. split; [|reflexivity]. cbn [map app].
        assert (Et : tsz dst 0 = 1) by (unfold tsz, tsh; rewrite Esh; reflexivity). rewrite Et in *.
        destruct d as [|y [|y2 d]]; [discriminate| |rewrite !zlen_cons in Hd'; pose proof (zlen_nonneg d); lia]. reflexivity.
      * intros s' _ [G1 G2]. split; [|assumption]. intros idx Hidx. rewrite (G1 idx Hidx).
        assert (He : etile dst idx = 0) by (pose proof (etile_bound dst idx Hd Hidx); lia). rewrite He. cbn [filter Z.eqb fold_left].
        rewrite gv_normal. unfold random_value. destruct Hok as (L1 & L2 & _).
        destruct us as [|u us']; [|rewrite zlen_cons in L2; pose proof (zlen_nonneg us'); lia]. reflexivity.
    + rewrite randn_tasks by (assumption || lia). apply randn_runs; (assumption || lia).
  - intros Hn. unfold randn_async. cbv zeta. apply (proj2 (randn_checks dst start us mean Hd _)). exact Hn.
Qed.

(** Two windows of the same underlying array, however tiled, agree on every coordinate they share. *)
Theorem C10_tiling_independent (d1 d2 : tensor) (start1 start2 us : list Z) (seed : Z) (mean stddev : T) (scr1 scr2 : handle) (s1 s2 : store T) :
  wf_tensor d1 -> wf_tensor d2 -> 0 <= seed < 2 ^ 64 ->
  (forall d start, (d = d1 /\ start = start1) \/ (d = d2 /\ start = start2) -> zlen start = zlen (t_shape d) /\ zlen us = zlen (t_shape d) /\
    forall k, 0 <= k < zlen (t_shape d) -> 0 <= zn start k /\ zn start k + zn (t_shape d) k <= zn us k) ->
  stored KF s1 d1 -> stored KF s2 d2 -> ~ In scr1 (tile_handles d1) -> ~ In scr2 (tile_handles d2) ->
  ty (s1 scr1) = (KI, 2 * zlen us) -> ty (s2 scr2) = (KI, 2 * zlen us) ->
  exists ts1 ts2, randn_async o_cos d1 start1 us seed mean stddev scr1 = Ok ts1 /\ randn_async o_cos d2 start2 us seed mean stddev scr2 = Ok ts2 /\
    forall s1' s2', steps (ts1, s1) ([], s1') -> steps (ts2, s2) ([], s2') ->
    forall i1 i2, inb (t_shape d1) i1 -> inb (t_shape d2) i2 -> map2 Z.add start1 i1 = map2 Z.add start2 i2 -> elem s1' d1 i1 = elem s2' d2 i2.
Proof.
  intros W1 W2 Hw Hok S1 S2 N1 N2 T1 T2. pose proof (Hok d1 start1 (or_introl (conj eq_refl eq_refl))) as O1. pose proof (Hok d2 start2 (or_intror (conj eq_refl eq_refl))) as O2.
  assert (E1 : zlen us = zlen (t_shape d1)) by apply O1. assert (E2 : zlen us = zlen (t_shape d2)) by apply O2.
  rewrite E1 in T1. rewrite E2 in T2.
  destruct (proj1 (C10_randn d1 start1 us seed mean stddev scr1 s1 W1 Hw) O1 S1 N1 T1) as (ts1 & Q1 & _ & _ & A1).
  destruct (proj1 (C10_randn d2 start2 us seed mean stddev scr2 s2 W2 Hw) O2 S2 N2 T2) as (ts2 & Q2 & _ & _ & A2).
  exists ts1, ts2. split; [assumption|]. split; [assumption|]. intros s1' s2' P1 P2 i1 i2 I1 I2 Ei.
  destruct (A1 _ _ P1) as [_ F1]. destruct (A2 _ _ P2) as [_ F2]. destruct (F1 eq_refl) as (_ & V1 & _). destruct (F2 eq_refl) as (_ & V2 & _).
  rewrite (V1 i1 I1), (V2 i2 I2), Ei. reflexivity.
Qed.
End C10.

(** A 3x2 window, tiled 2x2, at (1,1) of a 5x4 array; and the same number is not used for two coordinates there. *)
Example C10_case {T} {OT : Ops T} (o_cos : T -> T) (mean stddev : T) : let d := std_tensor [3; 2] [2; 2] 1 in
  let s := put d (fun _ => o_zero) (fun _ => BI [0; 0; 0; 0]) in
  exists ts s', randn_async o_cos d [1; 1] [5; 4] 100 mean stddev 0 = Ok ts /\ steps (ts, s) ([], s') /\
    elem s' d [2; 1] = normal o_cos mean stddev (lcg_iter 26 100) /\ lcg_iter 26 100 <> lcg_iter 24 100.
Proof.
  intros d s. assert (W : wf_tensor d) by std_wf_tac.
  assert (Sd : stored KF s d) by (apply put_stored, wf_wft, W).
  assert (N0 : ~ In 0 (tile_handles d)) by (vm_compute; intros [Q|[Q|[]]]; discriminate).
  assert (Ty : ty (s 0) = (KI, 2 * zlen (t_shape d))) by (unfold s, put; rewrite put_other by assumption; reflexivity).
  assert (Hok : zlen [1; 1] = zlen (t_shape d) /\ zlen [5; 4] = zlen (t_shape d) /\
    forall k, 0 <= k < zlen (t_shape d) -> 0 <= zn [1; 1] k /\ zn [1; 1] k + zn (t_shape d) k <= zn [5; 4] k).
  { split; [reflexivity|]. split; [reflexivity|]. intros k Hk. unfold d in *. rewrite std_shape in *. change (zlen [3; 2]) with 2 in Hk.
    assert (Ek : k = 0 \/ k = 1) by lia. destruct Ek as [-> | ->]; vm_compute; split; discriminate. }
  destruct (runs_ends _ _ _ (proj1 (C10_randn o_cos d [1; 1] [5; 4] 100 mean stddev 0 s W ltac:(lia)) Hok Sd N0 Ty)) as (ts & s' & E & P & V & _).
  exists ts, s'. split; [assumption|]. split; [assumption|]. split; [|vm_compute; discriminate].
  rewrite V by (unfold d; rewrite std_shape; repeat constructor; lia). unfold random_value. do 2 f_equal.
Qed.
