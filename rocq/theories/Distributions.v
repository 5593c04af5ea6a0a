(** * Model of tensor::distributions::block_cyclic (src/tensor/distributions.cc)
    and its closed form. *)
From Verif Require Import Base Spec Geometry Traits TraitsProofs.

(** src/tensor/distributions.cc:25-60.  [ndim] equal to 0 makes [index[ndim-1]]
    an access to [index[-1]]; a zero in [mpi_grid] is a division by zero.
    Narrowing from Index to int is not modelled. *)
Definition block_cyclic (tensor_grid mpi_grid : list Z) (start_rank max_rank : Z) : res (list Z) :=
  throw_if (negb (zlen tensor_grid =? zlen mpi_grid)) "Wrong number of dimensions" (
  let ndim := zlen mpi_grid in
  throw_if ((start_rank <? 0) || (start_rank >=? max_rank)) "Invalid starting rank" (
  traits <- TileTraits_new tensor_grid ;;
  for_ 0 (tt_nelems traits) (fun i ranks =>
    index <- linear_to_index traits i ;;
    index <- for_ 0 ndim (fun j index =>
               x <- rd index j ;; m <- rd mpi_grid j ;; r <- crem x m ;; wr index j r) index ;;
    mpi_rank <- rd index (ndim - 1) ;;
    mpi_rank <- for_down (ndim - 2) 0 (fun j mpi_rank =>
                  m <- rd mpi_grid j ;; x <- rd index j ;; Ok (mpi_rank * m + x)) mpi_rank ;;
    r <- crem (mpi_rank + start_rank) max_rank ;;
    wr ranks i r) (zrep (tt_nelems traits) (-1)))).

(* ------------------------------------------------------------------ *)

Lemma bc_mod_loop mpi idx : zlen idx = zlen mpi -> pos mpi ->
  (forall i, 0 <= i < zlen idx -> 0 <= zn idx i) ->
  for_ 0 (zlen mpi) (fun j index =>
     x <- rd index j ;; m <- rd mpi j ;; r <- crem x m ;; wr index j r) idx
  = Ok (in_tile mpi idx).
Proof.
  intros Hl Hp Hn.
  destruct (for_inv (fun i d => zlen d = zlen mpi /\
     forall j, 0 <= j < zlen mpi -> zn d j = if j <? i then zn idx j mod zn mpi j else zn idx j)
     0 (zlen mpi) (fun j index =>
     x <- rd index j ;; m <- rd mpi j ;; r <- crem x m ;; wr index j r) idx) as (d & E & Hd & Hz).
  - apply zlen_nonneg.
  - split; [assumption|]. intros j Hj. destruct (Z.ltb_spec j 0); [lia|reflexivity].
  - intros i s Hi (Hs & Hz). rewrite rd_ok by lia. bnd. rewrite rd_ok by lia. bnd.
    rewrite Hz by lia. destruct (Z.ltb_spec i i); [lia|].
    apply pos_zn with (i := i) in Hp; [|lia].
    rewrite crem_ok; [|apply Hn; lia|lia]. bnd.
    destruct (wr_ok s i (zn idx i mod zn mpi i)) as (s' & E' & Hs' & Hz'); [lia|].
    exists s'. split; [exact E'|]. split; [lia|]. intros j Hj. rewrite Hz' by lia.
    destruct (Z.eqb_spec j i); [subst; destruct (Z.ltb_spec i (i+1)); [reflexivity|lia]|].
    rewrite Hz by lia. destruct (Z.ltb_spec j i), (Z.ltb_spec j (i+1)); auto; lia.
  - rewrite E. f_equal. unfold in_tile. apply list_ext.
    + rewrite zlen_map2 by lia. assumption.
    + intros j Hj. rewrite Hz by lia. rewrite zn_map2 by lia.
      destruct (Z.ltb_spec j (zlen mpi)); [reflexivity|lia].
Qed.

Lemma off_skipn shape idx i : zlen shape = zlen idx -> 0 <= i < zlen shape ->
  off (skipn (Z.to_nat i) shape) (skipn (Z.to_nat i) idx)
  = zn idx i + zn shape i * off (skipn (Z.to_nat (i + 1)) shape) (skipn (Z.to_nat (i + 1)) idx).
Proof.
  intros Hl Hi. rewrite (skipn_zn shape) by lia. rewrite (skipn_zn idx) by lia. reflexivity.
Qed.

Theorem block_cyclic_ok grid mpi start max :
  zlen grid = zlen mpi -> 0 < zlen grid -> 0 <= start < max -> pos grid -> pos mpi ->
  block_cyclic grid mpi start max
  = Ok (ztab (prodZ grid) (fun i => (off mpi (in_tile mpi (unoff grid i)) + start) mod max)).
Proof.
  intros Hl Hnd Hst Hg Hm. unfold block_cyclic, throw_if.
  destruct (Z.eqb_spec (zlen grid) (zlen mpi)); [|lia]. cbn [negb]. cbv zeta.
  destruct (Z.ltb_spec start 0); [lia|]. destruct (Z.geb_spec start max); [lia|]. cbn [orb].
  rewrite TileTraits_new_ok by assumption. bnd. cbn [tt_nelems tt_of].
  set (F := fun i => (off mpi (in_tile mpi (unoff grid i)) + start) mod max).
  pose proof (prodZ_pos _ Hg) as HN.
  match goal with |- for_ _ _ ?b _ = _ => set (body := b) end.
  destruct (for_inv (fun i d => zlen d = prodZ grid /\
     forall j, 0 <= j < i -> zn d j = F j) 0 (prodZ grid) body (zrep (prodZ grid) (-1)))
    as (d & E & Hd & Hz).
  - lia.
  - split; [apply zlen_zrep; lia|lia].
  - intros i s Hi (Hs & Hz). unfold body.
    change (mkTT _ _ _ _ _) with (tt_of grid).
    rewrite linear_to_index_ok by assumption. bnd.
    assert (Hlu : zlen (unoff grid i) = zlen mpi) by (rewrite zlen_unoff; lia).
    pose proof (unoff_inb grid i Hg Hi) as Hin. apply inb_zn in Hin as [_ Hin].
    rewrite bc_mod_loop; [|assumption|assumption|intros k Hk; apply Hin; lia]. bnd.
    set (u := in_tile mpi (unoff grid i)).
    assert (Hu : zlen u = zlen mpi) by (unfold u, in_tile; rewrite zlen_map2; lia).
    rewrite rd_ok by lia. bnd.
    destruct (ford_inv (fun j r => r = off (skipn (Z.to_nat (j + 1)) mpi) (skipn (Z.to_nat (j + 1)) u))
       (zlen mpi - 2) 0 (fun j mpi_rank => m <- rd mpi j ;; x <- rd u j ;; Ok (mpi_rank * m + x))
       (zn u (zlen mpi - 1))) as (r & Er & Hr).
    + lia.
    + replace (zlen mpi - 2 + 1) with (zlen mpi - 1) by lia.
      rewrite off_skipn by lia. replace (zlen mpi - 1 + 1) with (zlen mpi) by lia.
      rewrite skipn_zlen. simpl. lia.
    + intros j r Hj ->. rewrite rd_ok by lia. bnd. rewrite rd_ok by lia. bnd.
      eexists; split; [reflexivity|]. replace (j - 1 + 1) with j by lia.
      rewrite (off_skipn mpi u j) by lia. ring.
    + rewrite Er. bnd. replace (0 - 1 + 1) with 0 in Hr by lia. simpl in Hr.
      assert (Hinu : inb mpi u).
      { apply inb_zn. split; [lia|]. intros k Hk. unfold u, in_tile. rewrite zn_map2 by lia.
        apply Z.mod_pos_bound. apply pos_zn; assumption. }
      pose proof (off_bound _ _ Hinu). rewrite crem_ok by lia. bnd.
      destruct (wr_ok s i ((r + start) mod max)) as (s' & E' & Hs' & Hz'); [lia|].
      exists s'. split; [exact E'|]. split; [lia|]. intros j Hj. rewrite Hz' by lia.
      destruct (Z.eqb_spec j i); [subst j; unfold F; fold u; rewrite Hr; reflexivity|].
      apply Hz; lia.
  - rewrite E. f_equal. apply list_ext; [rewrite zlen_ztab; lia|].
    intros j Hj. rewrite zn_ztab by lia. apply Hz. lia.
Qed.

Theorem block_cyclic_throw grid mpi start max :
  ~ (zlen grid = zlen mpi /\ 0 <= start < max /\ pos grid) ->
  exists m, block_cyclic grid mpi start max = Throw m.
Proof.
  intros H. unfold block_cyclic, throw_if.
  destruct (Z.eqb_spec (zlen grid) (zlen mpi)); cbn [negb]; [|eexists; reflexivity]. cbv zeta.
  destruct (Z.ltb_spec start 0); cbn [orb]; [eexists; reflexivity|].
  destruct (Z.geb_spec start max); [eexists; reflexivity|].
  destruct (pos_dec grid) as [Hp|Hp]; [tauto || (exfalso; apply H; repeat split; auto; lia)|].
  rewrite TileTraits_new_throw by assumption. eexists; reflexivity.
Qed.

(** Finding: a 0-dimensional tensor grid (a scalar tensor has one tile) reads [index[-1]]. *)
Theorem block_cyclic_scalar_ub start max : 0 <= start < max ->
  block_cyclic [] [] start max = UB.
Proof.
  intros H. unfold block_cyclic, throw_if. simpl.
  destruct (Z.ltb_spec start 0); [lia|]. destruct (Z.geb_spec start max); [lia|]. reflexivity.
Qed.

(** Finding: a zero extent in the mpi grid is a division by zero. *)
Theorem block_cyclic_zero_mpi_ub : block_cyclic [2] [0] 0 1 = UB.
Proof. reflexivity. Qed.
