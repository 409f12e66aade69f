(** Tile-by-tile execution of the MLI 3.0 operators whose input and output tiles differ in shape (property C75). *)
From Coq Require Import ZArith List Lia Bool.
From Verif Require Import Base FxMath FxMathProofs Tensor TensorProofs MovProofs Quant QuantProofs DotProdProofs ArgMax Permute PermuteProofs PoolKernels Eltwise EltwiseProofs Relu ReluProofs
  Prelu3Proofs Ops3 Ops3Proofs Iter IterProofs IterTheorems TileRun TileProofs TileConv TileDw TileElt TilePoint TileOps.
Import ListNotations.
Open Scope Z_scope.

(** * Axes that are not cut *)

Lemma uncut_dim o D : 1 <= D -> D + 2 * D < 2 ^ 31 -> let d := tile_dim o D D 0 in it_count d = 1 /\ tile_start d 0 = 0 /\ tile_len d D 0 = D.
Proof.
  intros H1 H2 d. destruct (tile_dim_val o D D 0 ltac:(lia) ltac:(lia) ltac:(lia)) as (E & N1 & N2 & _). fold d in E.
  destruct (tile_dim_cuts o D D 0 ltac:(lia) ltac:(lia) ltac:(lia)) as (_ & C & _). fold d in C.
  assert (En : ceil_div (D + 0) D = 1) by nia. rewrite En in E. assert (Ec : it_count d = 1) by (rewrite E; reflexivity). split; [exact Ec|].
  destruct C as (C0 & _ & C1 & _). rewrite Ec in C1. split; [exact C0|]. change (1 - 1) with 0 in C1. lia.
Qed.

Lemma tiles_counts s1 t1 s2 t2 stride1 stride2 n : tiling s1 t1 -> tiling s2 t2 -> map it_count (axes 0 s1 t1) = map it_count (axes 0 s2 t2) ->
  let i := ti_run (tiles_iter s1 t1 stride1) n in let o := ti_run (tiles_iter s2 t2 stride2) n in let idx := idx_at (axes 0 s2 t2) n in
  idx_ok (axes 0 s1 t1) idx /\ idx_ok (axes 0 s2 t2) idx
  /\ ti_size i = sizes_at (axes 0 s1 t1) s1 idx /\ ti_pos i = starts (axes 0 s1 t1) idx /\ ti_size o = sizes_at (axes 0 s2 t2) s2 idx /\ ti_pos o = starts (axes 0 s2 t2) idx.
Proof.
  intros H1 H2 E i o idx. pose proof (idx_at_counts _ _ n E) as Ei. fold idx in Ei.
  destruct (tiles_iter_tile s1 t1 stride1 n H1) as (_ & _ & _ & _ & Z1 & P1). destruct (tiles_iter_tile s2 t2 stride2 n H2) as (_ & _ & _ & _ & Z2 & P2).
  split; [rewrite <- Ei; apply idx_at_ok, axes_counts; exact H1|]. split; [apply idx_at_ok, axes_counts; exact H2|].
  rewrite Ei in Z1, P1. repeat split; assumption.
Qed.

(** * MoveBroadcast *)

(** The shapes and tile sizes of source and destination: on every axis both are equal, or the source has size 1 and the destination is not cut. *)
Fixpoint bc_axes (ss ts sd td : list Z) : Prop :=
  match ss, ts, sd, td with
  | [], [], [], [] => True
  | s :: ss', t :: ts', d :: sd', u :: td' => ((s = d /\ t = u) \/ (s = 1 /\ t = 1 /\ u = d)) /\ bc_axes ss' ts' sd' td'
  | _, _, _, _ => False
  end.

(** The position in a source of shape [ss] that belongs to position [c] of the destination. *)
Fixpoint bc_source (ss c : list Z) : list Z :=
  match ss, c with s :: ss', k :: c' => (if s =? 1 then 0 else k) :: bc_source ss' c' | _, _ => [] end.

Lemma bc_counts ss ts : tiling ss ts -> forall sd td, tiling sd td -> bc_axes ss ts sd td -> forall k, map it_count (axes k ss ts) = map it_count (axes k sd td).
Proof.
  intros H. induction H as [|s t ss ts [Ht Hs] H IH]; intros sd td Hd B k; destruct Hd as [|d u sd td [Hu Hd1] Hd]; cbn [bc_axes] in B; try contradiction; [reflexivity|].
  destruct B as [B0 B]. cbn [axes map]. f_equal; [|exact (IH sd td Hd B (S k))]. destruct B0 as [[-> ->]|(-> & -> & ->)]; [reflexivity|].
  rewrite (proj1 (uncut_dim (Z.of_nat k) 1 ltac:(lia) ltac:(lia))), (proj1 (uncut_dim (Z.of_nat k) d ltac:(lia) ltac:(lia))). reflexivity.
Qed.

Lemma bc_step ss ts : tiling ss ts -> forall sd td, tiling sd td -> bc_axes ss ts sd td -> forall k idx, idx_ok (axes k ss ts) idx -> idx_ok (axes k sd td) idx ->
  forall c, valid (sizes_at (axes k sd td) sd idx) c ->
  exists i, bc_index (sizes_at (axes k ss ts) ss idx) (sizes_at (axes k sd td) sd idx) c = Some i /\ valid (sizes_at (axes k ss ts) ss idx) i
    /\ vadd (starts (axes k ss ts) idx) i = bc_source ss (vadd (starts (axes k sd td) idx) c).
Proof.
  intros H. induction H as [|s t ss ts [Ht Hs] H IH]; intros sd td Hd B k idx K1 K2 c; destruct Hd as [|d u sd td [Hu Hd1] Hd]; cbn [bc_axes] in B; try contradiction.
  { destruct idx; [|cbn in K1; contradiction]. destruct c; [|intros []]. intros _. exists []. repeat split; reflexivity. }
  destruct idx as [|j idx]; cbn [axes idx_ok] in K1, K2; [contradiction|]. destruct K1 as [J1 K1]. destruct K2 as [J2 K2]. destruct B as [B0 B].
  cbn [axes sizes_at starts]. destruct c as [|x c]; cbn [valid]; [intros []|]. intros [Hx V].
  destruct (IH sd td Hd B (S k) idx K1 K2 c V) as (i & Ei & Vi & Pi). cbn [bc_index]. rewrite Ei. cbn [bind]. destruct B0 as [[-> ->]|(-> & -> & ->)].
  - rewrite Z.eqb_refl. exists (x :: i). split; [reflexivity|]. cbn [valid vadd bc_source]. split; [tauto|]. rewrite Pi. f_equal.
    destruct (Z.eqb_spec d 1) as [->|]; [|reflexivity]. assert (u = 1) by lia. subst u.
    destruct (uncut_dim (Z.of_nat k) 1 ltac:(lia) ltac:(lia)) as (C1 & C2 & C3). rewrite C1 in J1. assert (j = 0) by lia. subst j. rewrite C3 in Hx. lia.
  - destruct (uncut_dim (Z.of_nat k) 1 ltac:(lia) ltac:(lia)) as (C1 & C2 & C3). destruct (uncut_dim (Z.of_nat k) d ltac:(lia) ltac:(lia)) as (D1 & D2 & D3).
    rewrite C1 in J1. assert (j = 0) by lia. subst j. rewrite C2, C3, D2, D3 in *. cbn [vadd bc_source]. rewrite Z.eqb_refl. rewrite <- Pi.
    destruct (Z.eqb_spec 1 d) as [<-|].
    + exists (x :: i). cbn [valid vadd]. split; [reflexivity|]. split; [split; [lia|exact Vi]|]. f_equal. lia.
    + exists (0 :: i). cbn [valid vadd]. split; [reflexivity|]. split; [split; [lia|exact Vi]|]. f_equal.
Qed.

Lemma addr_more : forall st c z, length st = length c -> addr st (c ++ z) = addr st c.
Proof. induction st as [|s st IH]; intros [|x c] z L; try discriminate; [destruct z; reflexivity|]. cbn [app addr]. rewrite IH by (cbn in L; lia). reflexivity. Qed.

Lemma bc_index_more : forall src dst c z, length src = length dst -> length dst = length c -> bc_index src dst (c ++ z) = bc_index src dst c.
Proof.
  induction src as [|s src IH]; intros [|d dst] [|x c] z L1 L2; try discriminate; [reflexivity|]. cbn [app bc_index]. rewrite IH by (cbn in L1, L2; lia). reflexivity.
Qed.

Lemma bc_run_correct src dst ms m Y :
  length (t_shape src) = length (t_shape dst) -> (length (t_shape dst) <= 4)%nat -> length (t_stride dst) = length (t_shape dst) ->
  (forall c, valid (t_shape dst) c -> exists i, bc_index (t_shape src) (t_shape dst) c = Some i /\ ms (t_data src + addr (t_stride src) i) = Some (Y c)) ->
  (forall c, valid (t_shape dst) c -> allocated m (t_data dst + addr (t_stride dst) c)) ->
  (forall c c', valid (t_shape dst) c -> valid (t_shape dst) c' -> addr (t_stride dst) c = addr (t_stride dst) c' -> c = c') ->
  exists m', bc_run src dst ms m = Some m' /\ (forall c, valid (t_shape dst) c -> m' (t_data dst + addr (t_stride dst) c) = Some (Y c)) /\ frame_ok dst m m'.
Proof.
  intros L1 L4 Ls Hr Ha Hi. unfold bc_run. rewrite L1, Nat.eqb_refl. cbn [negb]. rewrite foldM_pad4 by exact L4.
  edestruct (foldM_store (fun c => t_data dst + addr (t_stride dst) c) Y) as (m' & E & V & F).
  4: { exists m'. split; [exact E|]. split.
    - intros c Hc. apply V. apply in_coords. exact Hc.
    - intros a Hc. apply F. intros c Hin Ea. apply in_coords in Hin. exact (Hc c Hin (eq_sym Ea)). }
  - intros c m' Hc. apply in_coords in Hc. pose proof (valid_length _ _ Hc) as Lc. cbv beta. rewrite bc_index_more, addr_more by lia.
    destruct (Hr c Hc) as (i & Ei & Ex). rewrite Ei. cbn [bind]. unfold load. rewrite Ex. reflexivity.
  - intros c Hc. apply in_coords in Hc. apply Ha. exact Hc.
  - intros c c' Hc Hc' Ea. apply in_coords in Hc, Hc'. f_equal. apply Hi; [assumption|assumption|lia].
Qed.

(** C75: MoveBroadcast. *)
Theorem broadcast_tiles_whole ss ts sd td si so bi bo X (mi m : nat -> mem) :
  tiling ss ts -> tiling sd td -> bc_axes ss ts sd td ->
  let it := tiles_iter sd td so in let ob n := un_updates n (un_create (tiles_iter ss ts si) it bi bo) in
  (forall n, Z.of_nat n < total_count (ti_cfg it) -> holds (mi n) (uo_tin (ob n)) X (ti_pos (uo_in (ob n))) /\ usable (uo_tout (ob n)) (m n)) ->
  whole_result (fun n => bc_issue (ob n) (mi n) (m n)) it bo m (fun c => X (bc_source ss c)).
Proof.
  intros H1 H2 B it ob Hr. apply tiles_whole; [exact H2|]. intros n Hn. specialize (Hr n Hn). fold it in Hn |- *.
  unfold ob in *. rewrite un_updates_val in *. unfold un_create, bc_issue in *. cbn [uo_in uo_out uo_tin uo_tout] in *.
  destruct (tiles_counts ss ts sd td si so n H1 H2 (bc_counts _ _ H1 _ _ H2 B 0)) as (K1 & K2 & Z1 & P1 & Z2 & P2). fold it in Z2, P2.
  destruct Hr as [Hx (F2 & C2 & B2)]. destruct (chk_tensor_pos _ C2 (proj1 F2)) as (R4 & _). destruct (chk_tensor_nested _ F2 C2) as (N2 & _).
  destruct (tiles_iter_tile ss ts si n H1) as (S1 & _). destruct (tiles_iter_tile sd td so n H2) as (S2 & _). fold it in S2.
  destruct (bc_run_correct (tile_of bi (ti_run (tiles_iter ss ts si) n)) (tile_of bo (ti_run it n)) (mi n) (m n) (fun c => X (bc_source ss (vadd (ti_pos (ti_run it n)) c)))) as (m' & E & V & Fr).
  - cbn [tile_of t_shape]. rewrite (smaller_length _ _ S1), (smaller_length _ _ S2), (tiling_length _ _ H1), (tiling_length _ _ H2).
    clear - B. revert ts sd td B. induction ss as [|s ss IH]; intros [|t ts] [|d sd] [|u td] B; cbn [bc_axes] in B; try contradiction; [reflexivity|]. cbn [length]. f_equal. apply (IH ts sd td). tauto.
  - exact R4.
  - symmetry. exact (proj1 F2).
  - intros c Vc. cbn [tile_of t_shape] in Vc |- *. rewrite Z2 in Vc. destruct (bc_step ss ts H1 sd td H2 B 0 _ K1 K2 c Vc) as (i & Ei & Vi & Pi). exists i. rewrite Z1, Z2. split; [exact Ei|].
    rewrite P2, <- Pi, <- P1. apply Hx. cbn [tile_of t_shape]. rewrite Z1. exact Vi.
  - intros c Vc. exact (chk_backed _ _ F2 C2 B2 c Vc).
  - intros c c' Vc Vc' Ea. exact (nested_inj _ _ _ _ N2 Vc Vc' Ea).
  - exists m'. split; [exact E|]. split; [exact V|exact Fr].
Qed.

(** * ReduceSum, ReduceMax *)

Lemma reduce_tiling si ti : tiling si ti -> forall axis, tiling (set_at axis 1 si) (set_at axis 1 ti).
Proof.
  intros H. induction H as [|D T si ti [HT HD] H IH]; intros [|axis]; cbn [set_at]; try apply Forall2_nil.
  - apply Forall2_cons; [lia|exact H].
  - apply Forall2_cons; [lia|apply IH].
Qed.

Lemma reduce_counts si ti : tiling si ti -> forall axis, (axis < length si)%nat -> nth axis ti 0 = nth axis si 0 -> forall k,
  map it_count (axes k si ti) = map it_count (axes k (set_at axis 1 si) (set_at axis 1 ti)).
Proof.
  intros H. induction H as [|D T si ti [HT HD] H IH]; intros [|axis] Ha E k; cbn [length] in Ha; try lia; cbn [set_at axes map nth] in *.
  - subst T. f_equal. rewrite (proj1 (uncut_dim (Z.of_nat k) 1 ltac:(lia) ltac:(lia))), (proj1 (uncut_dim (Z.of_nat k) D ltac:(lia) ltac:(lia))). reflexivity.
  - f_equal. apply IH; [lia|exact E].
Qed.

Lemma reduce_step si ti : tiling si ti -> forall axis, (axis < length si)%nat -> nth axis ti 0 = nth axis si 0 -> forall k idx, idx_ok (axes k si ti) idx ->
  sizes_at (axes k (set_at axis 1 si) (set_at axis 1 ti)) (set_at axis 1 si) idx = set_at axis 1 (sizes_at (axes k si ti) si idx)
  /\ starts (axes k (set_at axis 1 si) (set_at axis 1 ti)) idx = starts (axes k si ti) idx
  /\ nth axis (sizes_at (axes k si ti) si idx) 0 = nth axis si 0 /\ nth axis (starts (axes k si ti) idx) 0 = 0.
Proof.
  intros H. induction H as [|D T si ti [HT HD] H IH]; intros [|axis] Ha E k [|j idx] Hok; cbn [length] in Ha; try lia; cbn [set_at axes idx_ok sizes_at starts nth] in *; try contradiction; destruct Hok as [Hj Hok].
  - subst T. destruct (uncut_dim (Z.of_nat k) 1 ltac:(lia) ltac:(lia)) as (_ & C2 & C3). destruct (uncut_dim (Z.of_nat k) D ltac:(lia) ltac:(lia)) as (D1 & D2 & D3).
    rewrite D1 in Hj. assert (j = 0) by lia. subst j. rewrite C2, C3, D2, D3. auto.
  - destruct (IH axis ltac:(lia) E (S k) idx Hok) as (A1 & A2 & A3 & A4). rewrite A1, A2. auto.
Qed.

Lemma vadd_set_at : forall off c axis k, length off = length c -> (axis < length c)%nat -> nth axis off 0 = 0 -> vadd off (set_at axis k c) = set_at axis k (vadd off c).
Proof.
  induction off as [|o off IH]; intros [|x c] [|axis] k L Ha E; cbn [length] in *; try lia; cbn [set_at vadd nth] in *; [f_equal; lia|]. f_equal. apply IH; [lia|lia|exact E].
Qed.

(** The tiles of an input of shape [si] cut into [ti] and of the output of a reduction along [axis]: what is common to both operators. *)
Lemma reduce_tiles si ti sti sto axis bi bo X mi n : tiling si ti -> (axis < length si)%nat -> nth axis ti 0 = nth axis si 0 ->
  let tin := tile_of bi (ti_run (tiles_iter si ti sti) n) in let tout := tile_of bo (ti_run (tiles_iter (set_at axis 1 si) (set_at axis 1 ti) sto) n) in
  let off := ti_pos (ti_run (tiles_iter (set_at axis 1 si) (set_at axis 1 ti) sto) n) in
  usable tin mi -> holds mi tin X (ti_pos (ti_run (tiles_iter si ti sti) n)) ->
  t_shape tout = set_at axis 1 (t_shape tin) /\ (axis < length (t_shape tin))%nat /\ nth axis (t_shape tin) 0 = nth axis si 0
  /\ (forall d, In d (t_shape tin) -> 1 <= d)
  /\ forall c k, valid (t_shape tout) c -> 0 <= k < nth axis si 0 -> slice_val mi tin axis c k = X (set_at axis k (vadd off c)).
Proof.
  intros H Ha E tin tout off (F & C & _) Hx.
  destruct (tiles_counts si ti _ _ sti sto n H (reduce_tiling _ _ H axis) (reduce_counts _ _ H axis Ha E 0)) as (K1 & _ & Z1 & P1 & Z2 & P2).
  destruct (reduce_step si ti H axis Ha E 0 _ K1) as (A1 & A2 & A3 & A4). destruct (tiles_iter_tile si ti sti n H) as (Sm & Lp & _).
  pose proof (smaller_length _ _ Sm) as Lz. rewrite (tiling_length _ _ H) in Lz.
  assert (S1 : t_shape tout = set_at axis 1 (t_shape tin)) by (unfold tout, tin, tile_of; cbn [t_shape]; rewrite Z1, Z2; exact A1).
  assert (S2 : nth axis (t_shape tin) 0 = nth axis si 0) by (unfold tin, tile_of; cbn [t_shape]; rewrite Z1; exact A3).
  assert (Lt : length (t_shape tin) = length si) by exact Lz.
  split; [exact S1|]. split; [lia|]. split; [exact S2|]. split.
  - intros d Hd. destruct (chk_tensor_pos _ C (proj1 F)) as (_ & P & _). rewrite Forall_forall in P. specialize (P d Hd). lia.
  - intros c k Vc Hk. assert (Eo : off = ti_pos (ti_run (tiles_iter si ti sti) n)) by (unfold off; rewrite P1, P2; exact A2).
    assert (Vk : valid (t_shape tin) (set_at axis k c)).
    { rewrite S1 in Vc. rewrite <- S2 in Hk. assert (Hax : (axis < length (t_shape tin))%nat) by lia. clear - Vc Hk Hax. revert axis c Vc Hk Hax.
      generalize (t_shape tin) as sh. induction sh as [|d sh IH]; intros [|a] [|x c] Vc Hk Hax; cbn [length set_at valid nth] in *; try lia; try tauto. split; [tauto|]. apply IH; [tauto|exact Hk|lia]. }
    pose proof (valid_length _ _ Vk) as Lk. rewrite set_at_length in Lk.
    unfold slice_val. rewrite (holds_rd _ _ _ _ _ Hx Vk). rewrite Eo. f_equal. apply vadd_set_at; [lia|lia|]. rewrite P1. exact A4.
Qed.

(** C75: ReduceSum along an axis that is not cut, for sums that fit into the element type. *)
Theorem reduce_sum_tiles_whole nb axis si ti sti sto bi bo X (mi m : nat -> mem) :
  1 <= nb <= 64 -> tiling si ti -> (axis < length si)%nat -> nth axis ti 0 = nth axis si 0 ->
  (forall c, valid (set_at axis 1 si) c -> in_bits nb (zsum 0 (nth axis si 0) (fun k => X (set_at axis k c)))) ->
  let it := tiles_iter (set_at axis 1 si) (set_at axis 1 ti) sto in let ob n := un_updates n (un_create (tiles_iter si ti sti) it bi bo) in
  (forall n, Z.of_nat n < total_count (ti_cfg it) ->
     usable (uo_tin (ob n)) (mi n) /\ usable (uo_tout (ob n)) (m n) /\ holds (mi n) (uo_tin (ob n)) X (ti_pos (uo_in (ob n)))) ->
  whole_result (fun n => rsum_issue nb axis (ob n) (mi n) (m n)) it bo m (fun c => zsum 0 (nth axis si 0) (fun k => X (set_at axis k c))).
Proof.
  intros Hb H Ha E Hs it ob Hr. apply tiles_whole; [apply reduce_tiling; exact H|]. intros n Hn. specialize (Hr n Hn). fold it in Hn |- *.
  unfold ob in *. rewrite un_updates_val in *. unfold un_create, rsum_issue in *. cbn [uo_in uo_out uo_tin uo_tout] in *. destruct Hr as (U1 & (F2 & C2 & B2) & Hx).
  destruct (reduce_tiles si ti sti sto axis bi bo X (mi n) n H Ha E U1 Hx) as (S1 & S2 & S3 & S4 & S5). fold it in S1, S5. destruct U1 as (F1 & C1 & B1).
  destruct (chk_tensor_pos _ C1 (proj1 F1)) as (R4 & _). destruct (chk_tensor_nested _ F2 C2) as (N2 & _).
  destruct (reduce_sum_correct nb axis (tile_of bi (ti_run (tiles_iter si ti sti) n)) (tile_of bo (ti_run it n)) (mi n) (m n)) as (m' & Em & V & Fr).
  - exact Hb.
  - exact R4.
  - symmetry. exact (proj1 F1).
  - rewrite <- (proj1 F2), S1, set_at_length. reflexivity.
  - exact S2.
  - exact S4.
  - intros c Vc. exact (chk_backed _ _ F1 C1 B1 c Vc).
  - rewrite <- S1. intros c Vc. exact (chk_backed _ _ F2 C2 B2 c Vc).
  - rewrite <- S1. intros c c' Vc Vc' Ea. exact (nested_inj _ _ _ _ N2 Vc Vc' Ea).
  - exists m'. split; [exact Em|]. rewrite <- S1, S3 in *. split; [|exact Fr]. intros c Vc. destruct (V c Vc) as (v & -> & _ & _ & Ev). f_equal.
    assert (Ez : zsum 0 (nth axis si 0) (slice_val (mi n) (tile_of bi (ti_run (tiles_iter si ti sti) n)) axis c) = zsum 0 (nth axis si 0) (fun k => X (set_at axis k (vadd (ti_pos (ti_run it n)) c)))).
    { apply zsum_ext. intros k Hk. apply S5; [exact Vc|exact Hk]. }
    rewrite Ez in Ev. apply Ev. apply Hs. apply (tiles_iter_inside _ (set_at axis 1 ti) sto n); [apply reduce_tiling; exact H|exact Vc].
Qed.

(** [v] is the greatest of the first [n] values of [f]. *)
Definition greatest (f : Z -> Z) (n v : Z) : Prop := (forall k, 0 <= k < n -> f k <= v) /\ exists k, 0 <= k < n /\ f k = v.

(** The tiles of ReduceMax after the first Update. *)
Lemma rmax_updates n i o bi bo : un_updates (S n) (rmax_create i o bi bo) = un_create (ti_run i (S n)) (ti_run o (S n)) bi bo.
Proof. induction n as [|n IH]; [reflexivity|]. change (un_updates (S (S n)) (rmax_create i o bi bo)) with (un_update (un_updates (S n) (rmax_create i o bi bo))). rewrite IH. reflexivity. Qed.

Lemma tiling_self_size s : tiling s s -> forall k idx, idx_ok (axes k s s) idx -> sizes_at (axes k s s) s idx = s.
Proof.
  induction s as [|D s IH]; intros H k [|j idx] Hok; cbn [axes idx_ok sizes_at] in *; try contradiction; [reflexivity|]. inversion H as [|? ? ? ? [HT HD] H']; subst. destruct Hok as [Hj Hok].
  destruct (uncut_dim (Z.of_nat k) D ltac:(lia) ltac:(lia)) as (D1 & D2 & D3). rewrite D1 in Hj. assert (j = 0) by lia. subst j. rewrite D3, IH by assumption. reflexivity.
Qed.

(** C75: ReduceMax along an axis that is not cut. After the first Update every Issue computes its part of the result; before it that is so
    if the tensor is not cut at all. *)
Theorem reduce_max_tiles axis si ti sti sto bi bo X Y (mi m : nat -> mem) :
  tiling si ti -> (axis < length si)%nat -> nth axis ti 0 = nth axis si 0 ->
  (forall c, valid (set_at axis 1 si) c -> greatest (fun k => X (set_at axis k c)) (nth axis si 0) (Y c)) ->
  let it := tiles_iter (set_at axis 1 si) (set_at axis 1 ti) sto in let ob n := un_updates n (rmax_create (tiles_iter si ti sti) it bi bo) in
  forall n, (n <> 0%nat \/ ti = si) ->
     usable (uo_tin (ob n)) (mi n) -> usable (uo_tout (ob n)) (m n) -> holds (mi n) (uo_tin (ob n)) X (ti_pos (uo_in (ob n))) ->
  exists m', rmax_issue axis (ob n) (mi n) (m n) = Some m' /\ holds m' (tile_of bo (ti_run it n)) Y (ti_pos (ti_run it n)) /\ frame_ok (tile_of bo (ti_run it n)) (m n) m'.
Proof.
  intros H Ha E Hs it ob n Hn. 
  assert (Eo : ob n = un_create (ti_run (tiles_iter si ti sti) n) (ti_run it n) bi bo).
  { destruct n as [|n]; [|apply rmax_updates]. destruct Hn as [Hn|Hn]; [congruence|]. subst ti. unfold ob, rmax_create, un_create. cbn [un_updates ti_run].
    destruct (tiles_iter_tile si si sti 0 H) as (_ & _ & _ & _ & Z1 & _). rewrite tiling_self_size in Z1 by (try apply idx_at_ok; try apply axes_counts; exact H).
    pose proof (reduce_tiling _ _ H axis) as H'. destruct (tiles_iter_tile _ _ sto 0 H') as (_ & _ & _ & _ & Z2 & _). rewrite tiling_self_size in Z2 by (try apply idx_at_ok; try apply axes_counts; exact H').
    cbn [ti_run] in Z1, Z2. fold it in Z2. unfold with_shape, tile_of. cbn [t_data t_cap t_esz t_stride t_asym t_qdim t_qoff]. rewrite Z1, Z2. reflexivity. }
  rewrite Eo. unfold un_create, rmax_issue in *. cbn [uo_in uo_out uo_tin uo_tout] in *. intros U1 (F2 & C2 & B2) Hx.
  destruct (reduce_tiles si ti sti sto axis bi bo X (mi n) n H Ha E U1 Hx) as (S1 & S2 & S3 & S4 & S5). fold it in S1, S5. destruct U1 as (F1 & C1 & B1).
  destruct (chk_tensor_pos _ C1 (proj1 F1)) as (R4 & _). destruct (chk_tensor_nested _ F2 C2) as (N2 & _).
  destruct (reduce_max_correct axis (tile_of bi (ti_run (tiles_iter si ti sti) n)) (tile_of bo (ti_run it n)) (mi n) (m n)) as (m' & Em & V & Fr).
  - exact R4.
  - symmetry. exact (proj1 F1).
  - rewrite <- (proj1 F2), S1, set_at_length. reflexivity.
  - exact S2.
  - exact S4.
  - intros c Vc. exact (chk_backed _ _ F1 C1 B1 c Vc).
  - rewrite <- S1. intros c Vc. exact (chk_backed _ _ F2 C2 B2 c Vc).
  - rewrite <- S1. intros c c' Vc Vc' Ea. exact (nested_inj _ _ _ _ N2 Vc Vc' Ea).
  - exists m'. split; [exact Em|]. rewrite <- S1, S3 in *. split; [|exact Fr]. intros c Vc. destruct (V c Vc) as (v & -> & Ub & k & Hk & Ek). f_equal.
    destruct (Hs (vadd (ti_pos (ti_run it n)) c)) as [G1 (k' & Hk' & G2)].
    { apply (tiles_iter_inside _ (set_at axis 1 ti) sto n); [apply reduce_tiling; exact H|exact Vc]. }
    specialize (G1 k Hk). specialize (Ub k' Hk'). rewrite (S5 c k Vc Hk) in Ek. rewrite (S5 c k' Vc Hk') in Ub. cbv beta in *. lia.
Qed.

(** * MatMul *)

Lemma mm_updates_val n l r o bl br bo : mm_updates n (mm_create l r o bl br bo) = mm_create (ti_run l n) (ti_run r n) (ti_run o n) bl br bo.
Proof. induction n as [|n IH]; cbn [mm_updates ti_run]; [reflexivity|]. rewrite IH. reflexivity. Qed.

(** C75: MatMul of matrices that are cut into groups of [T] rows of the left matrix; the right matrix is one tile. *)
Theorem matmul_tiles_whole pm p zl zr M K N T sl sr bl br bo A B (ml mr m : nat -> mem) :
  1 <= T <= M -> M + 2 * T < 2 ^ 31 -> 1 <= K -> 3 * K < 2 ^ 31 -> 1 <= N -> 3 * N < 2 ^ 31 -> pm p = Some zl -> pm (p + 1) = Some zr ->
  (forall i k, 0 <= i < M -> 0 <= k < K -> in_bits 8 (A [i; k] - zl)) -> (forall k j, 0 <= k < K -> 0 <= j < N -> in_bits 8 (B [k; j] - zr)) ->
  (forall i j k, 0 <= i < M -> 0 <= j < N -> 0 <= k <= K -> in_bits 32 (zsum 0 k (fun x => (A [i; x] - zl) * (B [x; j] - zr)))) ->
  let it := tiles_iter [M; N] [T; N] [N; 1] in let ob n := mm_updates n (mm_create (tiles_iter [M; K] [T; K] [sl; 1]) (tiles_iter [K; N] [K; N] [sr; 1]) it bl br bo) in
  (forall n, Z.of_nat n < total_count (ti_cfg it) ->
     holds (ml n) (mm_tl (ob n)) A (ti_pos (mm_left (ob n))) /\ holds (mr n) (mm_tr (ob n)) B [0; 0] /\ usable (mm_to (ob n)) (m n)) ->
  whole_result (fun n => mm_issue pm p (ob n) (ml n) (mr n) (m n)) it bo m (fun c => zsum 0 K (fun k => (A [nth 0 c 0; k] - zl) * (B [k; nth 1 c 0] - zr))).
Proof.
  intros HT HM HK HK3 HN HN3 Pl Pr HA HB Hs it ob Hr.
  assert (H1 : tiling [M; K] [T; K]) by (repeat (apply Forall2_cons; [lia|]); apply Forall2_nil).
  assert (H2 : tiling [M; N] [T; N]) by (repeat (apply Forall2_cons; [lia|]); apply Forall2_nil).
  assert (H3 : tiling [K; N] [K; N]) by (repeat (apply Forall2_cons; [lia|]); apply Forall2_nil).
  apply tiles_whole; [exact H2|]. intros n Hn. specialize (Hr n Hn). fold it in Hn |- *.
  unfold ob in *. rewrite mm_updates_val in *. unfold mm_create, mm_issue in *. cbn [mm_left mm_right mm_out mm_tl mm_tr mm_to] in *.
  destruct (uncut_dim 1 K ltac:(lia) ltac:(lia)) as (CK1 & CK2 & CK3). destruct (uncut_dim 1 N ltac:(lia) ltac:(lia)) as (CN1 & CN2 & CN3).
  destruct (tiles_counts [M; K] [T; K] [M; N] [T; N] [sl; 1] [N; 1] n H1 H2) as (K1 & K2 & Z1 & P1 & Z2 & P2).
  { cbn [axes map]. change (Z.of_nat 1) with 1. rewrite CK1, CN1. reflexivity. }
  fold it in Z2, P2. set (idx := idx_at (axes 0 [M; N] [T; N]) n) in *. clearbody idx. destruct idx as [|j [|j1 [|]]]; cbn [axes idx_ok] in K1, K2; try tauto.
  change (Z.of_nat 1) with 1 in *. rewrite CN1 in K2. assert (j1 = 0) by lia. subst j1. cbn [axes sizes_at starts] in Z1, P1, Z2, P2. change (Z.of_nat 1) with 1 in *. rewrite CK2 in P1. rewrite CK3 in Z1. rewrite CN2 in P2. rewrite CN3 in Z2.
  set (h := tile_len (tile_dim (Z.of_nat 0) M T 0) M j) in *. set (o := tile_start (tile_dim (Z.of_nat 0) M T 0) j) in *.
  assert (Ho : 0 <= o /\ o + h <= M).
  { destruct (tile_dim_cuts (Z.of_nat 0) M T 0 HT ltac:(lia) ltac:(lia)) as (N1 & Cu & _). pose proof (cuts_inside _ _ _ _ N1 Cu j (proj1 K2)) as I. fold h o in I. lia. }
  destruct (tiles_iter_tile [K; N] [K; N] [sr; 1] n H3) as (_ & _ & St3 & _ & Z3 & _). rewrite tiling_self_size in Z3 by (try apply idx_at_ok; try apply axes_counts; exact H3).
  destruct (tiles_iter_tile [M; K] [T; K] [sl; 1] n H1) as (_ & _ & St1 & _). destruct (tiles_iter_tile [M; N] [T; N] [N; 1] n H2) as (_ & _ & St2 & _). fold it in St2.
  destruct Hr as (Hl & Hrr & (F & C & Bk)). clearbody h o.
  assert (Vl : forall i k, 0 <= i < h -> 0 <= k < K -> ml n (lb_data bl + addr [sl; 1] [i; k]) = Some (A [o + i; k])).
  { intros i k Hi Hk. specialize (Hl [i; k]). unfold tile_of in Hl. cbn [t_shape t_data t_stride] in Hl. rewrite Z1, St1, P1 in Hl. cbn [valid vadd] in Hl. rewrite Hl by lia. reflexivity. }
  assert (Vr : forall k j, 0 <= k < K -> 0 <= j < N -> mr n (lb_data br + addr [sr; 1] [k; j]) = Some (B [k; j])).
  { intros k j' Hk Hj. specialize (Hrr [k; j']). unfold tile_of in Hrr. cbn [t_shape t_data t_stride] in Hrr. rewrite Z3, St3 in Hrr. cbn [valid vadd] in Hrr. rewrite Hrr by lia. reflexivity. }
  assert (Sh : mm_shapes (tile_of bl (ti_run (tiles_iter [M; K] [T; K] [sl; 1]) n)) (tile_of br (ti_run (tiles_iter [K; N] [K; N] [sr; 1]) n)) (tile_of bo (ti_run it n)) = true).
  { unfold mm_shapes, tile_of. cbn [t_shape]. rewrite Z1, Z2, Z3. cbn [nth]. rewrite !Z.eqb_refl. reflexivity. }
  rewrite Sh. unfold load at 1 2. rewrite Pl, Pr. cbn [bind].
  assert (Rl : forall i k, 0 <= i < h -> 0 <= k < K -> rd (ml n) (lb_data bl + addr [sl; 1] [i; k]) = A [o + i; k]) by (intros; unfold rd; rewrite Vl by assumption; reflexivity).
  assert (Rr : forall k j, 0 <= k < K -> 0 <= j < N -> rd (mr n) (lb_data br + addr [sr; 1] [k; j]) = B [k; j]) by (intros; unfold rd; rewrite Vr by assumption; reflexivity).
  destruct (matmul_correct zl zr (tile_of bl (ti_run (tiles_iter [M; K] [T; K] [sl; 1]) n)) (tile_of br (ti_run (tiles_iter [K; N] [K; N] [sr; 1]) n)) (tile_of bo (ti_run it n)) (ml n) (mr n) (m n) h K N sl sr)
    as (m' & E & V & Fr).
  - lia.
  - exact Z1.
  - exact Z3.
  - exact Z2.
  - exact St1.
  - exact St3.
  - exact St2.
  - unfold tile_of. cbn [t_shape t_data t_stride]. rewrite Z1, St1. intros [|i [|k [|]]]; cbn [valid]; try tauto. intros (Hi & Hk & _). rewrite Rl by assumption.
    split; [unfold allocated; rewrite Vl by assumption; discriminate|apply HA; lia].
  - unfold tile_of. cbn [t_shape t_data t_stride]. rewrite Z3, St3. intros [|k [|j' [|]]]; cbn [valid]; try tauto. intros (Hk & Hj & _). rewrite Rr by assumption.
    split; [unfold allocated; rewrite Vr by assumption; discriminate|apply HB; lia].
  - intros c Vc. exact (chk_backed _ _ F C Bk c Vc).
  - unfold tile_of. cbn [t_shape t_data t_stride]. rewrite St1, St3. intros i j' k Hi Hj Hk.
    replace (zsum 0 k (fun x => (rd (ml n) (lb_data bl + addr [sl; 1] [i; x]) - zl) * (rd (mr n) (lb_data br + addr [sr; 1] [x; j']) - zr)))
      with (zsum 0 k (fun x => (A [o + i; x] - zl) * (B [x; j'] - zr))); [apply Hs; lia|].
    apply zsum_ext. intros x Hx. rewrite Rl, Rr by lia. reflexivity.
  - exists m'. split; [exact E|]. split; [|exact Fr]. intros c Vc. revert Vc V. unfold tile_of. cbn [t_shape t_data t_stride]. rewrite Z2, St1, St2, St3, P2.
    destruct c as [|i [|j' [|]]]; cbn [valid]; try tauto. intros (Hi & Hj & _) V. rewrite (V i j' Hi Hj). f_equal. cbn [vadd nth]. replace (0 + j') with j' by lia.
    apply zsum_ext. intros x Hx. rewrite Rl, Rr by lia. reflexivity.
Qed.

(** * What does not hold *)

Ltac shape_of V c := match type of V with valid ?s _ => let s' := eval vm_compute in s in change (valid s' c) in V end.

Lemma some_mem (o : option mem) a v : (match o with Some m => m a | None => None end) = Some v -> exists m', o = Some m' /\ m' a = Some v.
Proof. destruct o as [m|]; [|discriminate]. eauto. Qed.

(** A broadcast axis that is cut: source and destination iterators get out of step. A row of two elements is copied to two rows, both in
    tiles of one element; the second tile of the destination is [1; 0] and gets the second element of the source. *)
Theorem broadcast_cut_refuted :
  let it := tiles_iter [2; 2] [1; 1] [1; 1] in let ob n := un_updates n (un_create (tiles_iter [1; 2] [1; 1] [1; 1]) it (mkLb 0 1 1) (mkLb 0 1 1)) in
  exists X (mi m : nat -> mem),
    (forall n, Z.of_nat n < 4 -> holds (mi n) (uo_tin (ob n)) X (ti_pos (uo_in (ob n))) /\ usable (uo_tout (ob n)) (m n))
    /\ exists m', bc_issue (ob 1%nat) (mi 1%nat) (m 1%nat) = Some m' /\ in_tile (uo_tout (ob 1%nat)) (ti_pos (ti_run it 1)) [1; 0]
       /\ tile_value m' (uo_tout (ob 1%nat)) (ti_pos (ti_run it 1)) [1; 0] = Some 1 /\ X (bc_source [1; 2] [1; 0]) = 0.
Proof.
  intros it ob. exists (fun c => nth 1 c 0), (fun n => list_mem [Z.of_nat n mod 2]), (fun _ => list_mem [7]). split.
  - intros n Hn. assert (C : n = 0%nat \/ n = 1%nat \/ n = 2%nat \/ n = 3%nat) by lia.
    split; [|unfold ob; rewrite un_updates_val; apply tile_usable; [repeat (apply Forall2_cons; [lia|]); apply Forall2_nil|]; split; [fits32_tac|]; split; [vm_compute; reflexivity|]; apply (list_backed 0 1 1); cbn; lia].
    destruct C as [-> |[-> |[-> | ->]]]; (intros c Vc; shape_of Vc c; destruct c as [|x [|y [|]]]; cbn [valid] in Vc; try tauto; assert (x = 0) by lia; assert (y = 0) by lia; subst x y; vm_compute; reflexivity).
  - destruct (some_mem (bc_issue (ob 1%nat) (list_mem [1]) (list_mem [7])) 0 1) as (m' & E & V); [vm_compute; reflexivity|]. exists m'.
    split; [exact E|]. split; [vm_compute; repeat split; discriminate|]. split; [|reflexivity]. unfold tile_value.
    match goal with |- m' ?a = _ => replace a with 0 by (vm_compute; reflexivity) end. exact V.
Qed.

(** The first Issue of ReduceMax works on the shapes of the whole tensors. With buffers of the size of a tile it accesses memory outside of
    them; with larger buffers it overwrites memory outside of the output tile (cell 1, which was 7). *)
Theorem reduce_max_first_refuted :
  let i := tiles_iter [2; 2] [1; 2] [2; 1] in let o := tiles_iter [2; 1] [1; 1] [1; 1] in
  tiling [2; 2] [1; 2] /\ nth 1 [1; 2] 0 = nth 1 [2; 2] 0 /\ ti_size i = [1; 2] /\ ti_size o = [1; 1]
  /\ (exists bi bo mi m, usable (tile_of bi i) mi /\ usable (tile_of bo o) m /\ rmax_issue 1 (rmax_create i o bi bo) mi m = None)
  /\ exists bi bo mi m m', usable (tile_of bi i) mi /\ usable (tile_of bo o) m /\ rmax_issue 1 (rmax_create i o bi bo) mi m = Some m'
     /\ (forall c, valid (t_shape (tile_of bo o)) c -> t_data (tile_of bo o) + addr (t_stride (tile_of bo o)) c <> 1) /\ m 1 = Some 7 /\ m' 1 = Some 9.
Proof.
  intros i o. split; [repeat (apply Forall2_cons; [lia|]); apply Forall2_nil|]. split; [reflexivity|]. split; [reflexivity|]. split; [reflexivity|].
  assert (T1 : tiling [2; 2] [1; 2] /\ tiling [2; 1] [1; 1]) by (split; repeat (apply Forall2_cons; [lia|]); apply Forall2_nil).
  assert (U : forall k l, k = 2 \/ k = 4 -> k <= Z.of_nat (length l) -> usable (tile_of (mkLb 0 k 1) i) (list_mem l)).
  { intros k l Hk Hl. apply (tile_usable [2; 2] [1; 2] [2; 1] _ _ 0); [tauto|]. cbn [lb_data lb_cap lb_esz]. pose proof (list_backed 0 k 1 [1; 2] [2; 1] l ltac:(lia) ltac:(lia) Hl) as B. rewrite Z.mul_1_r in B.
    destruct Hk as [-> | ->]; (split; [fits32_tac|]; split; [vm_compute; reflexivity|exact B]). }
  assert (U' : forall k l, k = 1 \/ k = 2 -> k <= Z.of_nat (length l) -> usable (tile_of (mkLb 0 k 1) o) (list_mem l)).
  { intros k l Hk Hl. apply (tile_usable [2; 1] [1; 1] [1; 1] _ _ 0); [tauto|]. cbn [lb_data lb_cap lb_esz]. pose proof (list_backed 0 k 1 [1; 1] [1; 1] l ltac:(lia) ltac:(lia) Hl) as B. rewrite Z.mul_1_r in B.
    destruct Hk as [-> | ->]; (split; [fits32_tac|]; split; [vm_compute; reflexivity|exact B]). }
  split.
  - exists (mkLb 0 2 1), (mkLb 0 1 1), (list_mem [5; 3]), (list_mem [0]). split; [apply U; cbn; lia|]. split; [apply U'; cbn; lia|]. vm_compute. reflexivity.
  - exists (mkLb 0 4 1), (mkLb 0 2 1), (list_mem [5; 3; 8; 9]), (list_mem [0; 7]).
    destruct (some_mem (rmax_issue 1 (rmax_create i o (mkLb 0 4 1) (mkLb 0 2 1)) (list_mem [5; 3; 8; 9]) (list_mem [0; 7])) 1 9) as (m' & E & V); [vm_compute; reflexivity|]. exists m'.
    split; [apply U; cbn; lia|]. split; [apply U'; cbn; lia|]. split; [exact E|]. split; [|split; [reflexivity|exact V]]. intros c Vc; shape_of Vc c; destruct c as [|x [|y [|]]]; cbn [valid] in Vc; try tauto. assert (x = 0) by lia. assert (y = 0) by lia. subst x y. vm_compute. discriminate.
Qed.

(** The offsets that MatMul reports for its right input are those of the left input: for the second row of a 2x2 matrix it reports that the
    right 2x1 matrix is to be taken from row 1 on, although the tile is the whole matrix. *)
Theorem matmul_offsets_refuted :
  let ob := mm_updates 1 (mm_create (tiles_iter [2; 2] [1; 2] [2; 1]) (tiles_iter [2; 1] [2; 1] [1; 1]) (tiles_iter [2; 1] [1; 1] [1; 1]) (mkLb 0 2 1) (mkLb 0 2 1) (mkLb 0 4 4)) in
  mm_offsets ob = ([1; 0], [1; 0], [1; 0]) /\ t_shape (mm_tr ob) = [2; 1] /\ ti_pos (mm_right ob) = [0; 0].
Proof. repeat split; vm_compute; reflexivity. Qed.

(** Cutting the columns instead: the row of the last, narrower tile is written at the wrong place. [1; 2] * [1 1 1] in tiles of two columns,
    with the rows of an output tile 2 apart: element [1; 2] is not written. *)
Theorem matmul_columns_refuted :
  let it := tiles_iter [2; 3] [2; 2] [2; 1] in
  let ob n := mm_updates n (mm_create (tiles_iter [2; 1] [2; 1] [1; 1]) (tiles_iter [1; 3] [1; 2] [2; 1]) it (mkLb 0 2 1) (mkLb 0 2 1) (mkLb 0 16 4)) in
  let ml := list_mem [1; 2] in let mr := list_mem [1; 1] in let m := list_mem [0; 0; 7; 7] in
  holds ml (mm_tl (ob 1%nat)) (fun c => 1 + nth 0 c 0) (ti_pos (mm_left (ob 1%nat))) /\ holds mr (mm_tr (ob 1%nat)) (fun _ => 1) (ti_pos (mm_right (ob 1%nat))) /\ usable (mm_to (ob 1%nat)) m
  /\ in_tile (mm_to (ob 1%nat)) (ti_pos (ti_run it 1)) [1; 2]
  /\ exists m', mm_issue (list_mem [0; 0]) 0 (ob 1%nat) ml mr m = Some m' /\ tile_value m' (mm_to (ob 1%nat)) (ti_pos (ti_run it 1)) [1; 2] = Some 7.
Proof.
  intros it ob ml mr m. split.
  - intros c Vc; shape_of Vc c; destruct c as [|x [|y [|]]]; cbn [valid] in Vc; try tauto. assert (x = 0 \/ x = 1) as [-> | ->] by lia; assert (y = 0) by lia; subst y; vm_compute; reflexivity.
  - split; [intros c Vc; shape_of Vc c; destruct c as [|x [|y [|]]]; cbn [valid] in Vc; try tauto; assert (x = 0) by lia; assert (y = 0) by lia; subst x y; vm_compute; reflexivity|].
    split; [unfold ob; rewrite mm_updates_val; apply tile_usable; [repeat (apply Forall2_cons; [lia|]); apply Forall2_nil|]; split; [fits32_tac|]; split; [vm_compute; reflexivity|]; apply (list_backed 0 4 4); cbn; lia|]. split; [vm_compute; repeat split; discriminate|].
    destruct (some_mem (mm_issue (list_mem [0; 0]) 0 (ob 1%nat) ml mr m) 2 7) as (m' & E & V); [vm_compute; reflexivity|]. exists m'. split; [exact E|]. unfold tile_value.
    match goal with |- m' ?a = _ => replace a with 2 by (vm_compute; reflexivity) end. exact V.
Qed.

(** * Non-trivial cases *)

Lemma two_tiles n : Z.of_nat n < 2 -> n = 0%nat \/ n = 1%nat.
Proof. lia. Qed.

(** A row of three elements, in tiles of two, to two rows. *)
Example broadcast_ex : let it := tiles_iter [2; 3] [2; 2] [2; 1] in let ob n := un_updates n (un_create (tiles_iter [1; 3] [1; 2] [2; 1]) it (mkLb 0 2 1) (mkLb 0 4 1)) in
  let mi n := list_mem (if Nat.eqb n 0 then [0; 10] else [20; -1]) in let m := list_mem [7; 7; 7; 7] in
  bc_axes [1; 3] [1; 2] [2; 3] [2; 2] /\ total_count (ti_cfg it) = 2
  /\ (forall n, Z.of_nat n < 2 -> holds (mi n) (uo_tin (ob n)) (fun c => 10 * nth 1 c 0) (ti_pos (uo_in (ob n))) /\ usable (uo_tout (ob n)) m)
  /\ map (fun n => do m' <- bc_issue (ob n) (mi n) m; Some (map (rd m') [0; 1; 2; 3])) [0%nat; 1%nat] = [Some [0; 10; 0; 10]; Some [20; 7; 20; 7]].
Proof.
  intros it ob mi m. split; [cbn; lia|]. split; [reflexivity|]. split; [|vm_compute; reflexivity]. intros n Hn.
  split; [|unfold ob; rewrite un_updates_val; apply tile_usable; [repeat (apply Forall2_cons; [lia|]); apply Forall2_nil|]; split; [fits32_tac|]; split; [vm_compute; reflexivity|]; apply (list_backed 0 4 1); cbn; lia].
  destruct (two_tiles n Hn) as [-> | ->].
  - intros c Vc; shape_of Vc c; destruct c as [|x [|y [|]]]; cbn [valid] in Vc; try tauto. assert (y = 0 \/ y = 1) as [-> | ->] by lia; assert (x = 0) by lia; subst x; vm_compute; reflexivity.
  - intros c Vc; shape_of Vc c; destruct c as [|x [|y [|]]]; cbn [valid] in Vc; try tauto. assert (y = 0) by lia; assert (x = 0) by lia; subst x y; vm_compute; reflexivity.
Qed.

(** Three rows of two elements, in tiles of two rows, each row to its sum and its maximum. *)
Example reduce_ex : let i := tiles_iter [3; 2] [2; 2] [2; 1] in let it := tiles_iter (set_at 1 1 [3; 2]) (set_at 1 1 [2; 2]) [1; 1] in
  let bi := mkLb 0 4 1 in let bo := mkLb 0 2 1 in let m := list_mem [99; 99] in
  total_count (ti_cfg it) = 2 /\ (forall c, valid (set_at 1 1 [3; 2]) c -> in_bits 8 (zsum 0 2 (fun k => px_X (set_at 1 k c))) /\ greatest (fun k => px_X (set_at 1 k c)) 2 (10 * nth 0 c 0 + 1))
  /\ (forall n, Z.of_nat n < 2 -> let ob := un_updates n (un_create i it bi bo) in
       usable (uo_tin ob) (list_mem (px_vals n)) /\ usable (uo_tout ob) m /\ holds (list_mem (px_vals n)) (uo_tin ob) px_X (ti_pos (uo_in ob)))
  /\ (let ob := un_updates 1 (rmax_create i it bi bo) in usable (uo_tin ob) (list_mem (px_vals 1)) /\ usable (uo_tout ob) m /\ holds (list_mem (px_vals 1)) (uo_tin ob) px_X (ti_pos (uo_in ob)))
  /\ map (fun n => do m' <- rsum_issue 8 1 (un_updates n (un_create i it bi bo)) (list_mem (px_vals n)) m; Some (map (rd m') [0; 1])) [0%nat; 1%nat] = [Some [1; 21]; Some [41; 99]].
Proof.
  intros i it bi bo m. split; [reflexivity|].
  assert (U : forall n, Z.of_nat n < 2 -> let ob := un_updates n (un_create i it bi bo) in
    usable (uo_tin ob) (list_mem (px_vals n)) /\ usable (uo_tout ob) m /\ holds (list_mem (px_vals n)) (uo_tin ob) px_X (ti_pos (uo_in ob))).
  { intros n Hn ob. unfold ob. rewrite un_updates_val. unfold un_create. cbn [uo_in uo_out uo_tin uo_tout]. split.
    - apply legal_usable, (px_usable 0 1); [lia|lia|]. unfold px_vals; destruct (Nat.eqb n 0); cbn; lia.
    - split; [|apply px_holds; [exact Hn|lia|]; intros a _; reflexivity]. apply tile_usable.
      + apply (reduce_tiling [3; 2] [2; 2]). apply px_tiling.
      + split; [fits32_tac|]. split; [vm_compute; reflexivity|]. apply (list_backed 0 2 1); cbn; lia. }
  split.
  - intros [|x [|y [|]]] V; cbn [set_at valid] in V; try tauto. destruct V as (Hx & Hy & _). unfold px_X. cbn [set_at nth]. split.
    + change (zsum 0 2 (fun k => 10 * x + k)) with (10 * x + 0 + (10 * x + 1 + 0)). unfold in_bits, smin, smax. change (2 ^ (8 - 1)) with 128. lia.
    + split; [intros k Hk; cbv beta; lia|]. exists 1. cbv beta. split; lia.
  - split; [exact U|]. split; [|vm_compute; reflexivity]. rewrite rmax_updates. pose proof (U 1%nat ltac:(lia)) as U1. cbv zeta in U1. rewrite un_updates_val in U1. exact U1.
Qed.

(** A 3x2 matrix, in tiles of two rows, times a 2x2 matrix with the zero points 1 and 2. *)
Example matmul_ex : let it := tiles_iter [3; 2] [2; 2] [2; 1] in
  let ob n := mm_updates n (mm_create (tiles_iter [3; 2] [2; 2] [2; 1]) (tiles_iter [2; 2] [2; 2] [2; 1]) it (mkLb 0 4 1) (mkLb 0 4 1) (mkLb 0 16 4)) in
  let mr := list_mem [0; 1; 10; 11] in let m := list_mem [9; 9; 9; 9] in let pm := list_mem [1; 2] in
  total_count (ti_cfg it) = 2
  /\ (forall n, Z.of_nat n < 2 -> holds (list_mem (px_vals n)) (mm_tl (ob n)) px_X (ti_pos (mm_left (ob n))) /\ holds mr (mm_tr (ob n)) px_X [0; 0] /\ usable (mm_to (ob n)) m)
  /\ map (fun n => do m' <- mm_issue pm 0 (ob n) (list_mem (px_vals n)) mr m; Some (map (rd m') [0; 1; 2; 3])) [0%nat; 1%nat] = [Some [2; 1; 62; 81]; Some [122; 161; 9; 9]].
Proof.
  intros it ob mr m pm. split; [reflexivity|]. split; [|vm_compute; reflexivity]. intros n Hn. unfold ob. rewrite mm_updates_val. unfold mm_create. cbn [mm_left mm_tl mm_tr mm_to].
  split; [apply px_holds; [exact Hn|lia|]; intros a _; reflexivity|]. split.
  - destruct (two_tiles n Hn) as [-> | ->]; intros c Vc; shape_of Vc c; destruct c as [|x [|y [|]]]; cbn [valid] in Vc; try tauto; assert (x = 0 \/ x = 1) as [-> | ->] by lia; assert (y = 0 \/ y = 1) as [-> | ->] by lia; vm_compute; reflexivity.
  - apply legal_usable, (px_usable 0 4); [lia|lia|cbn; lia].
Qed.
