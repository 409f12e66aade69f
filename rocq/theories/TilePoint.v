(** Tile-by-tile execution of the MLI 3.0 pointwise operators (property C71). *)
From Coq Require Import ZArith List Lia Bool.
From Verif Require Import Base FxMath FxMathProofs Tensor TensorProofs MovProofs Quant QuantProofs DotProdProofs ArgMax Permute PermuteProofs PoolKernels Eltwise EltwiseProofs Relu ReluProofs
  Prelu3Proofs Ops3 Ops3Proofs Iter IterProofs IterTheorems TileRun TileProofs TileConv TileDw TileElt.
Import ListNotations.
Open Scope Z_scope.

(** * Tiles of a tensor *)

(** Tile sizes: between 1 and the size of the dimension, which is small enough for 32-bit positions. *)
Definition tiling (shape tile : list Z) : Prop := Forall2 (fun D T => 1 <= T <= D /\ D + 2 * T < 2 ^ 31) shape tile.

(** Componentwise sum and difference of coordinates. *)
Fixpoint vadd (a b : list Z) : list Z := match a, b with x :: a', y :: b' => x + y :: vadd a' b' | _, _ => [] end.
Fixpoint vsub (a b : list Z) : list Z := match a, b with x :: a', y :: b' => x - y :: vsub a' b' | _, _ => [] end.

(** In memory [m] the tile [t] holds the part of the whole tensor [X] that starts at [off]. *)
Definition holds (m : mem) (t : tensor) (X : list Z -> Z) (off : list Z) : Prop :=
  forall c, valid (t_shape t) c -> m (t_data t + addr (t_stride t) c) = Some (X (vadd off c)).

(** Element [c] of the whole tensor lies in the tile [t] at [off]; its value there. *)
Definition in_tile (t : tensor) (off c : list Z) : Prop := valid (t_shape t) (vsub c off).
Definition tile_value (m : mem) (t : tensor) (off c : list Z) : option Z := m (t_data t + addr (t_stride t) (vsub c off)).

Lemma tile_cfg_id shape tile : length tile = length shape ->
  forall k, tile_cfg (repeat 0 k ++ shape) (repeat 0 k ++ tile) (seq k (length shape)) 0
    = (fix go j sh ti := match sh, ti with D :: sh', T :: ti' => tile_dim (Z.of_nat j) D T 0 :: go (S j) sh' ti' | _, _ => [] end) k shape tile.
Proof.
  intros L k.
  assert (E : forall order sh ti, tile_cfg sh ti order 0 = map (fun d => tile_dim (Z.of_nat d) (nth d sh 0) (nth d ti 0) 0) order) by (intros [|? ?] ? ?; reflexivity).
  rewrite E. revert tile k L E. induction shape as [|D shape IH]; intros [|T tile] k L E; try discriminate; [reflexivity|].
  cbn [length seq map]. f_equal.
  - rewrite !app_nth2 by (rewrite repeat_length; lia). rewrite repeat_length, Nat.sub_diag. reflexivity.
  - injection L as L. rewrite <- (IH tile (S k) L E). apply map_ext_in. intros a Ha. apply in_seq in Ha.
    assert (N : forall l x, nth a (repeat 0 k ++ x :: l) 0 = nth a (repeat 0 (S k) ++ l) 0).
    { intros l x. rewrite !app_nth2 by (rewrite repeat_length; lia). rewrite !repeat_length. replace (a - k)%nat with (S (a - S k)) by lia. reflexivity. }
    rewrite !N. reflexivity.
Qed.

(** The configuration: one dimension per axis. *)
Fixpoint axes (k : nat) (shape tile : list Z) : list idim :=
  match shape, tile with D :: shape', T :: tile' => tile_dim (Z.of_nat k) D T 0 :: axes (S k) shape' tile' | _, _ => [] end.

Lemma tile_cfg_axes shape tile : length tile = length shape -> tile_cfg shape tile (seq 0 (length shape)) 0 = axes 0 shape tile.
Proof. intros L. exact (tile_cfg_id shape tile L 0). Qed.

Lemma tiling_length shape tile : tiling shape tile -> length tile = length shape.
Proof. intros H. induction H; cbn; auto. Qed.

Lemma axes_counts shape tile : tiling shape tile -> forall k, counts_ok (axes k shape tile).
Proof.
  intros H. induction H as [|D T shape tile [HT HD] H IH]; intros k; [apply Forall_nil|]. cbn [axes]. apply Forall_cons; [|apply IH].
  apply tile_dim_cuts; lia.
Qed.

(** Sizes and positions of the tile with the given indices. *)
Lemma axes_sub shape tile : tiling shape tile -> forall idx, idx_ok (axes 0 shape tile) idx ->
  sub_tensor (axes 0 shape tile) shape (at_tile (axes 0 shape tile) idx) = (starts (axes 0 shape tile) idx, sizes_at (axes 0 shape tile) shape idx).
Proof.
  intros H.
  assert (G : forall sh ti, tiling sh ti -> forall k pre1 pre2 fullp idx, length pre1 = k -> length pre2 = k -> length fullp = k -> idx_ok (axes k sh ti) idx ->
    fold_left (fun (acc : list Z * list Z) ds =>
      let '(pos, size) := acc in let '(d, (p, idx)) := ds in
      if it_order d =? -1 then acc
      else let dim := Z.to_nat (it_order d) in
         (set_at dim (uwrap 32 p) pos, set_at dim (tile_size d (nth dim (fullp ++ sh) 0) p idx) size))
      (combine (axes k sh ti) (at_tile (axes k sh ti) idx)) (pre1 ++ map (fun _ => 0) sh, pre2 ++ sh)
    = (pre1 ++ starts (axes k sh ti) idx, pre2 ++ sizes_at (axes k sh ti) sh idx)).
  { clear. intros sh ti H. induction H as [|D T sh ti [HT HD] H IH]; intros k pre1 pre2 fullp [|j idx] L1 L2 L3 Hok; cbn [axes idx_ok] in *; try contradiction.
    - reflexivity.
    - cbn [at_tile combine fold_left map]. destruct Hok as [Hj Hok].
      change (it_order (tile_dim (Z.of_nat k) D T 0)) with (Z.of_nat k). destruct (Z.eqb_spec (Z.of_nat k) (-1)); [lia|]. rewrite Nat2Z.id. cbv zeta.
      assert (S1 : forall x (l : list Z) y pre, length pre = k -> set_at k x (pre ++ y :: l) = pre ++ x :: l) by (intros x l y pre <-; apply set_at_app_mid).
      rewrite !S1 by assumption. clear S1. rewrite app_nth2 by lia. rewrite L3, Nat.sub_diag. cbn [nth].
      destruct (tile_dim_cuts (Z.of_nat k) D T 0 HT ltac:(lia) ltac:(lia)) as (N1 & Cu & _).
      pose proof (cuts_inside _ _ _ _ N1 Cu j Hj) as I. pose proof Cu as (_ & _ & _ & Sz). specialize (Sz j Hj).
      rewrite u32_id by lia.
      specialize (IH (S k) (pre1 ++ [tile_start (tile_dim (Z.of_nat k) D T 0) j]) (pre2 ++ [tile_size (tile_dim (Z.of_nat k) D T 0) D (tile_start (tile_dim (Z.of_nat k) D T 0) j) j]) (fullp ++ [D]) idx).
      rewrite !app_length in IH. cbn [length] in IH. specialize (IH ltac:(lia) ltac:(lia) ltac:(lia) Hok). rewrite <- !app_assoc in IH. cbn [app] in IH.
      etransitivity; [exact IH|]. reflexivity. }
  intros idx Hok. unfold sub_tensor. exact (G shape tile H 0%nat [] [] [] idx eq_refl eq_refl eq_refl Hok).
Qed.

Lemma axes_sizes shape tile : tiling shape tile -> forall k idx, idx_ok (axes k shape tile) idx ->
  smaller (sizes_at (axes k shape tile) shape idx) tile /\ length (starts (axes k shape tile) idx) = length shape.
Proof.
  intros H. induction H as [|D T shape tile [HT HD] H IH]; intros k [|j idx] Hok; cbn [axes idx_ok sizes_at starts] in *; try contradiction.
  - split; [apply Forall2_nil|reflexivity].
  - destruct Hok as [Hj Hok]. destruct (IH (S k) idx Hok) as [S L]. split; [|cbn [length]; lia].
    apply Forall2_cons; [|exact S]. destruct (tile_dim_cuts (Z.of_nat k) D T 0 HT ltac:(lia) ltac:(lia)) as (_ & _ & Hlen). specialize (Hlen ltac:(lia) j Hj). lia.
Qed.

Lemma in_box_valid : forall pos size c, length pos = length size -> (in_box pos size c <-> valid size (vsub c pos) /\ length c = length pos).
Proof.
  induction pos as [|p pos IH]; intros [|s size] [|x c] L; try discriminate; unfold in_box.
  - cbn. split; [intros _; auto|]. intros _. split; [reflexivity|]. intros a Ha. cbn in Ha. lia.
  - cbn. split; [intros []|intros [? ?]]; discriminate.
  - cbn [valid vsub length]. split; [intros [? _]; discriminate|intros [[] _]].
  - injection L as L. specialize (IH size c L). unfold in_box in IH. cbn [valid vsub length]. split.
    + intros [L1 I]. injection L1 as L1. pose proof (I 0%nat ltac:(lia)) as I0. cbn [nth] in I0.
      assert (R : valid size (vsub c pos) /\ length c = length pos).
      { apply IH. split; [exact L1|]. intros a Ha. exact (I (S a) ltac:(lia)). }
      split; [split; [lia|tauto]|lia].
    + intros [[I0 V] L1]. injection L1 as L1. split; [lia|]. destruct (proj2 IH (conj V L1)) as [_ I].
      intros [|a] Ha; cbn [nth]; [lia|apply I; lia].
Qed.

(** What the tiles of an iterator are: every one lies inside the tensor and is at most as large as the tile size; every element of the
    tensor is in exactly one. *)
Lemma tiles_iter_run shape tile stride n : tiling shape tile ->
  ti_run (tiles_iter shape tile stride) n = mkTi (axes 0 shape tile) shape stride (at_tile (axes 0 shape tile) (idx_at (axes 0 shape tile) n)).
Proof. intros H. unfold tiles_iter. rewrite tile_cfg_axes by (apply tiling_length; exact H). apply ti_run_at. apply axes_counts; exact H. Qed.

Lemma tiles_iter_tile shape tile stride n : tiling shape tile -> let i := ti_run (tiles_iter shape tile stride) n in
  smaller (ti_size i) tile /\ length (ti_pos i) = length shape /\ ti_stride i = stride /\ ti_cfg i = axes 0 shape tile
  /\ ti_size i = sizes_at (axes 0 shape tile) shape (idx_at (axes 0 shape tile) n) /\ ti_pos i = starts (axes 0 shape tile) (idx_at (axes 0 shape tile) n).
Proof.
  intros H i. unfold i. rewrite tiles_iter_run by exact H. unfold ti_size. cbn [ti_cfg ti_shape ti_stride ti_st].
  pose proof (idx_at_ok _ n (axes_counts _ _ H 0)) as Hok. rewrite ti_pos_at. rewrite axes_sub by assumption. cbn [snd].
  destruct (axes_sizes shape tile H 0 _ Hok). tauto.
Qed.

Lemma smaller_length a b : smaller a b -> length a = length b.
Proof. intros H. induction H; cbn; auto. Qed.

Lemma tiles_iter_cover shape tile stride c : tiling shape tile -> valid shape c ->
  let i n := ti_run (tiles_iter shape tile stride) n in
  exists n, (Z.of_nat n < total_count (axes 0 shape tile) /\ valid (ti_size (i n)) (vsub c (ti_pos (i n))))
    /\ forall n', Z.of_nat n' < total_count (axes 0 shape tile) -> valid (ti_size (i n')) (vsub c (ti_pos (i n'))) -> n' = n.
Proof.
  intros H V i. set (bufs := repeat (mkBdim 0 0 0 0) (length shape)). pose proof (tiling_length _ _ H) as L.
  pose proof (tiles_partition shape tile (seq 0 (length shape)) 0 bufs 1) as P. rewrite tile_cfg_axes in P by exact L. cbv zeta in P.
  assert (N : forall a, (a < length shape)%nat -> 1 <= nth a tile 0 <= nth a shape 0 /\ nth a shape 0 + 2 * nth a tile 0 < 2 ^ 31).
  { clear - H. induction H as [|D T shape tile HT H IH]; intros [|a] Ha; cbn [nth length] in *; try lia. apply IH. lia. }
  pose proof (axes_counts _ _ H 0) as Hc.
  assert (La : length (axes 0 shape tile) = length shape).
  { clear - H. generalize 0%nat. induction H; intros k; cbn [axes length]; auto. }
  assert (B : forall n, in_box (fst (sub_tensor (axes 0 shape tile) shape (fst (iter_run (axes 0 shape tile) bufs 1 n)))) (snd (sub_tensor (axes 0 shape tile) shape (fst (iter_run (axes 0 shape tile) bufs 1 n)))) c
    <-> valid (ti_size (i n)) (vsub c (ti_pos (i n)))).
  { intros n. rewrite <- (ti_run_iter (axes 0 shape tile) shape stride bufs 1 n Hc) by (unfold bufs; rewrite repeat_length; lia).
    rewrite ti_run_at by exact Hc. cbn [ti_st]. pose proof (idx_at_ok _ n Hc) as Hok. rewrite axes_sub by assumption. cbn [fst snd].
    destruct (tiles_iter_tile shape tile stride n H) as (Sm & Lp & _ & _ & Es & Ep). fold (i n) in Sm, Lp, Es, Ep. rewrite <- Es, <- Ep.
    rewrite in_box_valid by (rewrite (smaller_length _ _ Sm), Lp; symmetry; exact L). pose proof (valid_length _ _ V). split; [tauto|]. intros ?; split; [assumption|lia]. }
  destruct P with (c := c) as (n & [Hn Hin] & Hu).
  - split; [apply seq_NoDup|]. split; [apply seq_length|]. apply Forall_forall. intros a Ha. apply in_seq in Ha. lia.
  - exact N.
  - intros a Ha. apply in_seq in Ha. specialize (N a ltac:(lia)). lia.
  - unfold bufs. rewrite repeat_length, seq_length. reflexivity.
  - exact V.
  - exists (Z.to_nat n). split; [split; [lia|apply B; exact Hin]|].
    intros n' Hn' Hv. apply B in Hv. rewrite <- (Nat2Z.id n') in Hv. apply Hu in Hv; lia.
Qed.

Lemma vadd_vsub : forall a b, length a = length b -> vadd b (vsub a b) = a.
Proof. induction a as [|x a IH]; intros [|y b] L; try discriminate; [reflexivity|]. cbn [vsub vadd]. rewrite IH by (cbn in L; lia). f_equal. ring. Qed.

Lemma tiles_iter_inside shape tile stride n c : tiling shape tile -> let i := ti_run (tiles_iter shape tile stride) n in
  valid (ti_size i) c -> valid shape (vadd (ti_pos i) c).
Proof.
  intros H i. unfold i. destruct (tiles_iter_tile shape tile stride n H) as (_ & _ & _ & _ & -> & ->).
  pose proof (idx_at_ok _ n (axes_counts _ _ H 0)) as Hok. revert Hok. generalize (idx_at (axes 0 shape tile) n). clear i n stride. generalize 0%nat.
  revert c. induction H as [|D T shape tile [HT HD] H IH]; intros c k [|j idx] Hok; cbn [axes idx_ok sizes_at starts] in *; try contradiction.
  - destruct c; [|intros []]. auto.
  - destruct Hok as [Hj Hok]. destruct c as [|x c]; [intros []|]. cbn [valid vadd]. intros [Hx V]. split; [|apply (IH c (S k) idx Hok V)].
    destruct (tile_dim_cuts (Z.of_nat k) D T 0 HT ltac:(lia) ltac:(lia)) as (N1 & Cu & _). pose proof (cuts_inside _ _ _ _ N1 Cu j Hj) as I. lia.
Qed.

(** * All tiles *)

(** The general statement: if every Issue produces its part of [Y] in the output tile, all parts of [Y] are produced. [it] is the iterator
    of the output, [bo] its local buffer. *)
Definition whole_result (issue : nat -> option mem) (it : titer) (bo : lbuf) (m : nat -> mem) (Y : list Z -> Z) : Prop :=
  let tile n := tile_of bo (ti_run it n) in let off n := ti_pos (ti_run it n) in let total := total_count (ti_cfg it) in
  exists out : nat -> mem,
    (forall n, Z.of_nat n < total -> issue n = Some (out n) /\ frame_ok (tile n) (m n) (out n))
    /\ forall c, valid (ti_shape it) c ->
       exists n, (Z.of_nat n < total /\ in_tile (tile n) (off n) c /\ tile_value (out n) (tile n) (off n) c = Some (Y c))
         /\ forall n', Z.of_nat n' < total -> in_tile (tile n') (off n') c -> n' = n.

Lemma tiles_whole issue shape tile stride bo m Y : tiling shape tile -> let it := tiles_iter shape tile stride in
  (forall n, Z.of_nat n < total_count (ti_cfg it) ->
     exists m', issue n = Some m' /\ holds m' (tile_of bo (ti_run it n)) Y (ti_pos (ti_run it n)) /\ frame_ok (tile_of bo (ti_run it n)) (m n) m') ->
  whole_result issue it bo m Y.
Proof.
  intros H it T. unfold whole_result. exists (fun n => match issue n with Some x => x | None => m n end). split.
  - intros n Hn. destruct (T n Hn) as (m' & -> & _ & Fr). auto.
  - intros c V. change (ti_shape it) with shape in V. destruct (tiles_iter_cover shape tile stride c H V) as (n & [Hn Hin] & Hu). fold it in Hin, Hu.
    assert (Ec : ti_cfg it = axes 0 shape tile) by (unfold it, tiles_iter, ti_new; cbn [ti_cfg]; apply tile_cfg_axes; apply tiling_length; exact H). rewrite Ec in *.
    exists n. split; [|exact Hu]. split; [exact Hn|]. split; [exact Hin|]. destruct (T n Hn) as (m' & -> & Hh & _).
    unfold tile_value. etransitivity; [exact (Hh _ Hin)|]. rewrite vadd_vsub; [reflexivity|].
    destruct (tiles_iter_tile shape tile stride n H) as (_ & Lp & _). fold it in Lp. rewrite Lp. apply (valid_length _ _ V).
Qed.

(** A tile in its buffer: passes the library's checks and lies in allocated memory. *)
Definition usable (t : tensor) (m : mem) : Prop := fits32 t /\ chk_tensor t = ST_OK /\ backed t m.

(** A buffer with room for a full tile has room for every tile. *)
Theorem tile_usable shape tile stride b m n : tiling shape tile ->
  usable (mkTensor (lb_data b) (lb_cap b) (lb_esz b) tile stride false (-1) 0) m -> usable (tile_of b (ti_run (tiles_iter shape tile stride) n)) m.
Proof.
  intros H (F & C & Bk). destruct (tiles_iter_tile shape tile stride n H) as (Sm & _ & Es & _).
  unfold tile_of. rewrite Es. set (t := mkTensor (lb_data b) (lb_cap b) (lb_esz b) (ti_size (ti_run (tiles_iter shape tile stride) n)) stride false (-1) 0).
  destruct (chk_tensor_smaller _ t F C Sm eq_refl eq_refl eq_refl) as [F' C']. split; [exact F'|]. split; [exact C'|exact Bk].
Qed.

Theorem tile_legal shape tile stride b m n : tiling shape tile ->
  legal (mkTensor (lb_data b) (lb_cap b) (lb_esz b) tile stride false (-1) 0) m -> legal (tile_of b (ti_run (tiles_iter shape tile stride) n)) m.
Proof.
  intros H L. destruct (tiles_iter_tile shape tile stride n H) as (Sm & _ & Es & _). unfold tile_of. rewrite Es.
  exact (legal_smaller _ m _ L Sm).
Qed.

Lemma holds_rd m t X off c : holds m t X off -> valid (t_shape t) c -> rd m (t_data t + addr (t_stride t) c) = X (vadd off c).
Proof. intros H V. unfold rd. rewrite (H c V). reflexivity. Qed.

(** * Clip *)

Lemma un_updates_val n i o bi bo : un_updates n (un_create i o bi bo) = un_create (ti_run i n) (ti_run o n) bi bo.
Proof. induction n as [|n IH]; cbn [un_updates ti_run]; [reflexivity|]. rewrite IH. reflexivity. Qed.

(** The tiles of input and output have the same shape and offset. *)
Lemma tiles_same shape tile s1 s2 n : tiling shape tile ->
  ti_size (ti_run (tiles_iter shape tile s1) n) = ti_size (ti_run (tiles_iter shape tile s2) n) /\ ti_pos (ti_run (tiles_iter shape tile s1) n) = ti_pos (ti_run (tiles_iter shape tile s2) n).
Proof.
  intros H. destruct (tiles_iter_tile shape tile s1 n H) as (_ & _ & _ & _ & -> & ->). destruct (tiles_iter_tile shape tile s2 n H) as (_ & _ & _ & _ & -> & ->). auto.
Qed.

(** C71: Clip. Input and output buffer may coincide ([unary_ok]). *)
Theorem clip_tiles_whole shape tile si so bi bo pm p lo hi X (m : nat -> mem) :
  tiling shape tile -> pm p = Some lo -> pm (p + 1) = Some hi ->
  let it := tiles_iter shape tile so in let ob n := un_updates n (un_create (tiles_iter shape tile si) it bi bo) in
  (forall n, Z.of_nat n < total_count (ti_cfg it) ->
     usable (uo_tin (ob n)) (m n) /\ usable (uo_tout (ob n)) (m n) /\ unary_ok (uo_tin (ob n)) (uo_tout (ob n))
     /\ holds (m n) (uo_tin (ob n)) X (ti_pos (uo_in (ob n)))) ->
  whole_result (fun n => clip_issue pm p (ob n) (m n)) it bo m (fun c => Z.min (Z.max (X c) lo) hi).
Proof.
  intros H Hlo Hhi it ob Hr. apply tiles_whole; [exact H|]. intros n Hn. specialize (Hr n Hn). fold it in Hn |- *.
  unfold ob in *. rewrite un_updates_val in *. unfold un_create in *. cbn [uo_in uo_out uo_tin uo_tout] in *.
  destruct (tiles_same shape tile si so n H) as [Es Ep]. fold it in Es, Ep.
  destruct Hr as ((F1 & C1 & B1) & (F2 & C2 & B2) & Hu & Hx).
  destruct (chk_tensor_pos _ C1 (proj1 F1)) as (R4 & _). destruct (chk_tensor_nested _ F2 C2) as (N2 & _).
  assert (Esh : t_shape (tile_of bi (ti_run (tiles_iter shape tile si) n)) = t_shape (tile_of bo (ti_run it n))) by exact Es.
  destruct (clip_correct lo hi (tile_of bi (ti_run (tiles_iter shape tile si) n)) (tile_of bo (ti_run it n)) (m n)) as (m' & E & V & Fr).
  - exact R4.
  - symmetry. exact (proj1 F1).
  - rewrite Esh. symmetry. exact (proj1 F2).
  - symmetry. exact Esh.
  - intros c Hc. split; [apply (chk_backed _ _ F1 C1 B1 c Hc)|]. rewrite Esh in Hc. apply (chk_backed _ _ F2 C2 B2 c Hc).
  - rewrite Esh. intros c c' Hc Hc' Ea. exact (nested_inj _ _ _ _ N2 Hc Hc' Ea).
  - exact Hu.
  - exists m'. unfold clip_issue, load. rewrite Hlo, Hhi. cbn [bind uo_tin uo_tout]. split; [exact E|]. split.
    + intros c Hc. rewrite <- Esh in Hc. rewrite (V c Hc). rewrite (holds_rd _ _ _ _ _ Hx Hc), Ep. reflexivity.
    + unfold frame_ok. rewrite <- Esh. exact Fr.
Qed.

(** * Rescale and Prelu: parameters along an axis *)

Lemma nth_vadd : forall a b k, length a = length b -> nth k (vadd a b) 0 = nth k a 0 + nth k b 0.
Proof. induction a as [|x a IH]; intros [|y b] [|k] L; try discriminate; cbn [vadd nth]; try reflexivity. apply IH. cbn in L. lia. Qed.

(** Entry [k] of a local parameter array is entry [off + k] of the whole one. *)
Definition part_of (p : mem) (off cnt : Z) (P : Z -> Z) : Prop := forall k, 0 <= k < cnt -> p k = Some (P (off + k)).

(** The part of the parameters that a tile with the given shape and offset needs: all of it without an axis. *)
Definition part_off (axis : Z) (off : list Z) : Z := if axis <? 0 then 0 else nth (Z.to_nat axis) off 0.
Definition part_cnt (axis : Z) (size : list Z) : Z := if axis <? 0 then 1 else nth (Z.to_nat axis) size 0.

Lemma part_index axis off c size : valid size c -> length off = length size -> axis < Z.of_nat (length size) ->
  0 <= prelu3_index axis c < part_cnt axis size /\ prelu3_index axis (vadd off c) = part_off axis off + prelu3_index axis c.
Proof.
  intros V L Ha. unfold prelu3_index, part_cnt, part_off. destruct (Z.ltb_spec axis 0); [lia|]. pose proof (valid_length _ _ V).
  split; [apply (valid_split (Z.to_nat axis)); [exact V|lia]|]. apply nth_vadd. lia.
Qed.

Lemma part_rd p off cnt P k : part_of p off cnt P -> 0 <= k < cnt -> rd p k = P (off + k) /\ allocated p k.
Proof. intros H Hk. unfold rd, allocated. rewrite (H k Hk). split; [reflexivity|discriminate]. Qed.

(** C71: Rescale from 32 or 8 bits to 8 bits. [BI], [SC], [SH] and [BO] are the parameters of the whole tensor, indexed along the axis;
    the parameter buffer ([p0] when the object is created, [p n] at tile [n]) holds the part of the tile. *)
Theorem rescale_tiles_whole rm axis shape tile si so bi bo p0 p BI SC SH BO X (mi m : nat -> mem) :
  tiling shape tile -> axis < Z.of_nat (length shape) -> lb_esz bi = 4 \/ lb_esz bi = 1 -> lb_esz bo = 1 ->
  let ni := 8 * lb_esz bi in
  let it := tiles_iter shape tile so in let ob n := un_updates n (un_create (tiles_iter shape tile si) it bi bo) in
  let pp n := if axis <? 0 then p0 else p n in
  (forall n, Z.of_nat n < total_count (ti_cfg it) ->
     usable (uo_tin (ob n)) (mi n) /\ usable (uo_tout (ob n)) (m n) /\ mem_bits ni (mi n)
     /\ holds (mi n) (uo_tin (ob n)) X (ti_pos (uo_in (ob n)))
     /\ mem_bits ni (rs_bias_in (pp n)) /\ mem_bits 16 (rs_scale (pp n)) /\ mem_bits 8 (rs_bias_out (pp n))
     /\ let off := part_off axis (ti_pos (uo_in (ob n))) in let cnt := part_cnt axis (t_shape (uo_tin (ob n))) in
        part_of (rs_bias_in (pp n)) off cnt BI /\ part_of (rs_scale (pp n)) off cnt SC /\ part_of (rs_shift (pp n)) off cnt SH /\ part_of (rs_bias_out (pp n)) off cnt BO) ->
  whole_result (fun n => rescale_run rm axis p0 (p n) (ob n) (mi n) (m n)) it bo m
    (fun c => let k := prelu3_index axis c in rescale_exact rm ni 8 (X c) (BI k) (BO k) (SC k) (SH k)).
Proof.
  intros H Ha Hni Hno ni it ob pp Hr. apply tiles_whole; [exact H|]. intros n Hn. specialize (Hr n Hn). fold it in Hn |- *.
  unfold ob in *. rewrite un_updates_val in *. unfold un_create in *. cbn [uo_in uo_out uo_tin uo_tout] in *.
  destruct (tiles_same shape tile si so n H) as [Es Ep]. fold it in Es, Ep.
  destruct (tiles_iter_tile shape tile si n H) as (Sm & Lp & _).
  set (tin := tile_of bi (ti_run (tiles_iter shape tile si) n)) in *. set (tout := tile_of bo (ti_run it n)) in *.
  assert (Esh : t_shape tin = t_shape tout) by exact Es.
  assert (Lt : length (t_shape tin) = length shape) by (change (t_shape tin) with (ti_size (ti_run (tiles_iter shape tile si) n)); rewrite (smaller_length _ _ Sm); apply tiling_length; exact H).
  destruct Hr as ((F1 & C1 & B1) & (F2 & C2 & B2) & Mb & Hx & M1 & M2 & M3 & Q1 & Q2 & Q3 & Q4).
  destruct (chk_tensor_pos _ C1 (proj1 F1)) as (R4 & _). destruct (chk_tensor_nested _ F2 C2) as (N2 & _).
  destruct (rescale_correct rm ni 8 (pp n) axis tin tout (mi n) (m n)) as (m' & E & V & Fr).
  - unfold ni. lia.
  - lia.
  - exact R4.
  - symmetry. exact (proj1 F1).
  - rewrite Esh. symmetry. exact (proj1 F2).
  - lia.
  - split; [|auto]. intros k Hk. repeat split; eapply part_rd; eassumption.
  - exact Mb.
  - intros c Hc. split; [apply (chk_backed _ _ F1 C1 B1 c Hc)|]. rewrite Esh in Hc. apply (chk_backed _ _ F2 C2 B2 c Hc).
  - rewrite Esh. intros c c' Hc Hc' Ea. exact (nested_inj _ _ _ _ N2 Hc Hc' Ea).
  - exists m'. split; [|split].
    + unfold rescale_run. cbn [uo_tin uo_tout]. change (t_esz tin) with (lb_esz bi). change (t_esz tout) with (lb_esz bo). rewrite Hno.
      assert (Ei : rescale_issue (lb_esz bi) 1 = Some (lb_esz bi, 1)) by (destruct Hni as [-> | ->]; reflexivity). rewrite Ei. exact E.
    + intros c Hc. rewrite <- Esh in Hc. rewrite (V c Hc). cbv zeta. rewrite (holds_rd _ _ _ _ _ Hx Hc), Ep in *.
      destruct (part_index axis (ti_pos (ti_run it n)) c (t_shape tin) Hc ltac:(lia) ltac:(lia)) as [Hk Ek]. rewrite Ek.
      destruct (part_rd _ _ _ _ _ Q1 Hk) as [-> _]. destruct (part_rd _ _ _ _ _ Q2 Hk) as [-> _]. destruct (part_rd _ _ _ _ _ Q3 Hk) as [-> _]. destruct (part_rd _ _ _ _ _ Q4 Hk) as [-> _]. reflexivity.
    + unfold frame_ok. rewrite <- Esh. exact Fr.
Qed.

(** C71: Prelu from 32 to 8 bits. *)
Theorem prelu_tiles_whole rm axis shape tile si so bi bo p BI PS NS PK NK BO X (mi m : nat -> mem) :
  tiling shape tile -> axis < Z.of_nat (length shape) ->
  (forall c, valid shape c -> in_bits 32 (X c - BI (prelu3_index axis c))) ->
  let it := tiles_iter shape tile so in let ob n := un_updates n (un_create (tiles_iter shape tile si) it bi bo) in
  (forall n, Z.of_nat n < total_count (ti_cfg it) ->
     usable (uo_tin (ob n)) (mi n) /\ usable (uo_tout (ob n)) (m n) /\ mem_bits 32 (mi n)
     /\ holds (mi n) (uo_tin (ob n)) X (ti_pos (uo_in (ob n)))
     /\ mem_bits 32 (p3_bias_in (p n)) /\ mem_bits 16 (p3_posscale (p n)) /\ mem_bits 16 (p3_negscale (p n)) /\ mem_bits 8 (p3_bias_out (p n))
     /\ let off := part_off axis (ti_pos (uo_in (ob n))) in let cnt := part_cnt axis (t_shape (uo_tin (ob n))) in
        part_of (p3_bias_in (p n)) off cnt BI /\ part_of (p3_posscale (p n)) off cnt PS /\ part_of (p3_negscale (p n)) off cnt NS
        /\ part_of (p3_posshift (p n)) off cnt PK /\ part_of (p3_negshift (p n)) off cnt NK /\ part_of (p3_bias_out (p n)) off cnt BO) ->
  whole_result (fun n => prelu_run rm axis (p n) (ob n) (mi n) (m n)) it bo m
    (fun c => let k := prelu3_index axis c in prelu3_exact rm 8 (X c - BI k) (BO k) (PS k) (PK k) (NS k) (NK k)).
Proof.
  intros H Ha Hd it ob Hr. apply tiles_whole; [exact H|]. intros n Hn. specialize (Hr n Hn). fold it in Hn |- *.
  unfold ob in *. rewrite un_updates_val in *. unfold un_create in *. cbn [uo_in uo_out uo_tin uo_tout] in *.
  destruct (tiles_same shape tile si so n H) as [Es Ep]. fold it in Es, Ep.
  destruct (tiles_iter_tile shape tile si n H) as (Sm & Lp & _).
  assert (Ins : forall c, valid (ti_size (ti_run (tiles_iter shape tile si) n)) c -> valid shape (vadd (ti_pos (ti_run (tiles_iter shape tile si) n)) c)) by (intros c Hc; exact (tiles_iter_inside shape tile si n c H Hc)).
  set (tin := tile_of bi (ti_run (tiles_iter shape tile si) n)) in *. set (tout := tile_of bo (ti_run it n)) in *.
  assert (Esh : t_shape tin = t_shape tout) by exact Es.
  assert (Lt : length (t_shape tin) = length shape) by (change (t_shape tin) with (ti_size (ti_run (tiles_iter shape tile si) n)); rewrite (smaller_length _ _ Sm); apply tiling_length; exact H).
  destruct Hr as ((F1 & C1 & B1) & (F2 & C2 & B2) & Mb & Hx & M1 & M2 & M3 & M4 & Q1 & Q2 & Q3 & Q4 & Q5 & Q6).
  destruct (chk_tensor_nested _ F2 C2) as (N2 & _). rewrite Ep in *.
  assert (Idx : forall c, valid (t_shape tin) c -> 0 <= prelu3_index axis c < part_cnt axis (t_shape tin)
     /\ prelu3_index axis (vadd (ti_pos (ti_run it n)) c) = part_off axis (ti_pos (ti_run it n)) + prelu3_index axis c).
  { intros c Hc. apply part_index; [exact Hc|lia|lia]. }
  destruct (prelu3_correct rm 8 (p n) axis tin tout (mi n) (m n)) as (m' & E & V & Fr).
  - lia.
  - lia.
  - split; [|auto]. intros k Hk. repeat split; eapply part_rd; eassumption.
  - exact Mb.
  - intros c Hc. split; [apply (chk_backed _ _ F1 C1 B1 c Hc)|]. rewrite Esh in Hc. apply (chk_backed _ _ F2 C2 B2 c Hc).
  - rewrite Esh. intros c c' Hc Hc' Ea. exact (nested_inj _ _ _ _ N2 Hc Hc' Ea).
  - intros c Hc. rewrite (holds_rd _ _ _ _ _ Hx Hc). destruct (Idx c Hc) as [Hk Ek]. destruct (part_rd _ _ _ _ _ Q1 Hk) as [-> _]. rewrite <- Ek. apply Hd. apply Ins. exact Hc.
  - exists m'. split; [exact E|]. split.
    + intros c Hc. rewrite <- Esh in Hc. rewrite (V c Hc). cbv zeta. rewrite (holds_rd _ _ _ _ _ Hx Hc). destruct (Idx c Hc) as [Hk Ek]. rewrite Ek.
      destruct (part_rd _ _ _ _ _ Q1 Hk) as [-> _]. destruct (part_rd _ _ _ _ _ Q2 Hk) as [-> _]. destruct (part_rd _ _ _ _ _ Q3 Hk) as [-> _].
      destruct (part_rd _ _ _ _ _ Q4 Hk) as [-> _]. destruct (part_rd _ _ _ _ _ Q5 Hk) as [-> _]. destruct (part_rd _ _ _ _ _ Q6 Hk) as [-> _]. reflexivity.
    + unfold frame_ok. rewrite <- Esh. exact Fr.
Qed.

(** ** The reported parameter size *)

Fixpoint encs (a k : nat) (shape tile : list Z) : list idim :=
  match shape, tile with
  | D :: shape', T :: tile' => (let d := tile_dim (Z.of_nat k) D T 0 in
      if Nat.eqb k a then mkIdim 0 (it_count d) (it_first_inc d) (it_inc d) (it_last_inc d) (it_first_size d) (it_size d) (it_last_size d)
      else mkIdim (-1) (it_count d) 0 0 0 0 0 0) :: encs a (S k) shape' tile'
  | _, _ => []
  end.

Lemma mask_encs a one shape tile : length tile = length shape -> forall k fuel one',
  ((k <= a)%nat -> one' = one) ->
  mask_cfg (axes k shape tile) (map (fun j => negb (Nat.eqb j a)) (seq k (length shape))) (map (fun j => if Nat.eqb j a then 0 else -1) (seq k (length shape))) fuel one' = encs a k shape tile.
Proof.
  revert tile. induction shape as [|D shape IH]; intros [|T tile] L k fuel one' E; try discriminate; [reflexivity|].
  cbn [length seq map axes encs]. cbn [mask_cfg]. injection L as L. destruct (Nat.eqb_spec k a) as [->|Hk].
  - cbn [negb]. change (0 =? -1) with false. cbv iota. destruct fuel; f_equal; apply IH; try exact L; intros; lia.
  - cbn [negb]. change (-1 =? -1) with true. cbv iota. f_equal. apply IH; [exact L|]. intros. apply E. lia.
Qed.

Lemma encs_counts a shape tile : forall k, map it_count (encs a k shape tile) = map it_count (axes k shape tile).
Proof.
  revert tile. induction shape as [|D shape IH]; intros [|T tile] k; try reflexivity. cbn [encs axes map]. rewrite IH. destruct (Nat.eqb k a); reflexivity.
Qed.

Lemma encs_fold a one shape tile : tiling shape tile -> forall k idx acc, idx_ok (axes k shape tile) idx -> length (snd acc) = 1%nat -> length (fst acc) = 1%nat ->
  ((k <= a < k + length shape)%nat -> one = [nth (a - k) shape 0]) ->
  snd (fold_left (fun (acc : list Z * list Z) ds =>
      let '(pos, size) := acc in let '(d, (p, idx)) := ds in
      if it_order d =? -1 then acc
      else let dim := Z.to_nat (it_order d) in
         (set_at dim (uwrap 32 p) pos, set_at dim (tile_size d (nth dim one 0) p idx) size))
      (combine (encs a k shape tile) (at_tile (encs a k shape tile) idx)) acc)
  = if andb (Nat.leb k a) (Nat.ltb a (k + length shape)) then [nth (a - k) (sizes_at (axes k shape tile) shape idx) 0] else snd acc.
Proof.
  intros H. induction H as [|D T shape tile [HT HD] H IH]; intros k [|j idx] acc Hok L1 L2 E; cbn [axes idx_ok] in Hok; try contradiction.
  - cbn [encs at_tile combine fold_left length]. destruct (Nat.leb_spec k a), (Nat.ltb_spec a (k + 0)); cbn [andb]; try reflexivity. lia.
  - destruct Hok as [Hj Hok]. cbn [encs axes]. destruct acc as [[|x [|]] [|y [|]]]; try discriminate. cbn [length] in *.
    destruct (Nat.eqb_spec k a) as [->|Hk].
    + cbn [at_tile combine fold_left]. cbv zeta. cbn [it_order]. change (0 =? -1) with false. cbv iota. change (Z.to_nat 0) with 0%nat.
      assert (E1 : nth 0 one 0 = D) by (rewrite E by lia; rewrite Nat.sub_diag; reflexivity). rewrite E1 at 1. cbn [set_at].
      rewrite IH; [|exact Hok|reflexivity|reflexivity|intros; lia]. cbn [snd].
      destruct (Nat.leb_spec (S a) a); [lia|]. cbn [andb]. destruct (Nat.leb_spec a a); [|lia]. destruct (Nat.ltb_spec a (a + S (length shape))); [|lia]. rewrite Nat.sub_diag. reflexivity.
    + cbn [at_tile combine fold_left]. cbv zeta. cbn [it_order]. change (-1 =? -1) with true. cbv iota.
      rewrite IH; [|exact Hok|reflexivity|reflexivity|].
      * cbn [snd]. destruct (Nat.leb_spec (S k) a), (Nat.leb_spec k a), (Nat.ltb_spec a (S k + length shape)), (Nat.ltb_spec a (k + S (length shape))); cbn [andb]; try reflexivity; try lia.
        cbn [sizes_at]. replace (a - k)%nat with (S (a - S k)) by lia. reflexivity.
      * intros Hr. rewrite E by lia. replace (a - k)%nat with (S (a - S k)) by lia. reflexivity.
Qed.

(** C71: the parameter size that the objects report for a tile is the size of the tile along the axis, the local arrays have room for it,
    and the reported offsets are those at which the arrays are read. *)
Theorem enc_size_ok shape tile stride axis n : tiling shape tile -> (axis < length shape)%nat -> let e := ti_run (enc_iter shape tile axis) n in
  enc_size e = nth axis (ti_size (ti_run (tiles_iter shape tile stride) n)) 0 /\ 1 <= enc_size e <= enc_max (Z.of_nat axis) e /\ enc_max (Z.of_nat axis) e = nth axis tile 0.
Proof.
  intros H Ha e. pose proof (tiling_length _ _ H) as L. pose proof (axes_counts _ _ H 0) as Hc.
  assert (Ee : e = mkTi (encs axis 0 shape tile) [nth axis shape 0] [1] (at_tile (encs axis 0 shape tile) (idx_at (axes 0 shape tile) n))).
  { unfold e, enc_iter. cbv zeta. rewrite tile_cfg_axes by exact L. rewrite (mask_encs axis [nth axis shape 0] shape tile L 0 1 [nth axis shape 0] (fun _ => eq_refl)).
    rewrite ti_run_at by (apply (counts_map _ _ (encs_counts axis shape tile 0) Hc)). f_equal. f_equal. apply idx_at_counts. apply encs_counts. }
  pose proof (idx_at_ok _ n Hc) as Hok. destruct (tiles_iter_tile shape tile stride n H) as (Sm & _ & _ & _ & Es & _).
  assert (E1 : enc_size e = nth axis (ti_size (ti_run (tiles_iter shape tile stride) n)) 0).
  { rewrite Ee. unfold enc_size, ti_size, sub_tensor. cbn [ti_cfg ti_shape ti_st]. 
    rewrite (encs_fold axis [nth axis shape 0] shape tile H 0 _ _ Hok); [|reflexivity|reflexivity|intros; rewrite Nat.sub_0_r; reflexivity].
    destruct (Nat.ltb_spec axis (0 + length shape)); [|lia]. cbn [Nat.leb andb nth]. rewrite Nat.sub_0_r, <- Es. reflexivity. }
  assert (E2 : enc_max (Z.of_nat axis) e = nth axis tile 0).
  { rewrite Ee. unfold enc_max. destruct (Z.ltb_spec (Z.of_nat axis) 0); [lia|]. rewrite Nat2Z.id. cbn [ti_cfg].
    assert (G : forall k, nth axis (encs (k + axis) k shape tile) (mkIdim 0 0 0 0 0 0 0 0) = let d := tile_dim (Z.of_nat (k + axis)) (nth axis shape 0) (nth axis tile 0) 0 in
        mkIdim 0 (it_count d) (it_first_inc d) (it_inc d) (it_last_inc d) (it_first_size d) (it_size d) (it_last_size d)).
    { clear - H Ha. revert axis Ha. induction H as [|D T shape tile _ H IH]; intros [|a] Ha k; cbn [length] in Ha; try lia; cbn [encs nth].
      - rewrite Nat.add_0_r, Nat.eqb_refl. reflexivity.
      - replace (k + S a)%nat with (S k + a)%nat by lia. apply IH. lia. }
    specialize (G 0%nat). change (0 + axis)%nat with axis in G. rewrite G. cbv zeta. cbn [it_first_size it_size].
    assert (Q : 1 <= nth axis tile 0 <= nth axis shape 0 /\ nth axis shape 0 + 2 * nth axis tile 0 < 2 ^ 31).
    { clear - H Ha. revert axis Ha. induction H as [|D T shape tile HT H IH]; intros [|a] Ha; cbn [length nth] in *; try lia. apply IH. lia. }
    destruct (tile_dim_val (Z.of_nat axis) (nth axis shape 0) (nth axis tile 0) 0 (proj1 Q) ltac:(lia) ltac:(lia)) as (-> & _). cbn [it_first_size it_size]. lia. }
  split; [exact E1|]. split; [|exact E2]. rewrite E1, E2. clear - Sm Ha L. revert axis Ha. rewrite <- L. generalize dependent (ti_size (ti_run (tiles_iter shape tile stride) n)).
  intros sz Sm. clear L. induction Sm as [|x y sz tile Hxy Sm IH]; intros [|a] Ha; cbn [length nth] in *; try lia. apply IH. lia.
Qed.

(** The arrays follow each other without overlap. *)
Theorem param_layout_ok isz cnt : rescale_layout isz cnt = rescale_reported isz cnt /\ prelu_layout cnt = prelu_reported cnt.
Proof. unfold rescale_layout, rescale_reported, prelu_layout, prelu_reported. cbv zeta. split; repeat (f_equal; try lia). Qed.

(** * Add, Sub, Mul, Min, Max *)

(** The kernel on one tile: operands are immediate values or tiles of the output's shape. Unlike C37 this includes an immediate value
    combined with a tile of one element, which the checker of the MLI 2.0 functions rejects; the runtime objects do not call it. *)
Definition elt_opd (t tout : tensor) (m : mem) : Prop := t_rank t = 0 \/ (legal t m /\ t_shape t = t_shape tout /\ no_hazard t tout).

Lemma same_shape_refl t1 t2 : t_shape t1 = t_shape t2 -> same_shape t1 t2 = true.
Proof.
  intros E. unfold same_shape, t_rank. rewrite E, Z.eqb_refl. cbn [andb]. generalize (t_shape t2). intros l. induction l as [|x l IH]; [reflexivity|]. cbn [combine forallb fst snd]. rewrite Z.eqb_refl. exact IH.
Qed.

Lemma elt_opd_facts t tout m : elt_opd t tout m -> t_rank tout <> 0 ->
  operand_ok t m /\ no_hazard t tout /\ (if is_scalar t then chk_scalar t else chk_tensor t) = ST_OK /\ one_elem t = (prod (t_shape t) =? 1)
  /\ (is_scalar t || inner_stride_is_one t = true) /\ (t_rank t = 0 \/ (t_rank t <> 0 /\ chk_tensor t = ST_OK /\ fits32 t /\ backed t m)).
Proof.
  intros H Rt. assert (O : operand_ok t m) by (destruct H as [R|((F & C & I & B) & _)]; [left; exact R|right; auto]).
  assert (C : t_rank t = 0 \/ chk_tensor t = ST_OK) by (destruct H as [R|((F & C & I & B) & _)]; auto).
  pose proof (one_elem_prod t m O C) as E1. split; [exact O|].
  destruct H as [R|((F & Ct & I & B) & Es & Nh)].
  - unfold is_scalar, chk_scalar. rewrite R. cbn [Z.eqb orb]. split; [left; rewrite (rank0_shape t R); reflexivity|]. auto.
  - assert (Rn : t_rank t <> 0) by (unfold t_rank in *; rewrite Es; exact Rt).
    split; [exact Nh|]. split; [|split; [exact E1|split; [rewrite I; apply orb_true_r|right; auto]]].
    rewrite is_scalar_one. unfold chk_scalar. destruct (Z.eqb_spec (t_rank t) 0); [contradiction|]. rewrite Ct. destruct (one_elem t); reflexivity.
Qed.

Lemma elt_tile_run f t1 t2 tout v1 v2 m :
  elt_opd t1 tout m -> elt_opd t2 tout m -> legal tout m -> t_rank tout <> 0 -> (t_rank t1 = 0 -> t_rank t2 = 0 -> prod (t_shape tout) = 1) ->
  exists m', eltwise f t1 t2 tout v1 v2 m = Some m'
    /\ (forall c, valid (t_shape tout) c -> m' (t_data tout + addr (t_stride tout) c) = Some (f (elt_arg m t1 v1 c) (elt_arg m t2 v2 c)))
    /\ frame_ok tout m m'.
Proof.
  intros H1 H2 Lo Rt H0. destruct (elt_opd_facts t1 tout m H1 Rt) as (O1 & N1 & K1 & E1 & I1 & W1). destruct (elt_opd_facts t2 tout m H2 Rt) as (O2 & N2 & K2 & E2 & I2 & W2).
  destruct Lo as (Fo & Co & Io & Bo).
  destruct (andb (one_elem t1) (one_elem t2)) eqn:Eb.
  - apply andb_true_iff in Eb. destruct Eb as [B1 B2]. rewrite B1 in E1. rewrite B2 in E2. symmetry in E1, E2. apply Z.eqb_eq in E1, E2.
    assert (Po : prod (t_shape tout) = 1).
    { destruct H1 as [R1|(_ & <- & _)]; [|exact E1]. destruct H2 as [R2|(_ & <- & _)]; [|exact E2]. auto. }
    destruct (chk_tensor_pos tout Co (proj1 Fo)) as (_ & P & _).
    assert (V0 : valid (t_shape tout) (map (fun _ => 0) (t_shape tout))) by (clear - P; induction P; cbn [map valid]; auto; split; [lia|exact IHP]).
    pose proof (chk_backed tout m Fo Co Bo _ V0) as A. rewrite (prod1_coords _ _ (t_stride tout) P Po V0), Z.add_0_r in A.
    destruct (data_val_arg t1 m v1 [] W1) as (s1 & D1 & A1). destruct (data_val_arg t2 m v2 [] W2) as (s2 & D2 & A2).
    exists (fun b => if b =? t_data tout then Some (f s1 s2) else m b). split; [|split].
    + unfold eltwise. rewrite B1, B2, D1, D2. cbn [bind andb]. change (negb (1 =? 0)) with true. cbv iota. unfold elt_inner. change (zrange 0 1) with [0]. cbn [foldM]. unfold operand. cbn [bind]. rewrite Z.add_0_r. unfold store.
      unfold allocated in A. destruct (m (t_data tout)); [reflexivity|congruence].
    + intros c Hc. rewrite (prod1_coords _ _ (t_stride tout) P Po Hc), Z.add_0_r.
      destruct (data_val_arg t1 m v1 c W1) as (s1' & D1' & A1'). destruct (data_val_arg t2 m v2 c W2) as (s2' & D2' & A2').
      assert (s1' = s1) by congruence. assert (s2' = s2) by congruence. subst. rewrite A1', A2' by assumption. rewrite Z.eqb_refl. reflexivity.
    + intros a Ha. specialize (Ha _ V0). rewrite (prod1_coords _ _ (t_stride tout) P Po V0), Z.add_0_r in Ha. destruct (Z.eqb_spec a (t_data tout)); [contradiction|reflexivity].
  - apply eltwise_loop; try assumption. unfold chk_eltwise. rewrite K1, K2, Co.
    assert (Hr : (t_rank t1 =? 0) && (t_rank t2 =? 0) = false).
    { destruct (Z.eqb_spec (t_rank t1) 0) as [R1|]; [|reflexivity]. destruct (Z.eqb_spec (t_rank t2) 0) as [R2|]; [|reflexivity]. exfalso.
      rewrite (rank0_shape t1 R1) in E1. rewrite (rank0_shape t2 R2) in E2. cbn in E1, E2. rewrite E1, E2 in Eb. discriminate. }
    rewrite Hr, I1, I2, Io. cbn [andb negb].
    assert (Sh : forall t, elt_opd t tout m -> is_scalar t = false -> t_shape t = t_shape tout).
    { intros t Ht Hs. destruct Ht as [R|(_ & E & _)]; [|exact E]. unfold is_scalar in Hs. rewrite R in Hs. discriminate. }
    destruct (is_scalar t1) eqn:S1, (is_scalar t2) eqn:S2; cbn [orb andb negb].
    + rewrite is_scalar_one in S1, S2. rewrite S1, S2 in Eb. discriminate.
    + rewrite (same_shape_refl t2 tout) by (apply Sh; auto). reflexivity.
    + rewrite (same_shape_refl t1 tout) by (apply Sh; auto). reflexivity.
    + rewrite (same_shape_refl t1 t2) by (rewrite (Sh t1), (Sh t2); auto). rewrite (same_shape_refl t1 tout) by (apply Sh; auto). reflexivity.
Qed.

(** Shapes: an operand has the shape of the output, or is a scalar (all dimensions are 1). *)
Definition ones (sh : list Z) : list Z := map (fun _ => 1) sh.
Definition elt_shapes (shl shr shape : list Z) : Prop := (shl = shape /\ (shr = shape \/ shr = ones shape)) \/ (shl = ones shape /\ shr = shape).

(** The tile size of an operand. *)
Definition opd_tile (sh tile : list Z) : list Z := if elt_cs_scalar sh then ones tile else tile.

(** Broadcasting: the element of the operand that is combined with output element [c]. *)
Definition bcast (sh : list Z) (L : list Z -> Z) (c : list Z) : Z := if elt_cs_scalar sh then L (map (fun _ => 0) c) else L c.

(** The operand of a tile in its buffer: nothing for a scalar, which was read when the object was created. *)
Definition opd_ready (sh : list Z) (t tout : tensor) (i : titer) (L : list Z -> Z) (m : mem) : Prop :=
  elt_cs_scalar sh = true \/ (legal t m /\ no_hazard t tout /\ holds m t L (ti_pos i)).

Lemma cs_scalar_ones sh : elt_cs_scalar (ones sh) = true.
Proof. unfold elt_cs_scalar, ones. induction sh as [|x sh IH]; [reflexivity|]. cbn [map forallb]. rewrite IH. reflexivity. Qed.

Lemma cs_scalar_eq sh : elt_cs_scalar sh = true -> sh = ones sh.
Proof.
  unfold elt_cs_scalar, ones. induction sh as [|x sh IH]; [reflexivity|]. cbn [map forallb]. intros H. apply andb_true_iff in H. destruct H as [H1 H2]. f_equal; [lia|auto].
Qed.

Lemma ones_tiling sh : tiling (ones sh) (ones sh).
Proof. unfold tiling, ones. induction sh as [|x sh IH]; [apply Forall2_nil|]. apply Forall2_cons; [lia|exact IH]. Qed.

Lemma tiling_ones shape tile : tiling shape tile -> elt_cs_scalar shape = true -> tile = ones tile.
Proof.
  intros H. induction H as [|D T shape tile HT H IH]; [reflexivity|]. unfold elt_cs_scalar, ones. cbn [forallb map]. intros E. apply andb_true_iff in E. destruct E as [E1 E2].
  f_equal; [lia|]. apply IH. exact E2.
Qed.

Lemma ones_length a b : length a = length b -> ones a = ones b.
Proof. revert b. induction a as [|x a IH]; intros [|y b] L; try discriminate; [reflexivity|]. unfold ones in *. cbn [map]. f_equal. apply IH. cbn in L. lia. Qed.

(** An operand that is not a scalar has the tiles of the output. *)
Lemma opd_cases shape tile sh : tiling shape tile -> sh = shape \/ sh = ones shape ->
  tiling sh (opd_tile sh tile) /\ (elt_cs_scalar sh = true \/ (elt_cs_scalar sh = false /\ sh = shape /\ opd_tile sh tile = tile)).
Proof.
  intros H E. unfold opd_tile. destruct (elt_cs_scalar sh) eqn:S.
  - split; [|auto]. rewrite (cs_scalar_eq sh S). rewrite (ones_length tile sh); [apply ones_tiling|].
    rewrite (tiling_length _ _ H). destruct E as [-> | ->]; [reflexivity|unfold ones; rewrite map_length; reflexivity].
  - destruct E as [-> | ->]; [auto|]. rewrite cs_scalar_ones in S. discriminate.
Qed.

Definition opd_tensor (sh : list Z) (b : lbuf) (i : titer) : tensor :=
  if elt_cs_scalar sh then mkTensor (lb_data b) (lb_cap b) (lb_esz b) [] [] false (-1) 0 else tile_of b i.

Lemma set_sizes_opd shape tile stride b n sh : tiling shape tile ->
  set_sizes (opd_tensor sh b (ti_run (tiles_iter shape tile stride) n)) (ti_run (tiles_iter shape tile stride) (S n)) = opd_tensor sh b (ti_run (tiles_iter shape tile stride) (S n)).
Proof.
  intros H. unfold opd_tensor, set_sizes. destruct (elt_cs_scalar sh); [reflexivity|].
  destruct (tiles_iter_tile shape tile stride n H) as (S1 & _ & T1 & _). destruct (tiles_iter_tile shape tile stride (S n) H) as (S2 & _ & T2 & _).
  unfold with_shape, tile_of. cbn [t_data t_cap t_esz t_shape t_stride t_asym t_qdim t_qoff].
  rewrite (smaller_length _ _ S1), <- (smaller_length _ _ S2), firstn_all, T1, T2. reflexivity.
Qed.

Lemma elt_updates_val shl tl sl shr tr sr sho to so bl br bo m0 ob0 n :
  tiling shl tl -> tiling shr tr -> tiling sho to ->
  let l := tiles_iter shl tl sl in let r := tiles_iter shr tr sr in let o := tiles_iter sho to so in
  elt_create l r o bl br bo m0 = Some ob0 ->
  elt_updates n ob0 = mkEo (ti_run l n) (ti_run r n) (ti_run o n) (opd_tensor shl bl (ti_run l n)) (opd_tensor shr br (ti_run r n)) (tile_of bo (ti_run o n)) (eo_vl ob0) (eo_vr ob0).
Proof.
  intros Hl Hr Ho l r o E. induction n as [|n IH].
  - cbn [elt_updates ti_run]. unfold elt_create in E. change (ti_shape l) with shl in E. change (ti_shape r) with shr in E.
    unfold reconstruct in E. unfold opd_tensor. destruct (elt_cs_scalar shl), (elt_cs_scalar shr);
    repeat match type of E with context [load ?m ?a] => destruct (load m a); cbn [bind fst snd] in E; try discriminate end; cbn [bind fst snd] in E;
    match type of E with Some ?x = Some _ => assert (Eo : ob0 = x) by congruence end; rewrite Eo; reflexivity.
  - cbn [elt_updates]. rewrite IH. unfold elt_update. cbn [eo_left eo_right eo_out eo_tl eo_tr eo_to eo_vl eo_vr].
    change (ti_next (ti_run l n)) with (ti_run l (S n)). change (ti_next (ti_run r n)) with (ti_run r (S n)). change (ti_next (ti_run o n)) with (ti_run o (S n)).
    unfold l, r, o. rewrite !set_sizes_opd by assumption.
    pose proof (set_sizes_opd sho to so bo n [2] Ho) as Q. change (opd_tensor [2] bo) with (tile_of bo) in Q. rewrite Q. reflexivity.
Qed.

Lemma elt_create_vals l r o bl br bo m0 ob0 : elt_create l r o bl br bo m0 = Some ob0 ->
  (elt_cs_scalar (ti_shape l) = true -> m0 (lb_data bl) = Some (eo_vl ob0)) /\ (elt_cs_scalar (ti_shape r) = true -> m0 (lb_data br) = Some (eo_vr ob0)).
Proof.
  unfold elt_create, reconstruct, load. intros E.
  destruct (elt_cs_scalar (ti_shape l)), (elt_cs_scalar (ti_shape r));
  repeat match type of E with context [m0 ?a] => destruct (m0 a); cbn [bind fst snd] in E; try discriminate end; cbn [bind fst snd] in E;
  match type of E with Some ?x = Some _ => assert (Eo : ob0 = x) by congruence end; rewrite Eo; split; intros; try discriminate; reflexivity.
Qed.

Lemma zeros_vadd : forall (sh l c : list Z), length l = length sh -> length c = length sh -> map (fun _ => 0) (vadd l c) = map (fun _ => 0) sh.
Proof. induction sh as [|y sh IH]; intros [|z l] [|x c] A B; try discriminate; [reflexivity|]. cbn [map vadd]. f_equal. apply IH; cbn in *; lia. Qed.

Lemma opd_arg shape tile sh st so b bo n m L v c :
  tiling shape tile -> sh = shape \/ sh = ones shape ->
  let i := ti_run (tiles_iter sh (opd_tile sh tile) st) n in let o := ti_run (tiles_iter shape tile so) n in
  let t := opd_tensor sh b i in
  opd_ready sh t (tile_of bo o) i L m -> (elt_cs_scalar sh = true -> v = L (map (fun _ => 0) shape)) -> 
  elt_opd t (tile_of bo o) m /\ (valid (ti_size o) c -> elt_arg m t v c = bcast sh L (vadd (ti_pos o) c)).
Proof.
  intros H E i o t Hr Hv. destruct (opd_cases shape tile sh H E) as [Ht Cs].
  destruct (tiles_iter_tile shape tile so n H) as (Sm & Lp & _). fold o in Sm, Lp.
  destruct Cs as [S|(S & Esh & Et)].
  - unfold t, opd_tensor, bcast. rewrite S. split; [left; reflexivity|]. intros Hc. unfold elt_arg. cbn [t_shape t_rank length]. change (t_rank _ =? 0) with true. cbv iota.
    rewrite Hv by exact S. f_equal. pose proof (valid_length _ _ Hc) as Lc. rewrite (smaller_length _ _ Sm), (tiling_length _ _ H) in Lc.
    symmetry. apply zeros_vadd; [exact Lp|exact Lc].
  - unfold t, opd_tensor, bcast in *. rewrite S in *. destruct Hr as [Hr|(Lg & Nh & Hh)]; [congruence|].
    destruct (tiles_same shape tile st so n H) as [Es Ep].
    assert (Ei : i = ti_run (tiles_iter shape tile st) n) by (unfold i; rewrite Et, Esh; reflexivity). rewrite <- Ei in Es, Ep. fold o in Es, Ep.
    split; [right; split; [exact Lg|]; split; [exact Es|exact Nh]|]. intros Hc. rewrite <- Es in Hc.
    assert (G : rd m (t_data (tile_of b i) + addr (t_stride (tile_of b i)) c) = L (vadd (ti_pos o) c)) by (rewrite <- Ep; apply holds_rd; [exact Hh|exact Hc]).
    unfold elt_arg. destruct (Z.eqb_spec (t_rank (tile_of b i)) 0) as [R|R].
    + exfalso. unfold t_rank, tile_of in R. cbn [t_shape] in R. rewrite Es, (smaller_length _ _ Sm), (tiling_length _ _ H) in R. rewrite Esh in S. destruct shape; [discriminate|cbn [length] in R; lia].
    + destruct (Z.eqb_spec (prod (t_shape (tile_of b i))) 1) as [P|P]; [|exact G].
      destruct Lg as (F & C & _). destruct (chk_tensor_pos _ C (proj1 F)) as (_ & Ps & _).
      rewrite <- G. rewrite (prod1_coords _ _ (t_stride (tile_of b i)) Ps P Hc), Z.add_0_r. reflexivity.
Qed.

Lemma smaller_ones l tile : smaller l (ones tile) -> prod l = 1.
Proof.
  revert l. induction tile as [|T tile IH]; intros [|x l] S; inversion S as [|? ? ? ? S1 S2]; subst; [reflexivity|].
  change (x * prod l = 1). rewrite (IH l S2). lia.
Qed.

(** C71: Add, Sub, Mul, Min, Max. [m0] is the memory when the object is created, [m n] that at tile [n]. Operands and output live in one
    memory of elements; an operand's buffer may be that of the output ([no_hazard]). *)
Theorem elt_tiles_whole rm op n no shape tile shl shr sl sr so bl br bo L R m0 ob0 (m : nat -> mem) :
  int_types op n no -> tiling shape tile -> shape <> [] -> elt_shapes shl shr shape ->
  let it := tiles_iter shape tile so in
  elt_create (tiles_iter shl (opd_tile shl tile) sl) (tiles_iter shr (opd_tile shr tile) sr) it bl br bo m0 = Some ob0 ->
  (elt_cs_scalar shl = true -> m0 (lb_data bl) = Some (L (map (fun _ => 0) shape))) ->
  (elt_cs_scalar shr = true -> m0 (lb_data br) = Some (R (map (fun _ => 0) shape))) ->
  (forall c, valid shape c -> in_bits n (bcast shl L c) /\ in_bits n (bcast shr R c)) ->
  let ob k := elt_updates k ob0 in
  (forall k, Z.of_nat k < total_count (ti_cfg it) ->
     legal (eo_to (ob k)) (m k) /\ opd_ready shl (eo_tl (ob k)) (eo_to (ob k)) (eo_left (ob k)) L (m k) /\ opd_ready shr (eo_tr (ob k)) (eo_to (ob k)) (eo_right (ob k)) R (m k)) ->
  whole_result (fun k => elt_issue rm op n no (ob k) (m k)) it bo m (fun c => sat no (int_op op (bcast shl L c) (bcast shr R c))).
Proof.
  intros Ty H Hne Hsh it Hcr HL HR Hb ob Hr. apply tiles_whole; [exact H|]. intros k Hk. specialize (Hr k Hk). fold it in Hk |- *.
  assert (El : shl = shape \/ shl = ones shape) by (destruct Hsh as [[-> _]|[-> _]]; auto).
  assert (Er : shr = shape \/ shr = ones shape) by (destruct Hsh as [[_ [-> | ->]]|[_ ->]]; auto).
  destruct (opd_cases shape tile shl H El) as [Tl _]. destruct (opd_cases shape tile shr H Er) as [Tr _].
  destruct (elt_create_vals _ _ _ _ _ _ _ _ Hcr) as [Vl Vr].
  unfold ob in *. rewrite (elt_updates_val _ _ _ _ _ _ _ _ _ _ _ _ _ _ k Tl Tr H Hcr) in *. cbn [eo_left eo_right eo_out eo_tl eo_tr eo_to eo_vl eo_vr] in *.
  destruct Hr as (Lo & Rl & Rr).
  assert (Hl : elt_cs_scalar shl = true -> eo_vl ob0 = L (map (fun _ => 0) shape)) by (intros S; specialize (Vl S); specialize (HL S); congruence).
  assert (Hr : elt_cs_scalar shr = true -> eo_vr ob0 = R (map (fun _ => 0) shape)) by (intros S; specialize (Vr S); specialize (HR S); congruence).
  pose proof (fun c => opd_arg shape tile shl sl so bl bo k (m k) L (eo_vl ob0) c H El Rl Hl) as Ql. cbv zeta in Ql. fold it in Ql.
  pose proof (fun c => opd_arg shape tile shr sr so br bo k (m k) R (eo_vr ob0) c H Er Rr Hr) as Qr. cbv zeta in Qr. fold it in Qr.
  destruct (tiles_iter_tile shape tile so k H) as (Sm & Lp & _). fold it in Sm, Lp.
  assert (Rt : t_rank (tile_of bo (ti_run it k)) <> 0).
  { unfold t_rank, tile_of. cbn [t_shape]. rewrite (smaller_length _ _ Sm), (tiling_length _ _ H). destruct shape; [congruence|cbn [length]; lia]. }
  destruct (elt_tile_run (elt_int rm op n no) _ _ _ (eo_vl ob0) (eo_vr ob0) (m k) (proj1 (Ql [])) (proj1 (Qr [])) Lo Rt) as (m' & E & V & Fr).
  - intros R1 R2. cbn [tile_of t_shape].
    assert (Sc : elt_cs_scalar shape = true).
    { assert (S1 : forall sh i b, t_rank (opd_tensor sh b i) = 0 -> length (ti_size i) <> 0%nat -> elt_cs_scalar sh = true).
      { intros sh i b Hr0 Hln. unfold opd_tensor in Hr0. destruct (elt_cs_scalar sh); [reflexivity|]. unfold t_rank in Hr0. cbn in Hr0. lia. }
      assert (Ln : forall sh st, sh = shape \/ sh = ones shape -> length (ti_size (ti_run (tiles_iter sh (opd_tile sh tile) st) k)) <> 0%nat).
      { intros sh st Es. destruct (opd_cases shape tile sh H Es) as [Ts _]. destruct (tiles_iter_tile sh (opd_tile sh tile) st k Ts) as (S2 & _). rewrite (smaller_length _ _ S2), (tiling_length _ _ Ts).
        destruct Es as [-> | ->]; unfold ones; rewrite ?map_length; destruct shape; cbn; congruence || lia. }
      pose proof (S1 _ _ _ R1 (Ln _ _ El)) as A1. pose proof (S1 _ _ _ R2 (Ln _ _ Er)) as A2.
      destruct Hsh as [[<- _]|[_ <-]]; assumption. }
    rewrite (tiling_ones _ _ H Sc) in Sm. exact (smaller_ones _ _ Sm).
  - exists m'. split; [exact E|]. split; [|exact Fr]. intros c Hc. rewrite (V c Hc). rewrite (proj2 (Ql c) Hc), (proj2 (Qr c) Hc).
    pose proof (tiles_iter_inside shape tile so k c H Hc) as Vi. fold it in Vi. destruct (Hb _ Vi) as [B1 B2]. rewrite elt_int_exact by assumption. reflexivity.
Qed.

(** * A concrete case *)

(** A 3 x 2 tensor with the values 10 i + j in tiles of 2 x 2: two tiles, the second of one row. Buffers of 2 x 2 elements. *)
Definition px_X (c : list Z) : Z := 10 * nth 0 c 0 + nth 1 c 0.
Definition px_vals (n : nat) : list Z := if Nat.eqb n 0 then [0; 1; 10; 11] else [20; 21; -7; -7].

Lemma list_backed d k esz sh st l : 0 <= d -> 1 <= esz -> d + k <= Z.of_nat (length l) -> backed (mkTensor d (k * esz) esz sh st false (-1) 0) (list_mem l).
Proof.
  intros Hd He Hl a Ha Hc. cbn [t_data t_esz t_cap] in *. assert (a < k) by nia. unfold allocated, list_mem. destruct (Z.ltb_spec (d + a) 0); [lia|]. apply nth_error_Some. lia.
Qed.

Example px_tiling : tiling [3; 2] [2; 2] /\ total_count (ti_cfg (tiles_iter [3; 2] [2; 2] [2; 1])) = 2.
Proof. split; [|reflexivity]. repeat (apply Forall2_cons; [lia|]). apply Forall2_nil. Qed.

Lemma px_usable d esz n l : 0 <= d -> esz = 1 \/ esz = 4 -> d + 4 <= Z.of_nat (length l) ->
  legal (tile_of (mkLb d (4 * esz) esz) (ti_run (tiles_iter [3; 2] [2; 2] [2; 1]) n)) (list_mem l).
Proof.
  intros Hd He Hl. apply tile_legal; [apply px_tiling|]. unfold legal. cbn [lb_data lb_cap lb_esz]. split; [destruct He as [-> | ->]; fits32_tac|]. split; [destruct He as [-> | ->]; vm_compute; reflexivity|]. split; [reflexivity|].
  apply list_backed; lia.
Qed.

Lemma legal_usable t m : legal t m -> usable t m.
Proof. intros (F & C & _ & B). split; auto. Qed.

Lemma px_cases n : Z.of_nat n < 2 -> n = 0%nat \/ n = 1%nat.
Proof. lia. Qed.

Lemma px_tile n : Z.of_nat n < 2 -> let i := ti_run (tiles_iter [3; 2] [2; 2] [2; 1]) n in
  (Nat.eqb n 0 = true /\ ti_size i = [2; 2] /\ ti_stride i = [2; 1] /\ ti_pos i = [0; 0]) \/ (Nat.eqb n 0 = false /\ ti_size i = [1; 2] /\ ti_stride i = [2; 1] /\ ti_pos i = [2; 0]).
Proof. intros Hn. destruct (px_cases n Hn) as [-> | ->]; [left|right]; vm_compute; auto. Qed.

Lemma px_holds d k esz n l : Z.of_nat n < 2 -> (d = 0 \/ d = 4) -> (forall a, 0 <= a < 4 -> list_mem l (d + a) = list_mem (px_vals n) a) ->
  holds (list_mem l) (tile_of (mkLb d k esz) (ti_run (tiles_iter [3; 2] [2; 2] [2; 1]) n)) px_X (ti_pos (ti_run (tiles_iter [3; 2] [2; 2] [2; 1]) n)).
Proof.
  intros Hn Hd Hl c Hc. destruct (px_tile n Hn) as [(En & Es & Et & Ep)|(En & Es & Et & Ep)]; unfold tile_of in *; cbn [t_data t_shape t_stride lb_data] in *; rewrite Es in Hc; rewrite Et, Ep;
  destruct c as [|i [|j [|]]]; cbn [valid] in Hc; try tauto; destruct Hc as (Hi & Hj & _); cbn [addr vadd]; unfold px_X; cbn [nth]; rewrite Hl by lia; unfold px_vals; rewrite En.
  - assert (Ei : i = 0 \/ i = 1) by lia. assert (Ej : j = 0 \/ j = 1) by lia. destruct Ei as [-> | ->], Ej as [-> | ->]; reflexivity.
  - assert (Ei : i = 0) by lia. assert (Ej : j = 0 \/ j = 1) by lia. destruct Ej as [-> | ->]; subst i; reflexivity.
Qed.

(** Clip in place: the hypotheses of [clip_tiles_whole]. *)
Example px_clip : forall n, Z.of_nat n < 2 ->
  let ob := un_updates n (un_create (tiles_iter [3; 2] [2; 2] [2; 1]) (tiles_iter [3; 2] [2; 2] [2; 1]) (mkLb 0 4 1) (mkLb 0 4 1)) in let m := list_mem (px_vals n) in
  usable (uo_tin ob) m /\ usable (uo_tout ob) m /\ unary_ok (uo_tin ob) (uo_tout ob) /\ holds m (uo_tin ob) px_X (ti_pos (uo_in ob)).
Proof.
  intros n Hn ob m. unfold ob. rewrite un_updates_val. unfold un_create. cbn [uo_in uo_out uo_tin uo_tout].
  assert (L : legal (tile_of (mkLb 0 4 1) (ti_run (tiles_iter [3; 2] [2; 2] [2; 1]) n)) m) by (apply (px_usable 0 1); [lia|lia|unfold px_vals; destruct (Nat.eqb n 0); cbn; lia]).
  split; [apply legal_usable; exact L|]. split; [apply legal_usable; exact L|]. split.
  - intros c c' V V' Hne E. destruct L as (F & C & _). destruct (chk_tensor_nested _ F C) as (N & _). apply Hne. apply (nested_inj _ _ _ _ N V V'). lia.
  - apply px_holds; [exact Hn|lia|]. intros a _. reflexivity.
Qed.

(** Rescale from 32 to 8 bits with parameters for the three rows: the hypotheses of [rescale_tiles_whole]. *)
Definition px_p (n : nat) : rescale_params :=
  if Nat.eqb n 0 then mkRescale (list_mem [1; 2]) (list_mem [3; -5]) (list_mem [1; 2]) (list_mem [10; 20])
  else mkRescale (list_mem [3; 0]) (list_mem [7; 0]) (list_mem [-1; 0]) (list_mem [30; 0]).
Definition px_at (l : list Z) (k : Z) : Z := nth (Z.to_nat k) l 0.

Lemma px_part l off cnt P : cnt = 1 \/ cnt = 2 -> list_mem l 0 = Some (P (off + 0)) -> (cnt = 2 -> list_mem l 1 = Some (P (off + 1))) -> part_of (list_mem l) off cnt P.
Proof. intros Hc H0 H1 k Hk. assert (K : k = 0 \/ k = 1) by lia. destruct K as [-> | ->]; [exact H0|]. apply H1. lia. Qed.

Lemma px_bits n l : 1 <= n -> Forall (in_bits n) l -> mem_bits n (list_mem l).
Proof.
  intros Hn F a v E. unfold list_mem in E. destruct (a <? 0); [discriminate|]. apply nth_error_In in E. rewrite Forall_forall in F. exact (F v E).
Qed.

Ltac px_bits := apply px_bits; [lia|]; repeat (apply Forall_cons; [first [apply ib8|apply ib16|apply ib32]; lia|]); apply Forall_nil.

Example px_rescale : forall n, Z.of_nat n < 2 ->
  let ob := un_updates n (un_create (tiles_iter [3; 2] [2; 2] [2; 1]) (tiles_iter [3; 2] [2; 2] [2; 1]) (mkLb 0 16 4) (mkLb 0 4 1)) in
  usable (uo_tin ob) (list_mem (px_vals n)) /\ usable (uo_tout ob) (list_mem [0; 0; 0; 0]) /\ mem_bits 32 (list_mem (px_vals n))
  /\ holds (list_mem (px_vals n)) (uo_tin ob) px_X (ti_pos (uo_in ob))
  /\ mem_bits 32 (rs_bias_in (px_p n)) /\ mem_bits 16 (rs_scale (px_p n)) /\ mem_bits 8 (rs_bias_out (px_p n))
  /\ let off := part_off 0 (ti_pos (uo_in ob)) in let cnt := part_cnt 0 (t_shape (uo_tin ob)) in
     part_of (rs_bias_in (px_p n)) off cnt (px_at [1; 2; 3]) /\ part_of (rs_scale (px_p n)) off cnt (px_at [3; -5; 7])
     /\ part_of (rs_shift (px_p n)) off cnt (px_at [1; 2; -1]) /\ part_of (rs_bias_out (px_p n)) off cnt (px_at [10; 20; 30]).
Proof.
  intros n Hn ob. unfold ob. rewrite un_updates_val. unfold un_create. cbn [uo_in uo_out uo_tin uo_tout].
  split; [apply legal_usable, (px_usable 0 4); [lia|lia|unfold px_vals; destruct (Nat.eqb n 0); cbn; lia]|].
  split; [apply legal_usable, (px_usable 0 1); [lia|lia|cbn; lia]|].
  split; [unfold px_vals; destruct (Nat.eqb n 0); px_bits|]. split; [apply px_holds; [exact Hn|lia|intros a _; reflexivity]|].
  destruct (px_tile n Hn) as [(En & Es & Et & Ep)|(En & Es & Et & Ep)]; unfold tile_of; cbn [t_shape]; rewrite Es, Ep; unfold px_p; rewrite En; cbn [rs_bias_in rs_scale rs_shift rs_bias_out].
  - split; [px_bits|]. split; [px_bits|]. split; [px_bits|].
    change (part_off 0 [0; 0]) with 0. change (part_cnt 0 [2; 2]) with 2. cbv zeta. repeat split; apply px_part; try (intros _); first [lia|reflexivity].
  - split; [px_bits|]. split; [px_bits|]. split; [px_bits|].
    change (part_off 0 [2; 0]) with 2. change (part_cnt 0 [1; 2]) with 1. cbv zeta. repeat split; apply px_part; try (intros K; discriminate K); first [lia|reflexivity].
Qed.

(** Prelu with parameters for the three rows: the hypotheses of [prelu_tiles_whole]. *)
Definition px_q (n : nat) : prelu3_params :=
  if Nat.eqb n 0 then mkPrelu3 (list_mem [10; -20]) (list_mem [1; -1]) (list_mem [3; 5]) (list_mem [-2; 7]) (list_mem [1; 0]) (list_mem [2; 3])
  else mkPrelu3 (list_mem [30; 0]) (list_mem [4; 0]) (list_mem [6; 0]) (list_mem [8; 0]) (list_mem [2; 0]) (list_mem [1; 0]).

Example px_prelu : (forall c, valid [3; 2] c -> in_bits 32 (px_X c - px_at [10; -20; 30] (prelu3_index 0 c)))
  /\ forall n, Z.of_nat n < 2 ->
  let ob := un_updates n (un_create (tiles_iter [3; 2] [2; 2] [2; 1]) (tiles_iter [3; 2] [2; 2] [2; 1]) (mkLb 0 16 4) (mkLb 0 4 1)) in
  usable (uo_tin ob) (list_mem (px_vals n)) /\ usable (uo_tout ob) (list_mem [0; 0; 0; 0]) /\ mem_bits 32 (list_mem (px_vals n))
  /\ holds (list_mem (px_vals n)) (uo_tin ob) px_X (ti_pos (uo_in ob))
  /\ mem_bits 32 (p3_bias_in (px_q n)) /\ mem_bits 16 (p3_posscale (px_q n)) /\ mem_bits 16 (p3_negscale (px_q n)) /\ mem_bits 8 (p3_bias_out (px_q n))
  /\ let off := part_off 0 (ti_pos (uo_in ob)) in let cnt := part_cnt 0 (t_shape (uo_tin ob)) in
     part_of (p3_bias_in (px_q n)) off cnt (px_at [10; -20; 30]) /\ part_of (p3_posscale (px_q n)) off cnt (px_at [3; 5; 6]) /\ part_of (p3_negscale (px_q n)) off cnt (px_at [-2; 7; 8])
     /\ part_of (p3_posshift (px_q n)) off cnt (px_at [1; 0; 2]) /\ part_of (p3_negshift (px_q n)) off cnt (px_at [2; 3; 1]) /\ part_of (p3_bias_out (px_q n)) off cnt (px_at [1; -1; 4]).
Proof.
  split.
  { intros c Hc. destruct c as [|i [|j [|]]]; cbn [valid] in Hc; try tauto. change (prelu3_index 0 [i; j]) with i. change (px_X [i; j]) with (10 * i + j). apply ib32.
    assert (B : -20 <= px_at [10; -20; 30] i <= 30) by (assert (Ei : i = 0 \/ i = 1 \/ i = 2) by lia; destruct Ei as [-> | [-> | ->]]; vm_compute; split; discriminate). lia. }
  intros n Hn ob. unfold ob. rewrite un_updates_val. unfold un_create. cbn [uo_in uo_out uo_tin uo_tout].
  split; [apply legal_usable, (px_usable 0 4); [lia|lia|unfold px_vals; destruct (Nat.eqb n 0); cbn; lia]|].
  split; [apply legal_usable, (px_usable 0 1); [lia|lia|cbn; lia]|].
  split; [unfold px_vals; destruct (Nat.eqb n 0); px_bits|]. split; [apply px_holds; [exact Hn|lia|intros a _; reflexivity]|].
  destruct (px_tile n Hn) as [(En & Es & Et & Ep)|(En & Es & Et & Ep)]; unfold tile_of; cbn [t_shape]; rewrite Es, Ep; unfold px_q; rewrite En;
  cbn [p3_bias_in p3_posscale p3_negscale p3_posshift p3_negshift p3_bias_out].
  - split; [px_bits|]. split; [px_bits|]. split; [px_bits|]. split; [px_bits|].
    change (part_off 0 [0; 0]) with 0. change (part_cnt 0 [2; 2]) with 2. cbv zeta. repeat split; apply px_part; try (intros _); first [lia|reflexivity].
  - split; [px_bits|]. split; [px_bits|]. split; [px_bits|]. split; [px_bits|].
    change (part_off 0 [2; 0]) with 2. change (part_cnt 0 [1; 2]) with 1. cbv zeta. repeat split; apply px_part; try (intros K; discriminate K); first [lia|reflexivity].
Qed.

(** A scalar 5 at address 8 added to the tensor; the tile of the left operand is at 0, that of the output at 4: the hypotheses of
    [elt_tiles_whole]. *)
Definition px_mem (n : nat) : mem := list_mem (px_vals n ++ [0; 0; 0; 0; 5]).

Example px_elt : elt_shapes [3; 2] [1; 1] [3; 2] /\ exists ob0,
  elt_create (tiles_iter [3; 2] (opd_tile [3; 2] [2; 2]) [2; 1]) (tiles_iter [1; 1] (opd_tile [1; 1] [2; 2]) [2; 1]) (tiles_iter [3; 2] [2; 2] [2; 1])
    (mkLb 0 4 1) (mkLb 8 1 1) (mkLb 4 4 1) (px_mem 0) = Some ob0
  /\ px_mem 0 8 = Some 5
  /\ forall k, Z.of_nat k < 2 -> let ob := elt_updates k ob0 in
     legal (eo_to ob) (px_mem k) /\ opd_ready [3; 2] (eo_tl ob) (eo_to ob) (eo_left ob) px_X (px_mem k) /\ opd_ready [1; 1] (eo_tr ob) (eo_to ob) (eo_right ob) (fun _ => 5) (px_mem k).
Proof.
  split; [left; split; [reflexivity|right; reflexivity]|].
  assert (T1 : tiling [1; 1] (opd_tile [1; 1] [2; 2])) by (apply (ones_tiling [0; 0])).
  destruct (elt_create (tiles_iter [3; 2] (opd_tile [3; 2] [2; 2]) [2; 1]) (tiles_iter [1; 1] (opd_tile [1; 1] [2; 2]) [2; 1]) (tiles_iter [3; 2] [2; 2] [2; 1])
    (mkLb 0 4 1) (mkLb 8 1 1) (mkLb 4 4 1) (px_mem 0)) as [ob0|] eqn:E; [|vm_compute in E; discriminate].
  exists ob0. split; [reflexivity|]. split; [reflexivity|]. intros k Hk ob. unfold ob.
  rewrite (elt_updates_val _ _ _ _ _ _ _ _ _ _ _ _ _ _ k (proj1 px_tiling) T1 (proj1 px_tiling) E). cbn [eo_left eo_right eo_out eo_tl eo_tr eo_to].
  assert (Lo : legal (tile_of (mkLb 4 4 1) (ti_run (tiles_iter [3; 2] [2; 2] [2; 1]) k)) (px_mem k)) by (apply (px_usable 4 1); [lia|lia|unfold px_vals; destruct (Nat.eqb k 0); cbn; lia]).
  split; [exact Lo|]. split; [|left; reflexivity]. right.
  change (opd_tensor [3; 2] (mkLb 0 4 1)) with (tile_of (mkLb 0 4 1)). change (opd_tile [3; 2] [2; 2]) with [2; 2].
  assert (Ll : legal (tile_of (mkLb 0 4 1) (ti_run (tiles_iter [3; 2] [2; 2] [2; 1]) k)) (px_mem k)) by (apply (px_usable 0 1); [lia|lia|unfold px_vals; destruct (Nat.eqb k 0); cbn; lia]).
  split; [exact Ll|]. split.
  - apply disjoint_ok. intros c c' V V'.
    destruct (px_tile k Hk) as [(En & Es & Et & Ep)|(En & Es & Et & Ep)]; unfold tile_of in *; cbn [t_data t_shape t_stride lb_data] in *; rewrite Es in V, V'; rewrite Et;
    destruct c as [|i [|j [|]]]; cbn [valid] in V; try tauto; destruct c' as [|i' [|j' [|]]]; cbn [valid] in V'; try tauto; cbn [addr]; lia.
  - apply px_holds; [exact Hk|lia|]. intros a Ha. assert (A : a = 0 \/ a = 1 \/ a = 2 \/ a = 3) by lia.
    unfold px_vals. destruct (Nat.eqb k 0); destruct A as [-> | [-> | [-> | ->]]]; reflexivity.
Qed.
