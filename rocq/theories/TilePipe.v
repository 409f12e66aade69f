(** A tile pipeline: move a tile in, process it, move the result out (property C74). *)
From Coq Require Import ZArith List Lia Bool.
From Verif Require Import Base Tensor TensorProofs MovProofs Permute PermuteProofs PoolKernels Ops3 Ops3Proofs Iter IterProofs IterTheorems TileRun TileProofs TileElt TileConv TilePoint TileMove MoveTiles.
Import ListNotations.
Open Scope Z_scope.

(** * One memory *)

(** mli_mov_runtime.cc:47-66: the loop of [move_loop] when source and destination are in the same memory. *)
Fixpoint move_loop1 (fuel : nat) (src dst : miter) (bs bd : Z) (m : mem) : option mem :=
  match fuel with
  | O => None
  | S k =>
      do v <- load m (bs + mi_offs src) ;
      do m1 <- store m (bd + mi_offs dst) v ;
      let '(src', sdone) := mi_next src in
      let '(dst', ddone) := mi_next dst in
      if Bool.eqb sdone ddone then if sdone then Some m1 else move_loop1 k src' dst' bs bd m1 else None
  end.

(** mli_mov_runtime.cc:35-68 Issue *)
Definition move_issue1 (o : move_obj) (m : mem) : option mem :=
  let count := move_count (mi_sizes (mo_src o)) in
  let src := mi_elements (mo_src o) count in
  let dst := mi_elements (mo_dst o) count in
  let sz := lb_esz (mo_bs o) in
  if (sz =? 1) || (sz =? 2) || (sz =? 4)
  then move_loop1 (Z.to_nat (total_count (ti_cfg (mi_ti src)))) src dst (lb_data (mo_bs o)) (lb_data (mo_bd o)) m
  else None.

(** The loop of a user program: move tile [k] in, run the operator on it, move its result out, then Update all three objects (the updates
    of the operator are part of [op]). *)
Fixpoint pipeline (n : nat) (min mout : move_obj) (op : nat -> mem -> option mem) (m : mem) : option mem :=
  match n with
  | O => Some m
  | S k =>
      do m0 <- pipeline k min mout op m ;
      do m1 <- move_issue1 (move_updates k min) m0 ;
      do m2 <- op k m1 ;
      move_issue1 (move_updates k mout) m2
  end.

(** * One memory is as good as two when nothing read is written *)

Lemma move_loop1_two cfg1 cfg2 sizes st1 st2 o1 o2 bs bd ms : length cfg1 = length sizes -> length cfg2 = length sizes -> length st1 = length sizes -> length st2 = length sizes ->
  Forall (fun s => 0 <= s) st1 -> Forall (fun s => 0 <= s) st2 -> 0 <= o1 -> 0 <= o2 -> sizes_fit sizes ->
  (forall c c', valid sizes c -> valid sizes c' -> bs + o1 + addr st1 c <> bd + o2 + addr st2 c') ->
  forall fuel c m, valid sizes c -> (forall c', valid sizes c' -> m (bs + o1 + addr st1 c') = ms (bs + o1 + addr st1 c')) ->
  move_loop1 fuel (elem_at cfg1 sizes st1 o1 c) (elem_at cfg2 sizes st2 o2 c) bs bd m = move_loop fuel (elem_at cfg1 sizes st1 o1 c) (elem_at cfg2 sizes st2 o2 c) bs bd ms m.
Proof.
  intros L1 L2 L3 L4 H1 H2 P1 P2 Hsz Hdj. 
  assert (Ent : forall c, next_tile (elem_cfg cfg2 sizes) c = next_tile (elem_cfg cfg1 sizes) c).
  { intros c. apply next_tile_counts. clear - L1 L2. revert cfg2 sizes L1 L2. induction cfg1 as [|d1 cfg1 IH]; intros [|d2 cfg2] [|n sizes] L1 L2; try discriminate; try reflexivity.
    cbn [elem_cfg combine map it_count fst snd]. f_equal. apply (IH cfg2 sizes); cbn in *; lia. }
  induction fuel as [|fuel IH]; intros c m V Hm; [reflexivity|]. cbn [move_loop move_loop1].
  rewrite (elem_at_next cfg1 sizes st1 o1 c L1 L3 H1 P1 V), (elem_at_next cfg2 sizes st2 o2 c L2 L4 H2 P2 V). cbn [elem_at mi_offs]. rewrite Ent. fold (elem_at cfg1 sizes st1 o1 c) (elem_at cfg2 sizes st2 o2 c).
  unfold load. rewrite !Z.add_assoc. rewrite (Hm c V). destruct (ms (bs + o1 + addr st1 c)) as [v|]; [|reflexivity]. cbn [bind].
  destruct (store m (bd + o2 + addr st2 c) v) as [m1|] eqn:Es; [|reflexivity]. cbn [bind].
  destruct (Bool.eqb _ _); [|reflexivity]. destruct (_ =? _); [reflexivity|]. apply IH.
  - apply (elem_idx cfg1); [exact L1|]. apply next_tile_ok; [apply elem_idx; assumption|apply elem_counts; exact Hsz].
  - intros c' V'. unfold store in Es. destruct (m (bd + o2 + addr st2 c)); [|discriminate]. injection Es as <-.
    destruct (Z.eqb_spec (bs + o1 + addr st1 c') (bd + o2 + addr st2 c)) as [E|]; [exfalso; exact (Hdj c' c V' V E)|apply Hm; exact V'].
Qed.

Lemma move_issue1_two ts td cfg shape ss sd bs bd m n :
  own_order cfg -> Forall2 walks cfg shape -> side_ok ts cfg shape ss -> side_ok td cfg shape sd ->
  let i := mi_run (mi_new ts cfg shape ss) n in let pos := ti_pos (mi_ti i) in let size := mi_sizes i in
  (forall c c', in_box pos size c -> in_box pos size c' -> side_addr ts cfg ss bs pos c <> side_addr td cfg sd bd pos c') ->
  let o := move_updates n (move_create (mi_new ts cfg shape ss) (mi_new td cfg shape sd) bs bd) in move_issue1 o m = move_issue o m m.
Proof.
  intros Ho Hw Hs Hd i pos size Hdj o. pose proof (walks_counts _ _ Hw) as Hc. pose proof (idx_at_ok cfg n Hc) as Hok.
  unfold o. rewrite move_updates_val. destruct (side_run ts cfg shape ss n Ho Hw Hs) as (b1 & z1 & E1). destruct (side_run td cfg shape sd n Ho Hw Hd) as (b2 & z2 & E2).
  destruct (side_facts ts cfg shape ss _ Hw Hok Hs) as (S1 & S2 & S3 & S4 & S5). destruct (side_facts td cfg shape sd _ Hw Hok Hd) as (D1 & D2 & D3 & D4 & D5).
  destruct (pieces_at cfg shape _ Hw Hok) as (P1 & P2 & P3 & P4 & _).
  assert (Ep : pos = starts cfg (idx_at cfg n)) by (unfold pos, i; rewrite E1; cbn [mi_ti]; apply ti_pos_at).
  assert (Ez : size = piece_sizes cfg shape (at_tile cfg (idx_at cfg n))) by (unfold size, i; rewrite E1; reflexivity).
  clearbody pos size. clear i o. set (idx := idx_at cfg n) in *. rewrite <- Ep, <- Ez in *.
  assert (Iv : forall c, valid size c -> in_box pos size (vadd pos c) /\ length (vadd pos c) = length cfg).
  { intros c V. pose proof (valid_length _ _ V). rewrite in_box_valid by lia. rewrite vsub_vadd by lia. rewrite vadd_len by lia. auto. }
  unfold move_issue, move_issue1, move_create. cbn [mo_src mo_dst mo_bs mo_bd]. destruct ((lb_esz bs =? 1) || (lb_esz bs =? 2) || (lb_esz bs =? 4)); [|reflexivity].
  rewrite E1, E2. unfold mi_sizes, mi_elements. cbn [mi_ti mi_offs ti_cfg ti_shape ti_stride ti_st ti_new]. unfold mi_sizes. cbn [mi_ti ti_cfg ti_shape ti_st]. rewrite <- Ez.
  rewrite move_count_id by exact P1.
  set (zc := zero_idx (elem_cfg cfg size)).
  assert (Hec : counts_ok (elem_cfg cfg size)) by (apply elem_counts; exact P1).
  destruct (zero_ok _ Hec) as [Zok Zno]. fold zc in Zok, Zno.
  assert (Vz : valid size zc) by (apply (elem_idx cfg); [lia|exact Zok]).
  assert (Eat : forall st o, mkMi (mkTi (elem_cfg cfg size) size st (iter_reset (elem_cfg cfg size))) (elem_bufs size st) 1 o = elem_at cfg size st o zc).
  { intros st o. unfold elem_at, zc. rewrite at_zero. unfold zero_idx. rewrite addr_zero, Z.add_0_r. reflexivity. }
  unfold ti_new. rewrite !Eat. apply move_loop1_two; try assumption; try lia; [|reflexivity].
  intros c c' V V' E. destruct (Iv c V) as [I1 L1]. destruct (Iv c' V') as [I2 L2]. apply (Hdj _ _ I1 I2). pose proof (valid_length _ _ V). pose proof (valid_length _ _ V').
  rewrite S5, D5 by assumption. rewrite !vsub_vadd by lia. exact E.
Qed.

(** * The pipeline *)

(** The local buffer [b] of a tile, and tile [n] in it. *)
Definition in_local (b : lbuf) (tile : list Z) (a : Z) : Prop := lb_data b <= a < lb_data b + prod tile.
Definition local_tile (b : lbuf) (shape tile : list Z) (n : nat) : tensor := mkTensor (lb_data b) (lb_cap b) (lb_esz b) (tile_dims shape tile n) (tile_strides tile) false (-1) 0.

Lemma tile_of_local b shape tile n : tiling shape tile -> tile_of b (ti_run (tiles_iter shape tile (tile_strides tile)) n) = local_tile b shape tile n.
Proof.
  intros H. unfold tile_of, local_tile, tile_dims. destruct (tiles_same shape tile (tile_strides tile) shape n H) as [-> _]. destruct (tiles_iter_tile shape tile (tile_strides tile) n H) as (_ & _ & -> & _). reflexivity.
Qed.

Lemma tile_addr_range sz tile c : smaller sz tile -> valid sz c -> 0 <= addr (tile_strides tile) c < prod tile.
Proof.
  intros H V. assert (Hp : Forall (fun n => 1 <= n) tile) by (clear - H; induction H; [apply Forall_nil|apply Forall_cons; [lia|assumption]]).
  assert (V' : valid tile c) by (clear - H V; revert c V; induction H as [|a b sz tile Hab H IH]; intros [|k c] V; cbn [valid] in *; try contradiction; [exact I|split; [lia|apply IH; tauto]]).
  pose proof (nested_tile _ Hp) as N. destruct (nested_addr tile _ c N V') as [[A1 _] A3]. split; [exact A1|].
  destruct tile as [|T tile]; cbn [tile_strides extent] in A3; [exact A3|]. change (prod (T :: tile)) with (T * prod tile). exact A3.
Qed.

Lemma frame_alloc t Y off m m' a : holds m' t Y off -> frame_ok t m m' -> allocated m a -> allocated m' a.
Proof.
  intros Hh Hf Ha. destruct (in_dec Z.eq_dec a (map (fun c => t_data t + addr (t_stride t) c) (coords (t_shape t)))) as [Hi|Hi].
  - apply in_map_iff in Hi. destruct Hi as (c & <- & Hc). apply in_coords in Hc. unfold allocated. rewrite (Hh c Hc). discriminate.
  - unfold allocated. rewrite Hf; [exact Ha|]. intros c Hc ->. apply Hi. apply in_map_iff. exists c. split; [reflexivity|]. apply in_coords. exact Hc.
Qed.

Section Pipeline.
Variables (shape tile si so : list Z) (bi li lo bo : lbuf) (X Y : list Z -> Z).

(** Input and output are apart from the local buffers and from each other. *)
Definition apart : Prop :=
  (forall c, valid shape c -> let a := lb_data bi + addr si c in
     ~ in_local li tile a /\ ~ in_local lo tile a /\ forall c', valid shape c' -> a <> lb_data bo + addr so c')
  /\ forall c, valid shape c -> let a := lb_data bo + addr so c in ~ in_local li tile a /\ ~ in_local lo tile a.

(** The operator, given tile [n] of [X] in the local input buffer, leaves tile [n] of [Y] in the local output buffer and changes nothing
    else. *)
Definition computes (op : nat -> mem -> option mem) (n : nat) : Prop :=
  forall m, (forall a, in_local li tile a \/ in_local lo tile a -> allocated m a) -> holds m (local_tile li shape tile n) X (tile_base shape tile n) ->
  exists m', op n m = Some m' /\ holds m' (local_tile lo shape tile n) Y (tile_base shape tile n) /\ frame_ok (local_tile lo shape tile n) m m'.
End Pipeline.

(** C74: moving in, processing and moving out all tiles one after another computes the whole operator; only the local buffers and the output
    are changed. *)
Theorem pipeline_whole shape tile si so d1 d2 bi li lo bo X Y op m :
  tiling shape tile -> tiled_side 0 shape tile si -> tiled_side 0 shape tile so -> prod tile < 2 ^ 31 -> length d1 = length shape -> length d2 = length shape ->
  In (lb_esz bi) [1; 2; 4] -> In (lb_esz lo) [1; 2; 4] -> apart shape tile si so bi li lo bo ->
  let N := Z.to_nat (total_count (tile_cfg shape tile (seq 0 (length shape)) 0)) in
  (forall n, (n < N)%nat -> computes shape tile li lo X Y op n) ->
  (forall c, valid shape c -> m (lb_data bi + addr si c) = Some (X c)) ->
  (forall a, in_local li tile a \/ in_local lo tile a -> allocated m a) -> (forall c, valid shape c -> allocated m (lb_data bo + addr so c)) ->
  exists m', pipeline N (move_create (move_iter 0 shape tile si) (move_iter 1 shape tile d1) bi li) (move_create (move_iter 1 shape tile d2) (move_iter 0 shape tile so) lo bo) op m = Some m'
    /\ (forall c, valid shape c -> m' (lb_data bo + addr so c) = Some (Y c))
    /\ forall a, ~ in_local li tile a -> ~ in_local lo tile a -> (forall c, valid shape c -> a <> lb_data bo + addr so c) -> m' a = m a.
Proof.
  intros H Hi Ho Hp L1 L2 E1 E2 [Ap1 Ap2] N Hop HX Hloc Hout. set (min := move_create _ _ bi li). set (mout := move_create _ _ lo bo).
  pose proof (tiling_length _ _ H) as L. destruct (axes_sides shape tile H 0) as (A1 & A2 & A3 & A4 & A5).
  assert (T1 : tiled_side 1 shape tile d1) by (split; assumption). assert (T2 : tiled_side 1 shape tile d2) by (split; assumption).
  assert (Il : forall n, length (tile_base shape tile n) = length shape /\ smaller (tile_dims shape tile n) tile /\ length (tile_dims shape tile n) = length shape).
  { intros n. destruct (tiles_iter_tile shape tile shape n H) as (Sm & Lp & _). split; [exact Lp|]. split; [exact Sm|]. pose proof (smaller_length _ _ Sm) as Lz. fold (tile_dims shape tile n) in Lz. lia. }
  assert (Ib : forall n c, in_box (tile_base shape tile n) (tile_dims shape tile n) c <-> valid (tile_dims shape tile n) (vsub c (tile_base shape tile n)) /\ length c = length shape).
  { intros n c. destruct (Il n) as (B1 & B2 & B3). rewrite in_box_valid by lia. rewrite B1. tauto. }
  assert (Iv : forall n c, in_box (tile_base shape tile n) (tile_dims shape tile n) c -> valid shape c).
  { intros n c Hb. apply Ib in Hb. destruct Hb as [V Lc]. destruct (Il n) as (B1 & _). rewrite <- (vadd_vsub c (tile_base shape tile n)) by lia. apply (tiles_iter_inside shape tile shape n); [exact H|exact V]. }
  assert (Ia : forall b d n c, side_addr 1 (axes 0 shape tile) d b (tile_base shape tile n) c = lb_data b + addr (tile_strides tile) (vsub c (tile_base shape tile n))).
  { intros b d n c. unfold side_addr, side_stride. change (1 =? 0) with false. cbv iota. rewrite A3. reflexivity. }
  assert (Ir : forall b n c, valid (tile_dims shape tile n) c -> in_local b tile (lb_data b + addr (tile_strides tile) c)).
  { intros b n c V. destruct (Il n) as (_ & B2 & _). pose proof (tile_addr_range _ _ c B2 V). unfold in_local. lia. }
  assert (G : forall k, (k <= N)%nat -> exists m', pipeline k min mout op m = Some m'
    /\ (forall a, allocated m a -> allocated m' a)
    /\ (forall n c, (n < k)%nat -> in_box (tile_base shape tile n) (tile_dims shape tile n) c -> m' (lb_data bo + addr so c) = Some (Y c))
    /\ forall a, ~ in_local li tile a -> ~ in_local lo tile a -> (forall c, valid shape c -> a <> lb_data bo + addr so c) -> m' a = m a).
  { induction k as [|k IH]; intros Hk; cbn [pipeline].
    - exists m. split; [reflexivity|]. split; [auto|]. split; [intros; lia|auto].
    - destruct IH as (m0 & -> & Al0 & V0 & F0); [lia|]. cbn [bind]. unfold min, mout.
      (* move in *)
      destruct (move_in shape tile si d1 bi li m0 m0 X k H Hi Hp L1 E1) as (m1 & M1 & H1 & Fr1).
      { intros c Vc. destruct (Ap1 c Vc) as (Q1 & Q2 & Q3). rewrite F0 by assumption. apply HX. exact Vc. }
      { intros c Vc. apply Al0. apply Hloc. left. apply (Ir li k c). exact Vc. }
      assert (S1 : move_issue1 (move_updates k (move_create (move_iter 0 shape tile si) (move_iter 1 shape tile d1) bi li)) m0 = Some m1).
      { rewrite <- M1. destruct (move_iter_at 0 shape tile si k H Hi) as [Ep Ez]. unfold move_iter in *. rewrite tile_cfg_axes in * by exact L.
        apply (move_issue1_two 0 1 (axes 0 shape tile) shape si d1 bi li m0 k (axes_order _ _ L) A1 (tiled_side_ok _ _ _ _ H Hi) (tiled_side_ok _ _ _ _ H T1)).
        rewrite Ep, Ez. intros c c' Hc Hc'. rewrite Ia. change (side_addr 0 (axes 0 shape tile) si bi (tile_base shape tile k) c) with (lb_data bi + addr si c).
        intros E. apply (proj1 (Ap1 c (Iv k c Hc))). rewrite E. apply (Ir li k). apply Ib in Hc'. apply Hc'. }
      rewrite S1. cbn [bind].
      assert (Fr1' : frame_ok (local_tile li shape tile k) m0 m1) by exact Fr1.
      assert (H1' : holds m1 (local_tile li shape tile k) X (tile_base shape tile k)) by exact H1.
      assert (Al1 : forall a, allocated m a -> allocated m1 a) by (intros a Ha; apply (frame_alloc _ _ _ _ _ _ H1' Fr1'); apply Al0; exact Ha).
      assert (N1 : forall a, ~ in_local li tile a -> m1 a = m0 a) by (intros a Ha; apply Fr1'; intros c Vc ->; apply Ha; apply (Ir li k c); exact Vc).
      (* the operator *)
      destruct (Hop k ltac:(lia) m1) as (m2 & -> & H2 & Fr2); [intros a Ha; apply Al1; apply Hloc; exact Ha|exact H1'|]. cbn [bind].
      assert (Al2 : forall a, allocated m a -> allocated m2 a) by (intros a Ha; apply (frame_alloc _ _ _ _ _ _ H2 Fr2); apply Al1; exact Ha).
      assert (N2 : forall a, ~ in_local lo tile a -> m2 a = m1 a) by (intros a Ha; apply Fr2; intros c Vc ->; apply Ha; apply (Ir lo k c); exact Vc).
      (* move out *)
      destruct (move_iter_at 1 shape tile d2 k H T2) as [Ep Ez]. unfold move_iter in *. rewrite tile_cfg_axes in * by exact L.
      destruct (move_tile 1 0 (axes 0 shape tile) shape d2 so lo bo m2 m2 Y k (axes_order _ _ L) A1 (tiled_side_ok _ _ _ _ H T2) (tiled_side_ok _ _ _ _ H Ho) E2) as (m3 & M3 & V3 & F3).
      { rewrite Ep, Ez. intros c Hc. rewrite Ia. pose proof Hc as Hb. apply Ib in Hb. destruct Hb as [Vc Lc]. destruct (Il k) as (B1 & _).
        pose proof (H2 _ Vc) as R. cbn [local_tile t_data t_stride] in R. rewrite vadd_vsub in R by lia. exact R. }
      { rewrite Ep, Ez. intros c Hc. apply Al2. apply Hout. exact (Iv k c Hc). }
      rewrite Ep, Ez in V3, F3.
      assert (S3 : move_issue1 (move_updates k (move_create (mi_new 1 (axes 0 shape tile) shape d2) (mi_new 0 (axes 0 shape tile) shape so) lo bo)) m2 = Some m3).
      { rewrite <- M3. apply (move_issue1_two 1 0 (axes 0 shape tile) shape d2 so lo bo m2 k (axes_order _ _ L) A1 (tiled_side_ok _ _ _ _ H T2) (tiled_side_ok _ _ _ _ H Ho)).
        rewrite Ep, Ez. intros c c' Hc Hc'. rewrite Ia. change (side_addr 0 (axes 0 shape tile) so bo (tile_base shape tile k) c') with (lb_data bo + addr so c').
        intros E. apply (proj2 (Ap2 c' (Iv k c' Hc'))). rewrite <- E. apply (Ir lo k). apply Ib in Hc. apply Hc. }
      exists m3. split; [exact S3|].
      assert (Hn : nested shape so) by (apply Ho).
      assert (W3 : forall c, valid shape c -> in_box (tile_base shape tile k) (tile_dims shape tile k) c \/ m3 (lb_data bo + addr so c) = m2 (lb_data bo + addr so c)).
      { intros c Vc. destruct (Il k) as (B1 & B2 & B3). destruct (in_box_dec (tile_base shape tile k) (tile_dims shape tile k) c ltac:(lia)) as [Hb|Hb]; [auto|]. right. apply F3.
        intros c' Hc' E. change (side_addr 0 (axes 0 shape tile) so bo (tile_base shape tile k) c') with (lb_data bo + addr so c') in E. apply Hb.
        replace c with c'; [exact Hc'|]. apply (nested_inj shape so c' c Hn); [exact (Iv k c' Hc')|exact Vc|lia]. }
      split; [|split].
      + intros a Ha. destruct (in_dec Z.eq_dec a (map (fun c => lb_data bo + addr so c) (coords shape))) as [Hin|Hin].
        * apply in_map_iff in Hin. destruct Hin as (c & <- & Hc). apply in_coords in Hc. destruct (W3 c Hc) as [Hb|E]; unfold allocated.
          -- change (lb_data bo + addr so c) with (side_addr 0 (axes 0 shape tile) so bo (tile_base shape tile k) c). rewrite (V3 c Hb). discriminate.
          -- rewrite E. apply Al2. exact Ha.
        * unfold allocated. rewrite F3; [apply Al2; exact Ha|]. intros c Hc ->. apply Hin. apply in_map_iff. exists c. split; [reflexivity|]. apply in_coords. exact (Iv k c Hc).
      + intros n c Hn' Hb. destruct (W3 c (Iv n c Hb)) as [Hbk|E]; [exact (V3 c Hbk)|]. destruct (Nat.eq_dec n k) as [-> |]; [exact (V3 c Hb)|].
        rewrite E. destruct (Ap2 c (Iv n c Hb)) as [Q1 Q2]. rewrite N2, N1 by assumption. apply (V0 n); [lia|exact Hb].
      + intros a Q1 Q2 Q3. rewrite F3; [rewrite N2, N1 by assumption; apply F0; assumption|]. intros c Hc. exact (Q3 c (Iv k c Hc)). }
  destruct (G N (le_n _)) as (m' & E & _ & V & F). exists m'. split; [exact E|]. split; [|exact F].
  intros c Vc. destruct (tiles_iter_cover shape tile shape c H Vc) as (n & [Hn Hv] & _). unfold N in V. rewrite tile_cfg_axes in V by exact L.
  apply (V n c); [lia|]. apply Ib. split; [exact Hv|apply (valid_length _ _ Vc)].
Qed.

(** C74 for Clip: the local buffers may coincide. *)
Theorem clip_pipeline shape tile si so d1 d2 bi li lo bo pm p l h X m :
  (length shape <= 4)%nat -> tiling shape tile -> tiled_side 0 shape tile si -> tiled_side 0 shape tile so -> prod tile < 2 ^ 31 -> length d1 = length shape -> length d2 = length shape ->
  In (lb_esz bi) [1; 2; 4] -> In (lb_esz lo) [1; 2; 4] -> apart shape tile si so bi li lo bo -> lb_data li = lb_data lo \/ (forall a, in_local li tile a -> ~ in_local lo tile a) ->
  pm p = Some l -> pm (p + 1) = Some h ->
  let N := Z.to_nat (total_count (tile_cfg shape tile (seq 0 (length shape)) 0)) in let it := tiles_iter shape tile (tile_strides tile) in
  (forall c, valid shape c -> m (lb_data bi + addr si c) = Some (X c)) ->
  (forall a, in_local li tile a \/ in_local lo tile a -> allocated m a) -> (forall c, valid shape c -> allocated m (lb_data bo + addr so c)) ->
  exists m', pipeline N (move_create (move_iter 0 shape tile si) (move_iter 1 shape tile d1) bi li) (move_create (move_iter 1 shape tile d2) (move_iter 0 shape tile so) lo bo)
      (fun n => clip_issue pm p (un_updates n (un_create it it li lo))) m = Some m'
    /\ (forall c, valid shape c -> m' (lb_data bo + addr so c) = Some (Z.min (Z.max (X c) l) h))
    /\ forall a, ~ in_local li tile a -> ~ in_local lo tile a -> (forall c, valid shape c -> a <> lb_data bo + addr so c) -> m' a = m a.
Proof.
  intros R4 H Hi Ho Hp L1 L2 E1 E2 Ap Hll Hl Hh N it HX Hloc Hout.
  apply (pipeline_whole shape tile si so d1 d2 bi li lo bo X (fun c => Z.min (Z.max (X c) l) h)); try assumption. clear HX Hloc Hout. clear m.
  intros n _ m Hloc HX. rewrite un_updates_val. unfold un_create. unfold it. rewrite !tile_of_local by exact H. unfold clip_issue, load. rewrite Hl, Hh. cbn [bind uo_tin uo_tout].
  destruct (tiles_iter_tile shape tile shape n H) as (Sm & Lp & _). fold (tile_dims shape tile n) in Sm. pose proof (smaller_length _ _ Sm) as Lz. pose proof (tiling_length _ _ H) as Lt.
  assert (Ln : length (tile_strides tile) = length (tile_dims shape tile n)) by (rewrite tile_strides_len; lia).
  assert (Nd : nested (tile_dims shape tile n) (tile_strides tile)).
  { apply (smaller_nested _ _ Sm). apply nested_tile. clear - H. induction H as [|D T ? ? HT]; [apply Forall_nil|apply Forall_cons; [lia|assumption]]. }
  assert (Ir : forall b c, valid (tile_dims shape tile n) c -> in_local b tile (lb_data b + addr (tile_strides tile) c)).
  { intros b c V. pose proof (tile_addr_range _ _ c Sm V). unfold in_local. lia. }
  destruct (clip_correct l h (local_tile li shape tile n) (local_tile lo shape tile n) m) as (m' & E & V & Fr).
  - cbn [local_tile t_shape]. lia.
  - exact Ln.
  - exact Ln.
  - reflexivity.
  - intros c Vc. split; apply Hloc; [left|right]; apply Ir; exact Vc.
  - intros c c' Vc Vc' Ea. exact (nested_inj _ _ _ _ Nd Vc Vc' Ea).
  - intros c c' Vc Vc' Hne. cbn [local_tile t_data t_stride t_shape] in *. intros Ea. destruct Hll as [Hll|Hll].
    + apply Hne. apply (nested_inj _ _ _ _ Nd Vc Vc'). lia.
    + apply (Hll _ (Ir li c Vc)). rewrite Ea. apply Ir. exact Vc'.
  - exists m'. split; [exact E|]. split; [|exact Fr]. intros c Vc. etransitivity; [apply (V c Vc)|]. rewrite (holds_rd _ _ _ _ _ HX Vc). reflexivity.
Qed.

(** Non-trivial case: a 3x5 tensor with rows 8 apart, in tiles of 2x2, one local buffer for input and output, result with rows 6 apart. *)
Definition plx_mem : mem := fun a => if (0 <=? a) && (a <? 24) then Some (10 * (a / 8) + a mod 8) else if (100 <=? a) && (a <? 130) then Some 99 else None.
Definition plx_par : mem := fun a => if a =? 0 then Some 3 else if a =? 1 then Some 21 else None.
Example clip_pipeline_ex :
  let it := tiles_iter [3; 5] [2; 2] (tile_strides [2; 2]) in
  tiling [3; 5] [2; 2] /\ tiled_side 0 [3; 5] [2; 2] [8; 1] /\ tiled_side 0 [3; 5] [2; 2] [6; 1] /\ apart [3; 5] [2; 2] [8; 1] [6; 1] (mkLb 0 24 1) (mkLb 100 4 1) (mkLb 100 4 1) (mkLb 110 18 1)
  /\ (do m <- pipeline 6 (move_create (move_iter 0 [3; 5] [2; 2] [8; 1]) (move_iter 1 [3; 5] [2; 2] [8; 1]) (mkLb 0 24 1) (mkLb 100 4 1))
        (move_create (move_iter 1 [3; 5] [2; 2] [6; 1]) (move_iter 0 [3; 5] [2; 2] [6; 1]) (mkLb 100 4 1) (mkLb 110 18 1))
        (fun n => clip_issue plx_par 0 (un_updates n (un_create it it (mkLb 100 4 1) (mkLb 100 4 1)))) plx_mem ;
      Some (map (fun k => m (110 + Z.of_nat k)) (seq 0 18)))
     = Some (map Some [3; 3; 3; 3; 4; 99; 10; 11; 12; 13; 14; 99; 20; 21; 21; 21; 21; 99]).
Proof.
  split; [repeat constructor; lia|]. split; [split; [repeat constructor; lia|cbn; lia]|]. split; [split; [repeat constructor; lia|cbn; lia]|].
  split; [|vm_compute; reflexivity].
  assert (B : forall c, valid [3; 5] c -> 0 <= addr [8; 1] c <= 20 /\ 0 <= addr [6; 1] c <= 16).
  { intros [|x [|y [|z c]]]; cbn [valid addr]; try tauto. lia. }
  split; intros c Vc; pose proof (B c Vc); cbv zeta; unfold in_local; cbn [lb_data]; change (prod [2; 2]) with 4; [|lia].
  split; [lia|]. split; [lia|]. intros c' Vc'. pose proof (B c' Vc'). lia.
Qed.
