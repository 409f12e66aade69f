(** Tile-by-tile data movement with the MLI 3.0 Move object (property C73). *)
From Coq Require Import ZArith List Lia Bool.
From Verif Require Import Base Tensor TensorProofs MovProofs Permute PermuteProofs Ops3 Iter IterProofs IterTheorems TileRun TileProofs TileElt TilePoint TileMove.
Import ListNotations.
Open Scope Z_scope.

(** * The loop over the elements of a tile *)

Definition sizes_fit (sizes : list Z) : Prop := Forall (fun n => 1 <= n < 2 ^ 31) sizes.

Lemma move_count_id sizes : sizes_fit sizes -> move_count sizes = sizes.
Proof.
  intros H. induction H as [|n l Hn H IH]; cbn [move_count map]; [reflexivity|]. fold (move_count l). rewrite IH. rewrite w32_id by lia.
  destruct (Z.leb_spec n 0); [lia|reflexivity].
Qed.

Lemma elem_idx cfg sizes c : length cfg = length sizes -> (idx_ok (elem_cfg cfg sizes) c <-> valid sizes c).
Proof.
  revert sizes c. induction cfg as [|d cfg IH]; intros [|n sizes] [|k c] L; try discriminate; cbn [elem_cfg combine map idx_ok valid]; try tauto.
  fold (elem_cfg cfg sizes). cbn [it_count fst snd]. rewrite IH by (cbn in L; lia). tauto.
Qed.

Lemma elem_counts cfg sizes : sizes_fit sizes -> counts_ok (elem_cfg cfg sizes).
Proof.
  intros H. revert cfg. induction H as [|n l Hn H IH]; intros [|d cfg]; cbn [elem_cfg combine map]; try apply Forall_nil.
  apply Forall_cons; [cbn; lia|apply IH].
Qed.

Lemma elem_start cfg sizes d k : In d (elem_cfg cfg sizes) -> tile_start d k = 0.
Proof.
  unfold elem_cfg. intros H. apply in_map_iff in H. destruct H as ([d0 n] & <- & _). unfold tile_start. cbn [it_first_inc it_inc]. destruct (k =? 0); lia.
Qed.

Lemma elem_len cfg sizes : length cfg = length sizes -> length (elem_cfg cfg sizes) = length sizes.
Proof. intros L. unfold elem_cfg. rewrite map_length, combine_length. lia. Qed.

(** One step over the elements moves the offset to the next element. *)
Lemma elem_next_offset cfg : forall sizes stride c base, length cfg = length sizes -> length stride = length sizes ->
  Forall (fun s => 0 <= s) stride -> 0 <= base -> valid sizes c ->
  snd (fst (iter_next (elem_cfg cfg sizes) (elem_bufs sizes stride) 1 (at_tile (elem_cfg cfg sizes) c) (base + addr stride c)))
    = base + addr stride (next_tile (elem_cfg cfg sizes) c).
Proof.
  induction cfg as [|d cfg IH]; intros [|n sizes] [|s stride] [|k c] base L1 L2 Hs Hb V; try discriminate; cbn [valid] in V; try contradiction.
  - reflexivity.
  - destruct V as [Hk V]. cbn [elem_cfg elem_bufs combine map]. fold (elem_cfg cfg sizes). fold (elem_bufs sizes stride). cbn [fst snd].
    inversion Hs as [|? ? Hs1 Hs2]; subst.
    assert (P : 0 <= addr stride c).
    { assert (L : length stride = length sizes) by (cbn in L2; lia). clear - Hs2 V L. revert c sizes V L. induction Hs2 as [|s stride Hs H IH]; intros [|k c] [|n sizes] V L; try discriminate; cbn [valid addr] in *; try contradiction; try lia.
      destruct V as [Hk V]. pose proof (IH c sizes V ltac:(cbn in L; lia)). nia. }
    cbn [iter_next at_tile next_tile it_count addr]. destruct (k =? n - 1) eqn:E.
    + assert (Ek : k = n - 1) by lia. unfold buffer_next, end_of_dim. change (1 <? 1) with false. cbv iota. cbn [b_last b_dec].
      destruct (Z.leb_spec (n * s) (base + (s * k + addr stride c) + s)); [|nia].
      replace (base + (s * k + addr stride c) + s - n * s) with (base + addr stride c) by (rewrite Ek; ring).
      specialize (IH sizes stride c base ltac:(cbn in L1; lia) ltac:(cbn in L2; lia) Hs2 Hb V).
      destruct (iter_next _ _ _ _ _) as [[st o] dn]. cbn [fst snd addr] in *. lia.
    + unfold buffer_next. change (1 <? 1) with false. cbv iota. destruct (k =? 0); cbn [fst snd b_first b_inc addr]; lia.
Qed.

(** The iterator over the elements of a tile at element [c]. *)
Definition elem_at (cfg : list idim) (sizes stride : list Z) (off : Z) (c : list Z) : miter :=
  mkMi (mkTi (elem_cfg cfg sizes) sizes stride (at_tile (elem_cfg cfg sizes) c)) (elem_bufs sizes stride) 1 (off + addr stride c).

Lemma elem_at_next cfg sizes stride off c : length cfg = length sizes -> length stride = length sizes -> Forall (fun s => 0 <= s) stride -> 0 <= off -> valid sizes c ->
  mi_next (elem_at cfg sizes stride off c)
    = (elem_at cfg sizes stride off (next_tile (elem_cfg cfg sizes) c), tile_no (elem_cfg cfg sizes) c =? total_count (elem_cfg cfg sizes) - 1).
Proof.
  intros L1 L2 Hs Ho V. unfold mi_next, elem_at. cbn [mi_ti mi_bufs mi_bsize mi_offs ti_cfg ti_shape ti_stride ti_st].
  pose proof (elem_next_offset cfg sizes stride c off L1 L2 Hs Ho V) as HO.
  pose proof (iter_next_tile (elem_cfg cfg sizes) (elem_bufs sizes stride) 1 c (off + addr stride c)) as HN.
  assert (Lb : length (elem_bufs sizes stride) = length (elem_cfg cfg sizes)) by (rewrite elem_len by exact L1; unfold elem_bufs; rewrite map_length, combine_length; lia).
  specialize (HN Lb (proj2 (elem_idx cfg sizes c L1) V)).
  destruct (iter_next _ _ _ _ _) as [[st o] dn]. cbn [fst snd] in HO. destruct HN as (-> & _ & _ & ->). rewrite HO. reflexivity.
Qed.

Lemma elem_total cfg : forall sizes, length cfg = length sizes -> total_count (elem_cfg cfg sizes) = prod sizes.
Proof.
  induction cfg as [|d cfg IH]; intros [|n sizes] L; try discriminate; [reflexivity|]. cbn [elem_cfg combine map total_count fold_right prod]. fold (elem_cfg cfg sizes). fold (total_count (elem_cfg cfg sizes)).
  rewrite IH by (cbn in L; lia). reflexivity.
Qed.

(** The loop copies every element from [c] on and changes nothing else. *)
Lemma move_loop_spec cfg1 cfg2 sizes st1 st2 o1 o2 bs bd ms : length cfg1 = length sizes -> length cfg2 = length sizes -> length st1 = length sizes -> length st2 = length sizes ->
  Forall (fun s => 0 <= s) st1 -> Forall (fun s => 0 <= s) st2 -> 0 <= o1 -> 0 <= o2 -> sizes_fit sizes ->
  (forall c c', valid sizes c -> valid sizes c' -> addr st2 c = addr st2 c' -> c = c') ->
  (forall c, valid sizes c -> ms (bs + o1 + addr st1 c) <> None) ->
  let no := tile_no (elem_cfg cfg1 sizes) in
  forall fuel c m, valid sizes c -> Z.of_nat fuel = prod sizes - no c ->
  (forall c', valid sizes c' -> no c <= no c' -> allocated m (bd + o2 + addr st2 c')) ->
  exists m', move_loop fuel (elem_at cfg1 sizes st1 o1 c) (elem_at cfg2 sizes st2 o2 c) bs bd ms m = Some m'
    /\ (forall c', valid sizes c' -> no c <= no c' -> m' (bd + o2 + addr st2 c') = ms (bs + o1 + addr st1 c'))
    /\ forall a, (forall c', valid sizes c' -> no c <= no c' -> a <> bd + o2 + addr st2 c') -> m' a = m a.
Proof.
  intros L1 L2 L3 L4 H1 H2 P1 P2 Hsz Hinj Hrd no.
  assert (Eno : forall c, tile_no (elem_cfg cfg2 sizes) c = no c).
  { unfold no. clear - L1 L2. revert cfg2 sizes L1 L2. induction cfg1 as [|d1 cfg1 IH]; intros [|d2 cfg2] [|n sizes] L1 L2 [|k c]; try discriminate; try reflexivity.
    cbn [elem_cfg combine map tile_no it_count fst snd]. fold (elem_cfg cfg1 sizes). fold (elem_cfg cfg2 sizes). rewrite (IH cfg2 sizes) by (cbn in *; lia). reflexivity. }
  assert (Ent : forall c, next_tile (elem_cfg cfg2 sizes) c = next_tile (elem_cfg cfg1 sizes) c).
  { intros c. apply next_tile_counts. clear - L1 L2. revert cfg2 sizes L1 L2. induction cfg1 as [|d1 cfg1 IH]; intros [|d2 cfg2] [|n sizes] L1 L2; try discriminate; try reflexivity.
    cbn [elem_cfg combine map it_count fst snd]. f_equal. apply (IH cfg2 sizes); cbn in *; lia. }
  induction fuel as [|fuel IH]; intros c m V Hf Hal.
  - exfalso. pose proof (tile_no_range _ _ (proj2 (elem_idx cfg1 sizes c L1) V)) as R. fold (no c) in R. rewrite (elem_total cfg1 sizes L1) in R. lia.
  - cbn [move_loop]. rewrite (elem_at_next cfg1 sizes st1 o1 c L1 L3 H1 P1 V), (elem_at_next cfg2 sizes st2 o2 c L2 L4 H2 P2 V). cbn [elem_at mi_offs]. rewrite Eno, Ent.
    fold (elem_at cfg1 sizes st1 o1 c) (elem_at cfg2 sizes st2 o2 c). fold (no c). rewrite !elem_total by assumption. rewrite Bool.eqb_reflx.
    unfold load. rewrite !Z.add_assoc. destruct (ms (bs + o1 + addr st1 c)) as [v|] eqn:Ev; [|exfalso; exact (Hrd c V Ev)]. cbn [bind].
    rewrite store_ok by (apply Hal; [exact V|lia]). cbn [bind]. set (m1 := fun b => if b =? bd + o2 + addr st2 c then Some v else m b).
    assert (Nc : forall c', valid sizes c' -> no c' = no c -> c' = c).
    { intros c' V' E. apply (tile_no_inj (elem_cfg cfg1 sizes)); [apply elem_idx; assumption|apply elem_idx; assumption|exact E]. }
    pose proof (iter_next_tile (elem_cfg cfg1 sizes) (repeat (mkBdim 0 0 0 0) (length (elem_cfg cfg1 sizes))) 1 c 0 (repeat_length _ _) (proj2 (elem_idx cfg1 sizes c L1) V)) as HN.
    destruct (iter_next _ _ _ _ _) as [[st o] dn]. destruct HN as (_ & Hok & Hno & Hd). fold (no c) in Hno, Hd. fold (no (next_tile (elem_cfg cfg1 sizes) c)) in Hno.
    rewrite elem_total in Hd by exact L1. rewrite <- Hd. destruct dn.
    + exists m1. split; [reflexivity|]. symmetry in Hd. apply Z.eqb_eq in Hd. split.
      * intros c' V' Hle. pose proof (tile_no_range _ _ (proj2 (elem_idx cfg1 sizes c' L1) V')) as R. fold (no c') in R. rewrite (elem_total cfg1 sizes L1) in R.
        rewrite (Nc c' V' ltac:(lia)). unfold m1. rewrite Z.eqb_refl. symmetry. exact Ev.
      * intros a Ha. unfold m1. destruct (Z.eqb_spec a (bd + o2 + addr st2 c)) as [->|]; [|reflexivity]. exfalso. exact (Ha c V ltac:(lia) eq_refl).
    + assert (V1 : valid sizes (next_tile (elem_cfg cfg1 sizes) c)) by (apply (elem_idx cfg1); assumption).
      destruct (IH _ m1 V1) as (m' & E & A & F).
      * rewrite Hno. lia.
      * intros c' V' Hle. unfold allocated, m1. destruct (Z.eqb_spec (bd + o2 + addr st2 c') (bd + o2 + addr st2 c)); [discriminate|]. apply Hal; [exact V'|lia].
      * exists m'. split; [exact E|]. split.
        -- intros c' V' Hle. destruct (Z.eq_dec (no c') (no c)) as [En|En]; [|apply A; [exact V'|lia]].
           rewrite (Nc c' V' En). rewrite F.
           ++ unfold m1. rewrite Z.eqb_refl. symmetry. exact Ev.
           ++ intros c2 V2 Hle2 Ea. assert (c2 = c) by (apply Hinj; [exact V2|exact V|lia]). subst c2. lia.
        -- intros a Ha. rewrite F; [|intros c' V' Hle; apply Ha; [exact V'|lia]]. unfold m1.
           destruct (Z.eqb_spec a (bd + o2 + addr st2 c)) as [->|]; [|reflexivity]. exfalso. exact (Ha c V ltac:(lia) eq_refl).
Qed.

(** * Iterators over a tensor *)

(** The axes are iterated in their own order. *)
Definition own_order (cfg : list idim) : Prop := map it_order cfg = map Z.of_nat (seq 0 (length cfg)).

(** One axis of size [D]: its tiles start inside the tensor and are not empty. *)
Definition walks (d : idim) (D : Z) : Prop :=
  1 <= it_count d /\ 1 <= D < 2 ^ 31 /\ forall k, 0 <= k < it_count d -> 0 <= tile_start d k < D /\ 1 <= plain_len d k.

(** In a buffer of the whole tensor: either the axis has size 1; or all increments used are not 0, and the last one leads back to the
    start of the axis or to its end. *)
Definition whole_axis (d : idim) (D : Z) : Prop :=
  (D = 1 /\ buffer_dim d = 1)
  \/ (1 < D /\ (1 < it_count d -> it_first_inc d <> 0) /\ (2 < it_count d -> it_inc d <> 0)
      /\ it_last_inc d <> 0 /\ (it_last_inc d = - tile_start d (it_count d - 1) \/ it_last_inc d = D - tile_start d (it_count d - 1))).

(** In a buffer of one or more tiles: no tile is larger than the configured size. *)
Definition boxed_axis (d : idim) : Prop := 1 <= it_size d /\ forall k, 0 <= k < it_count d -> plain_len d k <= it_size d.

(** The strides of a contiguous tile. *)
Fixpoint tile_strides (sizes : list Z) : list Z := match sizes with [] => [] | _ :: r => prod r :: tile_strides r end.

Definition dflt_idim : idim := mkIdim (-1) 0 0 0 0 0 0 0.

Lemma own_order_nth cfg i : own_order cfg -> (i < length cfg)%nat -> it_order (nth i cfg dflt_idim) = Z.of_nat i.
Proof.
  intros H Hi. change (-1) with (it_order dflt_idim). rewrite <- (map_nth it_order), H.
  rewrite (nth_indep _ _ (Z.of_nat 0%nat)) by (rewrite map_length, seq_length; exact Hi). rewrite map_nth, seq_nth by exact Hi. reflexivity.
Qed.

Definition buf_walks (d : idim) (b : bdim) (D s : Z) : Prop :=
  1 <= it_count d /\ (forall k, 0 <= k < it_count d -> 0 <= tile_start d k < D)
  /\ (1 < it_count d -> b_first b = it_first_inc d * s) /\ (2 < it_count d -> b_inc b = it_inc d * s)
  /\ (b_last b = - tile_start d (it_count d - 1) * s \/ b_last b = (D - tile_start d (it_count d - 1)) * s) /\ b_dec b = D * s.

Fixpoint bufs_walk (cfg : list idim) (bufs : list bdim) (shape stride : list Z) : Prop :=
  match cfg, bufs, shape, stride with
  | [], [], [], [] => True
  | d :: cfg', b :: bufs', D :: shape', s :: stride' => buf_walks d b D s /\ bufs_walk cfg' bufs' shape' stride'
  | _, _, _, _ => False
  end.

Lemma bufs_walk_nth : forall cfg bufs shape stride d0 b0,
  length bufs = length cfg -> length shape = length cfg -> length stride = length cfg ->
  (forall i, (i < length cfg)%nat -> buf_walks (nth i cfg d0) (nth i bufs b0) (nth i shape 0) (nth i stride 0)) -> bufs_walk cfg bufs shape stride.
Proof.
  induction cfg as [|d cfg IH]; intros [|b bufs] [|D shape] [|s stride] d0 b0 L1 L2 L3 H; try discriminate; cbn [bufs_walk]; [exact I|].
  split; [exact (H 0%nat ltac:(cbn; lia))|]. apply (IH bufs shape stride d0 b0); try (cbn in *; lia). intros i Hi. exact (H (S i) ltac:(cbn; lia)).
Qed.

Lemma walk_starts : forall cfg bufs shape stride idx, bufs_walk cfg bufs shape stride -> idx_ok cfg idx -> valid shape (starts cfg idx).
Proof.
  induction cfg as [|d cfg IH]; intros [|b bufs] [|D shape] [|s stride] [|k idx]; cbn [bufs_walk idx_ok starts valid]; try contradiction; [auto|].
  intros [(Hn & Hk & _) Hb] [Hi Hok]. split; [apply Hk; exact Hi|eauto].
Qed.

Lemma walk_next_offset : forall cfg bufs shape stride idx, nested shape stride -> bufs_walk cfg bufs shape stride -> idx_ok cfg idx ->
  snd (fst (iter_next cfg bufs 1 (at_tile cfg idx) (addr stride (starts cfg idx)))) = addr stride (starts cfg (next_tile cfg idx)).
Proof.
  induction cfg as [|d cfg IH]; intros bufs shape stride idx Hn Hb Hok.
  - destruct idx; [|contradiction]. destruct bufs; reflexivity.
  - destruct idx as [|k idx]; [contradiction|]. destruct bufs as [|b bufs]; [contradiction|]. destruct shape as [|D shape]; [contradiction|]. destruct stride as [|s stride]; [contradiction|].
    destruct Hb as [Hb Hbs]. destruct Hok as [Hk Hok]. destruct Hn as (HD & Hs & Hn1 & Hn).
    destruct Hb as (Hc & Hst & Hf & Hi & Hla & Hde).
    cbn [iter_next at_tile next_tile starts addr].
    pose proof (walk_starts _ _ _ _ _ Hbs Hok) as Hv.
    destruct (nested_addr shape stride (starts cfg idx) Hn Hv) as [[A1 _] A3].
    assert (Hlt : addr stride (starts cfg idx) < s).
    { destruct shape as [|D' shape], stride as [|s' stride]; cbn [nested] in Hn; try tauto; cbn [extent] in A3; lia. }
    destruct (k =? it_count d - 1) eqn:E.
    + assert (Ek : k = it_count d - 1) by lia.
      assert (Eo : end_of_dim b (buffer_next 1 (s * tile_start d k + addr stride (starts cfg idx)) (b_last b)) = addr stride (starts cfg idx)).
      { unfold end_of_dim, buffer_next. change (1 <? 1) with false. cbv iota. rewrite Hde. rewrite <- Ek in Hla. destruct Hla as [-> | ->].
        - replace (s * tile_start d k + addr stride (starts cfg idx) + - tile_start d k * s) with (addr stride (starts cfg idx)) by ring.
          destruct (D * s <=? addr stride (starts cfg idx)) eqn:E2; [nia|reflexivity].
        - replace (s * tile_start d k + addr stride (starts cfg idx) + (D - tile_start d k) * s) with (D * s + addr stride (starts cfg idx)) by ring.
          destruct (Z.leb_spec (D * s) (D * s + addr stride (starts cfg idx))); lia. }
      specialize (IH bufs shape stride idx Hn Hbs Hok).
      rewrite Eo. destruct (iter_next cfg bufs 1 (at_tile cfg idx) (addr stride (starts cfg idx))) as [[st o] dn]. cbn [fst snd starts addr] in *.
      rewrite IH. change (tile_start d 0) with 0. lia.
    + assert (Hk1 : tile_start d (k + 1) = if k =? 0 then tile_start d k + it_first_inc d else tile_start d k + it_inc d).
      { unfold tile_start. destruct (k + 1 =? 0) eqn:E1; [lia|]. destruct (k =? 0) eqn:E2; [assert (k = 0) by lia; subst k|]; lia. }
      destruct (k =? 0) eqn:E2; cbn [fst snd starts addr]; rewrite Hk1; unfold buffer_next; change (1 <? 1) with false; cbv iota.
      * rewrite Hf by lia. lia.
      * rewrite Hi by lia. lia.
Qed.

Lemma Forall2_nth2 : forall (A B : Type) (P : A -> B -> Prop) l1 l2 d1 d2, Forall2 P l1 l2 -> forall i, (i < length l1)%nat -> P (nth i l1 d1) (nth i l2 d2).
Proof. intros A B P l1 l2 d1 d2 H. induction H as [|x y l1 l2 Hxy H IH]; intros [|i] Hi; cbn [length nth] in *; try lia; [exact Hxy|apply IH; lia]. Qed.

Lemma Forall2_len : forall (A B : Type) (P : A -> B -> Prop) l1 l2, Forall2 P l1 l2 -> length l1 = length l2.
Proof. intros A B P l1 l2 H. induction H; cbn; lia. Qed.

Lemma firstn_S_nth : forall (l : list Z) k, (k < length l)%nat -> firstn (S k) l = firstn k l ++ [nth k l 0].
Proof. induction l as [|x l IH]; intros [|k] H; cbn [length] in H; try lia; [reflexivity|]. cbn [firstn nth app] in *. rewrite IH by lia. reflexivity. Qed.

(** A buffer of the whole tensor. *)
Lemma whole_init cfg shape stride : own_order cfg -> Forall2 walks cfg shape -> Forall2 whole_axis cfg shape -> length stride = length shape ->
  exists bufs, buffer_init cfg shape stride = (bufs, 1) /\ bufs_walk cfg bufs shape stride /\ length bufs = length cfg.
Proof.
  intros Ho Hw Hx Ls. pose proof (Forall2_len _ _ _ _ _ Hw) as Lc.
  set (h := fun i => let d := nth i cfg dflt_idim in let ms := nth i stride 0 in let dec := nth i shape 0 * ms in
     if 1 <? nth i shape 0 then let f x := if x =? 0 then ms else x * ms in mkBdim (f (it_first_inc d)) (f (it_inc d)) (f (it_last_inc d)) dec else mkBdim 0 0 0 dec).
  set (g := fun i => if 1 <? nth i shape 0 then 1 else buffer_dim (nth i cfg dflt_idim)).
  assert (Hinit : buffer_init cfg shape stride = (map h (seq 0 (length cfg)), 1)).
  { unfold buffer_init. fold dflt_idim.
    rewrite (fold_left_in_ext _ _ _ (fun (acc : list bdim * Z) i => let '(l, b) := acc in (set_at i (h i) l, b * g i))).
    - rewrite fold_fill by lia. rewrite Nat.sub_diag. cbn [repeat]. rewrite app_nil_r. f_equal. apply fold_ones.
      intros i Hi. apply in_seq in Hi. unfold g. destruct (1 <? nth i shape 0) eqn:E; [reflexivity|].
      destruct (Forall2_nth2 _ _ _ _ _ dflt_idim 0 Hx i ltac:(lia)) as [[_ H]|[H _]]; [exact H|lia].
    - intros [l b] i Hi. apply in_seq in Hi. rewrite own_order_nth by (assumption || lia).
      destruct (Z.of_nat i =? -1) eqn:E; [lia|]. rewrite Nat2Z.id. unfold h, g, buffer_dim.
      destruct (1 <? nth i shape 0); [f_equal; lia|reflexivity]. }
  exists (map h (seq 0 (length cfg))). assert (Hbl : length (map h (seq 0 (length cfg))) = length cfg) by (rewrite map_length, seq_length; reflexivity).
  split; [exact Hinit|]. split; [|exact Hbl].
  apply bufs_walk_nth with (d0 := dflt_idim) (b0 := h 0%nat); [exact Hbl|lia|lia|].
  intros i Hi. rewrite map_nth, seq_nth by lia. cbn [Nat.add].
  pose proof (Forall2_nth2 _ _ _ _ _ dflt_idim 0 Hx i Hi) as X. destruct (Forall2_nth2 _ _ _ _ _ dflt_idim 0 Hw i Hi) as (W1 & W2 & W3).
  unfold h. set (d := nth i cfg dflt_idim) in *. set (D := nth i shape 0) in *. generalize (nth i stride 0). intros ms. clearbody d D. clear - X W1 W2 W3.
  unfold buf_walks. split; [exact W1|]. split; [intros k Hk; apply W3; exact Hk|].
  destruct (1 <? D) eqn:ED.
  - destruct X as [[X _]|(_ & X1 & X2 & X3 & X4)]; [lia|]. cbv zeta. cbn [b_first b_inc b_last b_dec].
    split; [intros Hc; destruct (it_first_inc d =? 0) eqn:E; [specialize (X1 Hc); lia|reflexivity]|].
    split; [intros Hc; destruct (it_inc d =? 0) eqn:E; [specialize (X2 Hc); lia|reflexivity]|].
    split; [|reflexivity]. destruct (it_last_inc d =? 0) eqn:E; [lia|]. destruct X4 as [-> | ->]; auto.
  - assert (D = 1) by lia. subst D. cbn [b_first b_inc b_last b_dec].
    assert (Z0 : forall k, 0 <= k < it_count d -> tile_start d k = 0) by (intros k Hk; pose proof (proj1 (W3 k Hk)); lia).
    split.
    { intros Hc. pose proof (Z0 1 ltac:(lia)) as H. unfold tile_start in H. change (1 =? 0) with false in H. cbv iota in H. lia. }
    split.
    { intros Hc. pose proof (Z0 1 ltac:(lia)) as H. pose proof (Z0 2 ltac:(lia)) as H2. unfold tile_start in H, H2. change (1 =? 0) with false in H. change (2 =? 0) with false in H2. cbv iota in H, H2.
      assert (it_inc d = 0) by lia. lia. }
    split; [|reflexivity]. left. rewrite Z0 by lia. lia.
Qed.

(** A buffer of tiles: its strides, and no increments. *)
Lemma update_strides_tiles tiles cfg stride : tiles <> 0 -> own_order cfg -> Forall (fun d => 1 <= it_size d) cfg -> prod (map it_size cfg) < 2 ^ 31 -> length stride = length cfg ->
  update_strides tiles cfg stride = tile_strides (map it_size cfg).
Proof.
  intros Ht Ho Hs Hp Ls. unfold update_strides. destruct (Z.eqb_spec tiles 0) as [|_]; [contradiction|]. fold dflt_idim.
  assert (G : forall l2 l1, cfg = l1 ++ l2 ->
    fold_right (fun i (acc : list Z * Z) => let '(st, ms) := acc in
      let sz := it_size (nth (Z.to_nat (it_order (nth i cfg dflt_idim))) cfg dflt_idim) in
      if sz =? 0 then acc else (set_at i (wrap 32 ms) st, uwrap 32 (ms * sz))) (stride, 1) (seq (length l1) (length l2))
    = (firstn (length l1) stride ++ tile_strides (map it_size l2), prod (map it_size l2)) /\ 1 <= prod (map it_size l2) < 2 ^ 31).
  { induction l2 as [|d l2 IH]; intros l1 E.
    - cbn. rewrite E, app_nil_r in Ls. rewrite <- Ls, firstn_all, app_nil_r. split; [reflexivity|lia].
    - cbn [length seq fold_right]. specialize (IH (l1 ++ [d])). rewrite <- app_assoc in IH. specialize (IH E). rewrite app_length in IH. cbn [length] in IH.
      replace (length l1 + 1)%nat with (S (length l1)) in IH by lia. destruct IH as [-> P2].
      assert (Hl : (length l1 < length cfg)%nat) by (rewrite E, app_length; cbn; lia).
      rewrite own_order_nth by assumption. rewrite Nat2Z.id.
      assert (En : nth (length l1) cfg dflt_idim = d) by (rewrite E, app_nth2 by lia; rewrite Nat.sub_diag; reflexivity).
      rewrite En. rewrite E in Hs. apply Forall_app in Hs. destruct Hs as [Hs1 Hs2]. inversion Hs2 as [|? ? Hd Hs3]; subst.
      cbv zeta. destruct (Z.eqb_spec (it_size d) 0); [lia|]. cbn [map tile_strides prod fold_right]. fold (prod (map it_size l2)).
      assert (Pb : it_size d * prod (map it_size l2) < 2 ^ 31).
      { rewrite map_app in Hp. clear - Hp Hs1 Hd P2. cbn [map] in Hp. revert Hp. induction Hs1 as [|x l1 Hx Hs1 IH]; cbn [map app prod fold_right]; [auto|].
        fold (prod (map it_size l1 ++ it_size d :: map it_size l2)). intros Hp. apply IH. clear IH.
        assert (1 <= prod (map it_size l1 ++ it_size d :: map it_size l2)).
        { clear Hp. induction Hs1 as [|y l1 Hy Hs1 IH]; cbn [map app prod fold_right]; [fold (prod (map it_size l2)); nia|]. fold (prod (map it_size l1 ++ it_size d :: map it_size l2)). nia. }
        nia. }
      rewrite w32_id by lia. rewrite u32_id by nia. split; [|nia]. f_equal; [|ring].
      rewrite (firstn_S_nth stride (length l1)) by lia.
      rewrite <- app_assoc. cbn [app]. rewrite <- (firstn_length_le stride (n := length l1)) at 1 by lia. apply set_at_app_mid. }
  destruct (G cfg [] eq_refl) as [E _]. cbn [length firstn app] in E. rewrite E. reflexivity.
Qed.

Definition still (b : bdim) : Prop := b_first b = 0 /\ b_inc b = 0 /\ b_last b = 0 /\ 0 < b_dec b.

Lemma still_next : forall cfg bufs st bsize, Forall still bufs -> snd (fst (iter_next cfg bufs bsize st 0)) = 0.
Proof.
  induction cfg as [|d cfg IH]; intros [|b bufs] [|[pos k] st] bsize H; try reflexivity. inversion H as [|? ? (H1 & H2 & H3 & H4) Hr]; subst.
  assert (N : forall x, x = 0 -> buffer_next bsize 0 x = 0) by (intros x ->; unfold buffer_next; destruct (1 <? bsize); [destruct bsize; reflexivity|reflexivity]).
  cbn [iter_next]. destruct (k =? it_count d - 1).
  - rewrite (N _ H3). replace (end_of_dim b 0) with 0 by (unfold end_of_dim; destruct (Z.leb_spec (b_dec b) 0); lia).
    specialize (IH bufs st bsize Hr). destruct (iter_next cfg bufs bsize st 0) as [[st' o] dn]. exact IH.
  - destruct (k =? 0); cbn [fst snd]; apply N; assumption.
Qed.

Lemma tile_strides_pos : forall sizes, Forall (fun n => 1 <= n) sizes -> Forall (fun s => 1 <= s) (tile_strides sizes) /\ 1 <= prod sizes.
Proof.
  intros sizes H. induction H as [|n sizes Hn H [IH1 IH2]]; cbn [tile_strides]; [split; [apply Forall_nil|cbn; lia]|].
  split; [apply Forall_cons; assumption|]. change (prod (n :: sizes)) with (n * prod sizes). nia.
Qed.

Lemma tile_strides_len : forall sizes, length (tile_strides sizes) = length sizes.
Proof. induction sizes; cbn [tile_strides length]; auto. Qed.

Lemma tiles_init cfg stride : own_order cfg -> Forall boxed_axis cfg -> length stride = length cfg -> Forall (fun s => 1 <= s) stride ->
  exists bufs bsize, buffer_init_tiles cfg stride = (bufs, bsize) /\ Forall still bufs /\ length bufs = length cfg.
Proof.
  intros Ho Hx Ls Hs. set (h := fun i => mkBdim 0 0 0 (buffer_dim (nth i cfg dflt_idim) * nth i stride 0)). set (g := fun i => buffer_dim (nth i cfg dflt_idim)).
  assert (Hinit : buffer_init_tiles cfg stride = (map h (seq 0 (length cfg)), fold_left (fun b i => b * g i) (seq 0 (length cfg)) 1)).
  { unfold buffer_init_tiles. fold dflt_idim.
    rewrite (fold_left_in_ext _ _ _ (fun (acc : list bdim * Z) i => let '(l, b) := acc in (set_at i (h i) l, b * g i))).
    - rewrite fold_fill by lia. rewrite Nat.sub_diag. cbn [repeat]. rewrite app_nil_r. reflexivity.
    - intros [l b] i Hi. apply in_seq in Hi. rewrite own_order_nth by (assumption || lia).
      destruct (Z.of_nat i =? -1) eqn:E; [lia|]. rewrite Nat2Z.id. reflexivity. }
  eexists. eexists. split; [exact Hinit|]. split; [|rewrite map_length, seq_length; reflexivity].
  apply Forall_forall. intros b Hb. apply in_map_iff in Hb. destruct Hb as (i & <- & Hi). apply in_seq in Hi. unfold h, still. cbn [b_first b_inc b_last b_dec].
  repeat split. rewrite Forall_forall in Hx, Hs. destruct (Hx (nth i cfg dflt_idim)) as [H1 _]; [apply nth_In; lia|].
  pose proof (Hs (nth i stride 0) ltac:(apply nth_In; lia)). unfold buffer_dim. nia.
Qed.

(** * The two sides of a move *)

(** A side of a move is a buffer of the whole tensor ([tiles] = 0) with strides [stride], or a buffer of tiles. *)
Definition side_ok (tiles : Z) (cfg : list idim) (shape stride : list Z) : Prop :=
  if tiles =? 0 then Forall2 whole_axis cfg shape /\ nested shape stride
  else Forall boxed_axis cfg /\ prod (map it_size cfg) < 2 ^ 31 /\ length stride = length shape.
Definition side_stride (tiles : Z) (cfg : list idim) (stride : list Z) : list Z := if tiles =? 0 then stride else tile_strides (map it_size cfg).
(** Where element [c] of the tensor is in the buffer [b] of a side, when the current tile starts at [pos]. *)
Definition side_addr (tiles : Z) (cfg : list idim) (stride : list Z) (b : lbuf) (pos c : list Z) : Z :=
  lb_data b + addr (side_stride tiles cfg stride) (if tiles =? 0 then c else vsub c pos).

Fixpoint mi_run (i : miter) (n : nat) : miter := match n with O => i | S k => fst (mi_next (mi_run i k)) end.

Lemma move_updates_val n s d bs bd : move_updates n (move_create s d bs bd) = move_create (mi_run s n) (mi_run d n) bs bd.
Proof. induction n as [|n IH]; cbn [move_updates mi_run]; [reflexivity|]. rewrite IH. reflexivity. Qed.

Definition side_off (tiles : Z) (cfg : list idim) (stride idx : list Z) : Z := if tiles =? 0 then addr stride (starts cfg idx) else 0.

Lemma starts_zero cfg : starts cfg (zero_idx cfg) = map (fun _ => 0) cfg.
Proof. induction cfg as [|d cfg IH]; cbn [zero_idx map starts]; [reflexivity|]. fold (zero_idx cfg). rewrite IH. reflexivity. Qed.

Lemma addr_zero : forall (A : Type) (l : list A) stride, addr stride (map (fun _ => 0) l) = 0.
Proof. induction l as [|x l IH]; intros [|s stride]; cbn [map addr]; try reflexivity. rewrite IH. lia. Qed.

Lemma walks_counts cfg shape : Forall2 walks cfg shape -> counts_ok cfg.
Proof. intros H. induction H as [|d D cfg shape [H1 _] H IH]; [apply Forall_nil|]. apply Forall_cons; assumption. Qed.

Lemma side_run tiles cfg shape stride n : own_order cfg -> Forall2 walks cfg shape -> side_ok tiles cfg shape stride ->
  exists bufs bsize, mi_run (mi_new tiles cfg shape stride) n
    = mkMi (mkTi cfg shape (side_stride tiles cfg stride) (at_tile cfg (idx_at cfg n))) bufs bsize (side_off tiles cfg stride (idx_at cfg n)).
Proof.
  intros Ho Hw Hs. pose proof (walks_counts _ _ Hw) as Hc. pose proof (Forall2_len _ _ _ _ _ Hw) as Lc. unfold side_ok in Hs. unfold side_stride, side_off, mi_new.
  destruct (Z.eqb_spec tiles 0) as [-> | Ht].
  - destruct Hs as [Hx Hn]. unfold update_strides. change (0 =? 0) with true. cbv iota.
    destruct (whole_init cfg shape stride Ho Hw Hx) as (bufs & -> & Hb & Lb); [pose proof (nested_length _ _ Hn); lia|]. exists bufs, 1.
    induction n as [|n IH]; cbn [mi_run idx_at].
    + rewrite starts_zero, addr_zero. unfold ti_new. f_equal. f_equal. symmetry. apply at_zero.
    + rewrite IH. unfold mi_next. cbn [mi_ti mi_bufs mi_bsize mi_offs ti_cfg ti_shape ti_stride ti_st].
      pose proof (idx_at_ok cfg n Hc) as Hok. pose proof (walk_next_offset cfg bufs shape stride (idx_at cfg n) Hn Hb Hok) as HO.
      pose proof (iter_next_tile cfg bufs 1 (idx_at cfg n) (addr stride (starts cfg (idx_at cfg n))) Lb Hok) as HN.
      destruct (iter_next _ _ _ _ _) as [[st o] dn]. cbn [fst snd] in *. destruct HN as (-> & _). rewrite HO. reflexivity.
  - destruct Hs as (Hx & Hp & Ls).
    assert (Hz : Forall (fun d => 1 <= it_size d) cfg) by (eapply Forall_impl; [|exact Hx]; intros d [H _]; exact H).
    rewrite update_strides_tiles by (assumption || lia).
    destruct (tile_strides_pos (map it_size cfg)) as [Sp _]; [rewrite Forall_map; exact Hz|].
    destruct (tiles_init cfg (tile_strides (map it_size cfg)) Ho Hx) as (bufs & bsize & -> & Hb & Lb); [rewrite tile_strides_len, map_length; reflexivity|exact Sp|].
    exists bufs, bsize. induction n as [|n IH]; cbn [mi_run idx_at].
    + unfold ti_new. f_equal. f_equal. symmetry. apply at_zero.
    + rewrite IH. unfold mi_next. cbn [mi_ti mi_bufs mi_bsize mi_offs ti_cfg ti_shape ti_stride ti_st].
      pose proof (idx_at_ok cfg n Hc) as Hok. pose proof (still_next cfg bufs (at_tile cfg (idx_at cfg n)) bsize Hb) as HO.
      pose proof (iter_next_tile cfg bufs bsize (idx_at cfg n) 0 Lb Hok) as HN.
      destruct (iter_next _ _ _ _ _) as [[st o] dn]. cbn [fst snd] in *. destruct HN as (-> & _). rewrite HO. reflexivity.
Qed.

(** * The current tile *)

Lemma pieces_at cfg shape idx : Forall2 walks cfg shape -> idx_ok cfg idx -> let sz := piece_sizes cfg shape (at_tile cfg idx) in
  sizes_fit sz /\ length sz = length cfg /\ length (starts cfg idx) = length cfg
  /\ (forall c, valid sz c -> valid shape (vadd (starts cfg idx) c)) /\ (Forall boxed_axis cfg -> smaller sz (map it_size cfg)).
Proof.
  intros H. revert idx. induction H as [|d D cfg shape (W1 & W2 & W3) H IH]; intros [|k idx] Hok; cbn [idx_ok] in Hok; try contradiction.
  - cbn. split; [apply Forall_nil|]. split; [reflexivity|]. split; [reflexivity|]. split; [intros [|? ?]; auto|intros _; apply Forall2_nil].
  - destruct Hok as [Hk Hok]. destruct (IH idx Hok) as (I1 & I2 & I3 & I4 & I5). cbn [at_tile piece_sizes starts length map]. destruct (W3 k Hk) as [Ws Wl].
    assert (E : piece_dim d D (tile_start d k) k = Z.min (D - tile_start d k) (plain_len d k)).
    { unfold piece_dim. fold (plain_len d k). rewrite u32_id by lia. cbv zeta. destruct (Z.ltb_spec (D - tile_start d k) (plain_len d k)); lia. }
    rewrite E. split; [apply Forall_cons; [lia|exact I1]|]. split; [lia|]. split; [lia|]. split.
    + intros [|x c]; cbn [valid vadd]; [tauto|]. intros [Hx V]. split; [lia|apply I4; exact V].
    + intros Hb. inversion Hb as [|? ? [B1 B2] Hb']; subst. specialize (B2 k Hk). apply Forall2_cons; [lia|apply I5; exact Hb'].
Qed.

Lemma nested_tile : forall sizes, Forall (fun n => 1 <= n) sizes -> nested sizes (tile_strides sizes).
Proof.
  intros sizes H. induction H as [|n sizes Hn H IH]; cbn [tile_strides nested]; [exact I|]. split; [lia|].
  destruct (tile_strides_pos sizes H) as [_ Hp]. split; [lia|]. split; [|exact IH].
  destruct sizes as [|n' sizes]; cbn [tile_strides]; [exact I|]. change (prod (n' :: sizes)) with (n' * prod sizes). lia.
Qed.

Lemma addr_vsub : forall st a b, length a = length st -> length b = length st -> addr st (vsub a b) = addr st a - addr st b.
Proof. induction st as [|s st IH]; intros [|x a] [|y b] L1 L2; try discriminate; [reflexivity|]. cbn [vsub addr]. rewrite IH by (cbn in *; lia). ring. Qed.

Lemma vsub_vadd : forall a b, length a = length b -> vsub (vadd a b) a = b.
Proof. induction a as [|x a IH]; intros [|y b] L; try discriminate; [reflexivity|]. cbn [vsub vadd]. rewrite IH by (cbn in L; lia). f_equal. ring. Qed.

Lemma vadd_len : forall a b, length a = length b -> length (vadd a b) = length a.
Proof. induction a as [|x a IH]; intros [|y b] L; try discriminate; [reflexivity|]. cbn [vadd length]. rewrite IH by (cbn in L; lia). reflexivity. Qed.

Lemma vadd_zeros : forall (a b : list Z), length a = length b -> vadd a (map (fun _ => 0) b) = a.
Proof. induction a as [|x a IH]; intros [|y b] L; try discriminate; [reflexivity|]. cbn [vadd map]. rewrite IH by (cbn in L; lia). f_equal. ring. Qed.

Lemma nested_pos : forall sh st, nested sh st -> Forall (fun s => 0 <= s) st.
Proof. induction sh as [|d sh IH]; intros [|s st] H; cbn [nested] in H; try contradiction; [apply Forall_nil|]. apply Forall_cons; [lia|apply IH; tauto]. Qed.

Lemma addr_pos : forall sizes stride c, Forall (fun s => 0 <= s) stride -> valid sizes c -> length stride = length sizes -> 0 <= addr stride c.
Proof.
  induction sizes as [|n sizes IH]; intros [|s stride] [|k c] Hs V L; try discriminate; cbn [valid addr] in *; try contradiction; try lia.
  inversion Hs as [|? ? H1 H2]; subst. destruct V as [Hk V]. pose proof (IH stride c H2 V ltac:(cbn in L; lia)). nia.
Qed.

(** What a side provides: strides, the offset of the current tile, and distinct places for the elements of the tile. *)
Lemma side_facts tiles cfg shape stride idx : Forall2 walks cfg shape -> idx_ok cfg idx -> side_ok tiles cfg shape stride ->
  let sz := piece_sizes cfg shape (at_tile cfg idx) in let st := side_stride tiles cfg stride in
  length st = length cfg /\ Forall (fun s => 0 <= s) st /\ 0 <= side_off tiles cfg stride idx
  /\ (forall c c', valid sz c -> valid sz c' -> addr st c = addr st c' -> c = c')
  /\ forall b c, length c = length cfg -> side_addr tiles cfg stride b (starts cfg idx) c = lb_data b + side_off tiles cfg stride idx + addr st (vsub c (starts cfg idx)).
Proof.
  intros Hw Hok Hs sz st. destruct (pieces_at cfg shape idx Hw Hok) as (P1 & P2 & P3 & P4 & P5). fold sz in P1, P2, P4, P5. pose proof (Forall2_len _ _ _ _ _ Hw) as Lc.
  unfold side_ok in Hs. unfold st, side_addr, side_off, side_stride. destruct (tiles =? 0).
  - destruct Hs as [Hx Hn]. pose proof (nested_length _ _ Hn) as Ln. pose proof (nested_pos _ _ Hn) as Np.
    split; [lia|]. split; [exact Np|].
    split.
    { apply (addr_pos shape); [exact Np| |lia]. pose proof (P4 (map (fun _ => 0) sz)) as Z0.
      assert (V0 : valid sz (map (fun _ => 0) sz)) by (clear - P1; induction P1 as [|n l Hn P1 IH]; cbn [map valid]; [exact I|split; [lia|exact IH]]).
      specialize (Z0 V0). replace (vadd (starts cfg idx) (map (fun _ => 0) sz)) with (starts cfg idx) in Z0; [exact Z0|].
      symmetry. apply vadd_zeros. lia. }
    split.
    { intros c c' V V' E. pose proof (valid_length _ _ V). pose proof (valid_length _ _ V').
      assert (Ec : vadd (starts cfg idx) c = vadd (starts cfg idx) c').
      { apply (nested_inj shape stride); [exact Hn|apply P4; exact V|apply P4; exact V'|].
        pose proof (addr_vsub stride (vadd (starts cfg idx) c) (starts cfg idx)) as A1. rewrite vsub_vadd in A1 by lia. rewrite vadd_len in A1 by lia.
        pose proof (addr_vsub stride (vadd (starts cfg idx) c') (starts cfg idx)) as A2. rewrite vsub_vadd in A2 by lia. rewrite vadd_len in A2 by lia.
        specialize (A1 ltac:(lia) ltac:(lia)). specialize (A2 ltac:(lia) ltac:(lia)). lia. }
      rewrite <- (vsub_vadd (starts cfg idx) c), Ec, vsub_vadd by lia. reflexivity. }
    intros b c L. rewrite addr_vsub by lia. lia.
  - destruct Hs as (Hb & Hp & Ls).
    assert (Hz : Forall (fun n => 1 <= n) (map it_size cfg)) by (rewrite Forall_map; eapply Forall_impl; [|exact Hb]; intros d [H _]; exact H).
    pose proof (nested_tile _ Hz) as Hn. split; [rewrite tile_strides_len, map_length; reflexivity|]. split; [apply (nested_pos _ _ Hn)|]. split; [lia|].
    split; [|intros b c L; lia]. intros c c' V V' E. pose proof (smaller_nested _ _ (P5 Hb) _ Hn) as Hn'. apply (nested_inj _ _ c c' Hn' V V' E).
Qed.

(** C73 part 1: moving one tile. After [n] Updates, Issue copies every element of the current tile, at the position and with the size the
    source iterator reports, from its place in the source to its place in the destination, and changes nothing else. Each side is a buffer
    of the whole tensor or a buffer of one tile. *)
Theorem move_tile ts td cfg shape ss sd bs bd ms m X n :
  own_order cfg -> Forall2 walks cfg shape -> side_ok ts cfg shape ss -> side_ok td cfg shape sd -> In (lb_esz bs) [1; 2; 4] ->
  let i := mi_run (mi_new ts cfg shape ss) n in let pos := ti_pos (mi_ti i) in let size := mi_sizes i in
  (forall c, in_box pos size c -> ms (side_addr ts cfg ss bs pos c) = Some (X c)) ->
  (forall c, in_box pos size c -> allocated m (side_addr td cfg sd bd pos c)) ->
  exists m', move_issue (move_updates n (move_create (mi_new ts cfg shape ss) (mi_new td cfg shape sd) bs bd)) ms m = Some m'
    /\ (forall c, in_box pos size c -> m' (side_addr td cfg sd bd pos c) = Some (X c))
    /\ forall a, (forall c, in_box pos size c -> a <> side_addr td cfg sd bd pos c) -> m' a = m a.
Proof.
  intros Ho Hw Hs Hd He i pos size Hr Ha. pose proof (walks_counts _ _ Hw) as Hc. pose proof (idx_at_ok cfg n Hc) as Hok.
  rewrite move_updates_val. destruct (side_run ts cfg shape ss n Ho Hw Hs) as (b1 & z1 & E1). destruct (side_run td cfg shape sd n Ho Hw Hd) as (b2 & z2 & E2).
  destruct (side_facts ts cfg shape ss _ Hw Hok Hs) as (S1 & S2 & S3 & S4 & S5). destruct (side_facts td cfg shape sd _ Hw Hok Hd) as (D1 & D2 & D3 & D4 & D5).
  destruct (pieces_at cfg shape _ Hw Hok) as (P1 & P2 & P3 & P4 & _).
  assert (Ep : pos = starts cfg (idx_at cfg n)) by (unfold pos, i; rewrite E1; cbn [mi_ti]; apply ti_pos_at).
  assert (Ez : size = piece_sizes cfg shape (at_tile cfg (idx_at cfg n))) by (unfold size, i; rewrite E1; reflexivity).
  clearbody pos size. clear i. set (idx := idx_at cfg n) in *. rewrite <- Ep, <- Ez in *.
  assert (Ib : forall c, in_box pos size c <-> valid size (vsub c pos) /\ length c = length cfg) by (intros c; rewrite in_box_valid by lia; rewrite P3; tauto).
  assert (Iv : forall c, valid size c -> in_box pos size (vadd pos c)).
  { intros c V. pose proof (valid_length _ _ V). apply Ib. rewrite vsub_vadd by lia. rewrite vadd_len by lia. auto. }
  unfold move_issue, move_create. cbn [mo_src mo_dst mo_bs mo_bd].
  assert (Eb : (lb_esz bs =? 1) || (lb_esz bs =? 2) || (lb_esz bs =? 4) = true) by (cbn [In] in He; destruct He as [<-|[<-|[<-|[]]]]; reflexivity).
  rewrite Eb. rewrite E1, E2. unfold mi_sizes, mi_elements. cbn [mi_ti mi_offs ti_cfg ti_shape ti_stride ti_st ti_new]. unfold mi_sizes. cbn [mi_ti ti_cfg ti_shape ti_st]. rewrite <- Ez.
  rewrite move_count_id by exact P1. rewrite elem_total by lia.
  set (o1 := side_off ts cfg ss idx) in *. set (o2 := side_off td cfg sd idx) in *. set (st1 := side_stride ts cfg ss) in *. set (st2 := side_stride td cfg sd) in *.
  set (zc := zero_idx (elem_cfg cfg size)).
  assert (Hec : counts_ok (elem_cfg cfg size)) by (apply elem_counts; exact P1).
  destruct (zero_ok _ Hec) as [Zok Zno]. fold zc in Zok, Zno.
  assert (Vz : valid size zc) by (apply (elem_idx cfg); [lia|exact Zok]).
  assert (Eat : forall st o, mkMi (mkTi (elem_cfg cfg size) size st (iter_reset (elem_cfg cfg size))) (elem_bufs size st) 1 o = elem_at cfg size st o zc).
  { intros st o. unfold elem_at, zc. rewrite at_zero. unfold zero_idx. rewrite addr_zero, Z.add_0_r. reflexivity. }
  unfold ti_new. rewrite !Eat.
  destruct (move_loop_spec cfg cfg size st1 st2 o1 o2 (lb_data bs) (lb_data bd) ms) with (fuel := Z.to_nat (prod size)) (c := zc) (m := m) as (m' & E & A & F); try assumption; try lia.
  - intros c V. specialize (Hr _ (Iv c V)). pose proof (valid_length _ _ V). rewrite S5 in Hr by (rewrite vadd_len by lia; lia). rewrite vsub_vadd in Hr by lia. rewrite Hr. discriminate.
  - pose proof (total_pos _ Hec) as T. rewrite elem_total in T by lia. rewrite Zno. lia.
  - intros c V _. specialize (Ha _ (Iv c V)). pose proof (valid_length _ _ V). rewrite D5 in Ha by (rewrite vadd_len by lia; lia). rewrite vsub_vadd in Ha by lia. exact Ha.
  - assert (No : forall c, valid size c -> tile_no (elem_cfg cfg size) zc <= tile_no (elem_cfg cfg size) c).
    { intros c V. rewrite Zno. apply (tile_no_range (elem_cfg cfg size)). apply elem_idx; [lia|exact V]. }
    exists m'. split; [exact E|]. split.
    + intros c Hb. pose proof (Hr c Hb) as R. apply Ib in Hb. destruct Hb as [V L]. rewrite D5 by exact L. rewrite S5 in R by exact L. rewrite <- R. apply A; [exact V|apply No; exact V].
    + intros a Hna. apply F. intros c V _ ->. apply (Hna _ (Iv c V)). pose proof (valid_length _ _ V). rewrite D5 by (rewrite vadd_len by lia; lia). rewrite vsub_vadd by lia. reflexivity.
Qed.

Lemma in_box_dec pos size c : length pos = length size -> in_box pos size c \/ ~ in_box pos size c.
Proof.
  intros L. rewrite in_box_valid by exact L.
  assert (D : forall sh k, valid sh k \/ ~ valid sh k).
  { induction sh as [|n sh IH]; intros [|x k]; cbn [valid]; try tauto. destruct (IH k); [|tauto]. assert (0 <= x < n \/ ~ 0 <= x < n) by lia. tauto. }
  destruct (D size (vsub c pos)); [|tauto]. destruct (Nat.eq_dec (length c) (length pos)); tauto.
Qed.

(** C73 part 2: moving all tiles into a buffer of the whole tensor. When the source of tile [n] holds the elements of [Y] of that tile, the
    loop of Issue and Update over [N] tiles leaves [Y] at every position that lies in one of them, and changes nothing else. Tiles may
    overlap. *)
Theorem move_all ts cfg shape ss sd bs bd (ms : nat -> mem) m Y N :
  own_order cfg -> Forall2 walks cfg shape -> side_ok ts cfg shape ss -> side_ok 0 cfg shape sd -> In (lb_esz bs) [1; 2; 4] ->
  let pos n := ti_pos (mi_ti (mi_run (mi_new ts cfg shape ss) n)) in let size n := mi_sizes (mi_run (mi_new ts cfg shape ss) n) in
  (forall n c, (n < N)%nat -> in_box (pos n) (size n) c -> ms n (side_addr ts cfg ss bs (pos n) c) = Some (Y c)) ->
  (forall c, valid shape c -> allocated m (lb_data bd + addr sd c)) ->
  exists m', move_tiles N (move_create (mi_new ts cfg shape ss) (mi_new 0 cfg shape sd) bs bd) ms m = Some m'
    /\ (forall n c, (n < N)%nat -> in_box (pos n) (size n) c -> m' (lb_data bd + addr sd c) = Some (Y c))
    /\ forall a, (forall n c, (n < N)%nat -> in_box (pos n) (size n) c -> a <> lb_data bd + addr sd c) -> m' a = m a.
Proof.
  intros Ho Hw Hs Hd He pos size. set (ob := move_create _ _ _ _).
  assert (Hin : forall n, length (pos n) = length (size n) /\ forall c, in_box (pos n) (size n) c -> valid shape c).
  { intros n. unfold pos, size. destruct (side_run ts cfg shape ss n Ho Hw Hs) as (b1 & z1 & ->). unfold mi_sizes. cbn [mi_ti ti_cfg ti_shape ti_st]. rewrite ti_pos_at.
    destruct (pieces_at cfg shape (idx_at cfg n) Hw (idx_at_ok cfg n (walks_counts _ _ Hw))) as (_ & P2 & P3 & P4 & _). split; [lia|]. intros c. rewrite in_box_valid by lia. intros [V L]. rewrite <- (vadd_vsub c (starts cfg (idx_at cfg n))) by lia. apply P4. exact V. }
  assert (Hn : nested shape sd) by (apply Hd).
  induction N as [|N IH]; intros Hr Ha; cbn [move_tiles].
  - exists m. split; [reflexivity|]. split; [intros n c Hnn; lia|auto].
  - destruct IH as (m1 & -> & V1 & F1); [intros n c Hnn; apply Hr; lia|exact Ha|]. cbn [bind].
    assert (Al : forall k, (k <= N)%nat -> forall c, valid shape c -> (forall n, (n < N)%nat -> (n < k)%nat \/ ~ in_box (pos n) (size n) c) -> allocated m1 (lb_data bd + addr sd c)).
    { induction k as [|k IHk]; intros Hk c V Hnot.
      - unfold allocated. rewrite F1; [apply Ha; exact V|]. intros n c' Hnn Hb E. destruct (Hnot n Hnn) as [|Hx]; [lia|]. apply Hx.
        replace c with c'; [exact Hb|]. apply (nested_inj shape sd c' c Hn); [apply (Hin n); exact Hb|exact V|lia].
      - destruct (in_box_dec (pos k) (size k) c (proj1 (Hin k))) as [Hb|Hb].
        + unfold allocated. rewrite (V1 k c ltac:(lia) Hb). discriminate.
        + apply IHk; [lia|exact V|]. intros n Hnn. destruct (Hnot n Hnn) as [|]; [|auto]. destruct (Nat.eq_dec n k) as [-> |]; [auto|left; lia]. }
    destruct (move_tile ts 0 cfg shape ss sd bs bd (ms N) m1 Y N Ho Hw Hs Hd He) as (m' & E & V & F).
    + intros c Hc. apply Hr; [lia|exact Hc].
    + intros c Hc. apply (Al N (le_n _)); [apply (Hin N); exact Hc|]. intros n Hnn. left. exact Hnn.
    + fold ob in E. exists m'. split; [exact E|]. split.
      * intros n c Hnn Hb. destruct (in_box_dec (pos N) (size N) c (proj1 (Hin N))) as [HbN|HbN]; [exact (V c HbN)|].
        assert (n <> N) by (intros ->; contradiction). change (lb_data bd + addr sd c) with (side_addr 0 cfg sd bd (pos N) c). rewrite F; [apply (V1 n); [lia|exact Hb]|].
        intros c' Hc' Ea. apply HbN. replace c with c'; [exact Hc'|]. unfold side_addr, side_stride in Ea. change (0 =? 0) with true in Ea. cbv iota in Ea.
        apply (nested_inj shape sd c' c Hn); [apply (Hin N); exact Hc'|apply (Hin n); exact Hb|lia].
      * intros a Hna. rewrite F; [apply F1; intros n c Hnn; apply Hna; lia|]. intros c Hc. exact (Hna N c ltac:(lia) Hc).
Qed.

(** * Tilings *)

Lemma tile_walks o D T : 1 <= T <= D -> D + 2 * T < 2 ^ 31 -> let d := tile_dim o D T 0 in
  walks d D /\ boxed_axis d /\ it_size d = T /\ (T < D \/ D = 1 -> whole_axis d D) /\ (forall k, 0 <= k < it_count d -> piece_dim d D (tile_start d k) k = tile_len d D k).
Proof.
  intros HT HD d. destruct (tile_dim_val o D T 0 HT ltac:(lia) ltac:(lia)) as (E & N1 & N2 & N3). fold d in E. rewrite Z.add_0_r in *. rewrite !Z.sub_0_r in E.
  set (n := ceil_div D T) in *. clearbody n d. subst d.
  assert (M : (D - 1) mod T + 1 = D - (n - 1) * T).
  { replace (D - 1) with (D - 1 - (n - 1) * T + (n - 1) * T) by ring. rewrite Z.mod_add by lia. rewrite Z.mod_small; [ring|]. clear - HT N2. assert (n * T = (n - 1) * T + T) by ring. lia. }
  rewrite M. clear M. set (d := mkIdim _ _ _ _ _ _ _ _).
  assert (St : forall k, tile_start d k = k * T) by (intros k; unfold tile_start, d; cbn [it_first_inc it_inc]; destruct (Z.eqb_spec k 0) as [-> |]; ring).
  assert (Pl : forall k, plain_len d k = if k =? n - 1 then D - (n - 1) * T else T) by (intros k; unfold plain_len, d; cbn [it_count it_last_size it_first_size it_size]; destruct (k =? n - 1); [reflexivity|destruct (k =? 0); reflexivity]).
  assert (Bk : forall k, 0 <= k < n -> 0 <= k * T /\ k * T <= (n - 1) * T) by (intros k Hk; clear - HT Hk; nia).
  split.
  { unfold walks. change (it_count d) with n. split; [exact N1|]. split; [lia|]. intros k Hk. rewrite St, Pl. specialize (Bk k Hk). destruct (Z.eqb_spec k (n - 1)); lia. }
  split.
  { unfold boxed_axis. change (it_size d) with T. change (it_count d) with n. split; [lia|]. intros k Hk. rewrite Pl. destruct (Z.eqb_spec k (n - 1)); lia. }
  split; [reflexivity|]. split.
  { intros HW. unfold whole_axis. change (it_count d) with n. change (it_first_inc d) with T. change (it_inc d) with T. change (it_last_inc d) with (T * (1 - n) + 0). rewrite St. unfold buffer_dim. change (it_size d) with T. change (it_first_size d) with T.
    destruct (Z.eq_dec D 1) as [->|]; [left; lia|]. right. assert (2 <= n) by (destruct HW; nia). split; [lia|]. split; [lia|]. split; [lia|]. split; [nia|]. left. ring. }
  { intros k Hk. change (it_count d) with n in Hk. unfold tile_len, tile_size, piece_dim. rewrite St. specialize (Bk k Hk). change (it_count d) with n. change (it_size d) with T. change (it_first_size d) with T. change (it_last_size d) with (D - (n - 1) * T).
    rewrite (u32_id (k * T)), (u32_id (D - k * T)) by lia. cbv zeta. assert (Hlt : k < n - 1 -> k * T + T <= (n - 1) * T) by (intros; nia).
    destruct (Z.eqb_spec k (n - 1)) as [-> |]; [rewrite Z.ltb_irrefl; reflexivity|]. specialize (Hlt ltac:(lia)). destruct (k =? 0); (destruct (Z.ltb_spec (D - k * T) T); [lia|]); [reflexivity|]. rewrite Z.min_r by lia. reflexivity. }
Qed.

Lemma axes_order shape tile : length tile = length shape -> own_order (axes 0 shape tile).
Proof.
  intros L. unfold own_order. rewrite <- (tile_cfg_axes shape tile L). rewrite tile_cfg_orders. f_equal. f_equal.
  rewrite <- (map_length it_order), tile_cfg_orders, map_length, seq_length. reflexivity.
Qed.

Lemma axes_sides shape tile : tiling shape tile -> forall k, Forall2 walks (axes k shape tile) shape /\ Forall boxed_axis (axes k shape tile)
  /\ map it_size (axes k shape tile) = tile /\ (Forall2 (fun D T => T < D \/ D = 1) shape tile -> Forall2 whole_axis (axes k shape tile) shape)
  /\ forall idx, idx_ok (axes k shape tile) idx -> piece_sizes (axes k shape tile) shape (at_tile (axes k shape tile) idx) = sizes_at (axes k shape tile) shape idx.
Proof.
  intros H. induction H as [|D T shape tile [HT HD] H IH]; intros k; cbn [axes].
  - split; [apply Forall2_nil|]. split; [apply Forall_nil|]. split; [reflexivity|]. split; [intros _; apply Forall2_nil|reflexivity].
  - destruct (IH (S k)) as (I1 & I2 & I3 & I4 & I5). destruct (tile_walks (Z.of_nat k) D T HT ltac:(lia)) as (W1 & W2 & W3 & W4 & W5).
    split; [apply Forall2_cons; assumption|]. split; [apply Forall_cons; assumption|]. split; [cbn [map]; rewrite W3, I3; reflexivity|].
    split; [intros Hx; inversion Hx; subst; apply Forall2_cons; auto|].
    intros [|j idx]; cbn [idx_ok]; [contradiction|]. intros [Hj Hok]. cbn [at_tile piece_sizes sizes_at]. rewrite W5 by exact Hj. rewrite I5 by exact Hok. reflexivity.
Qed.

(** Either side, for a tensor cut into tiles of a given size: a buffer of the whole tensor needs every axis to be cut or of size 1; a
    buffer of one tile has no condition but its size. *)
Definition tiled_side (tiles : Z) (shape tile stride : list Z) : Prop :=
  if tiles =? 0 then Forall2 (fun D T => T < D \/ D = 1) shape tile /\ nested shape stride
  else prod tile < 2 ^ 31 /\ length stride = length shape.

Lemma tiled_side_ok tiles shape tile stride : tiling shape tile -> tiled_side tiles shape tile stride ->
  side_ok tiles (axes 0 shape tile) shape stride.
Proof.
  intros H. destruct (axes_sides shape tile H 0) as (A1 & A2 & A3 & A4 & _). unfold tiled_side, side_ok. destruct (tiles =? 0); [tauto|]. rewrite A3. tauto.
Qed.

(** The iterators of a user. *)
Definition move_iter (tiles : Z) (shape tile stride : list Z) : miter := mi_new tiles (tile_cfg shape tile (seq 0 (length shape)) 0) shape stride.
Definition tile_base (shape tile : list Z) (n : nat) : list Z := ti_pos (ti_run (tiles_iter shape tile shape) n).
Definition tile_dims (shape tile : list Z) (n : nat) : list Z := ti_size (ti_run (tiles_iter shape tile shape) n).

Lemma move_iter_at tiles shape tile stride n : tiling shape tile -> tiled_side tiles shape tile stride ->
  ti_pos (mi_ti (mi_run (move_iter tiles shape tile stride) n)) = tile_base shape tile n /\ mi_sizes (mi_run (move_iter tiles shape tile stride) n) = tile_dims shape tile n.
Proof.
  intros H Hs. unfold tile_base, tile_dims, move_iter. pose proof (tiling_length _ _ H) as L. rewrite tile_cfg_axes by exact L. destruct (axes_sides shape tile H 0) as (A1 & A2 & A3 & A4 & A5).
  destruct (tiles_iter_tile shape tile shape n H) as (_ & _ & _ & _ & -> & ->).
  destruct (side_run tiles (axes 0 shape tile) shape stride n (axes_order _ _ L) A1 (tiled_side_ok _ _ _ _ H Hs)) as (b & z & ->).
  cbn [mi_ti]. rewrite ti_pos_at. split; [reflexivity|]. unfold mi_sizes. cbn [mi_ti ti_cfg ti_shape ti_st]. apply A5. apply idx_at_ok. apply axes_counts. exact H.
Qed.

(** C73 part 3, move in: from a buffer of the whole tensor into a buffer of one tile. The tile buffer then holds tile [n], contiguous with
    the strides of a full tile. *)
Theorem move_in shape tile ss sd bs bd ms m X n : tiling shape tile -> tiled_side 0 shape tile ss -> prod tile < 2 ^ 31 -> length sd = length shape -> In (lb_esz bs) [1; 2; 4] ->
  (forall c, valid shape c -> ms (lb_data bs + addr ss c) = Some (X c)) ->
  let t := mkTensor (lb_data bd) (lb_cap bd) (lb_esz bd) (tile_dims shape tile n) (tile_strides tile) false (-1) 0 in
  (forall c, valid (t_shape t) c -> allocated m (lb_data bd + addr (tile_strides tile) c)) ->
  exists m', move_issue (move_updates n (move_create (move_iter 0 shape tile ss) (move_iter 1 shape tile sd) bs bd)) ms m = Some m'
    /\ holds m' t X (tile_base shape tile n)
    /\ forall a, (forall c, valid (t_shape t) c -> a <> lb_data bd + addr (tile_strides tile) c) -> m' a = m a.
Proof.
  intros H Hs Hp Ls He Hr t Ha. pose proof (tiling_length _ _ H) as L. destruct (axes_sides shape tile H 0) as (A1 & A2 & A3 & A4 & A5).
  assert (Hd : tiled_side 1 shape tile sd) by (split; assumption).
  destruct (move_iter_at 0 shape tile ss n H Hs) as [Ep Ez]. unfold move_iter in *. rewrite tile_cfg_axes in * by exact L.
  destruct (tiles_iter_tile shape tile shape n H) as (Sm & Lp & _). fold (tile_dims shape tile n) in Sm. fold (tile_base shape tile n) in Lp.
  pose proof (smaller_length _ _ Sm) as Lz.
  assert (Ib : forall c, in_box (tile_base shape tile n) (tile_dims shape tile n) c <-> valid (tile_dims shape tile n) (vsub c (tile_base shape tile n)) /\ length c = length shape) by (intros c; rewrite in_box_valid by lia; rewrite Lp; tauto).
  assert (Iv : forall c, valid (tile_dims shape tile n) c -> in_box (tile_base shape tile n) (tile_dims shape tile n) (vadd (tile_base shape tile n) c)).
  { intros c V. pose proof (valid_length _ _ V). apply Ib. rewrite vsub_vadd by lia. rewrite vadd_len by lia. auto. }
  assert (Ea : forall c, side_addr 1 (axes 0 shape tile) sd bd (tile_base shape tile n) c = lb_data bd + addr (tile_strides tile) (vsub c (tile_base shape tile n))).
  { intros c. unfold side_addr, side_stride. change (1 =? 0) with false. cbv iota. rewrite A3. reflexivity. }
  destruct (move_tile 0 1 (axes 0 shape tile) shape ss sd bs bd ms m X n (axes_order _ _ L) A1 (tiled_side_ok _ _ _ _ H Hs) (tiled_side_ok _ _ _ _ H Hd) He) as (m' & E & V & F).
  - rewrite Ep, Ez. intros c Hc. apply Ib in Hc. destruct Hc as [V Lc]. change (side_addr 0 (axes 0 shape tile) ss bs (tile_base shape tile n) c) with (lb_data bs + addr ss c). apply Hr.
    rewrite <- (vadd_vsub c (tile_base shape tile n)) by lia. apply (tiles_iter_inside shape tile shape n); [exact H|exact V].
  - rewrite Ep, Ez. intros c Hc. apply Ib in Hc. rewrite Ea. apply Ha. apply Hc.
  - rewrite Ep, Ez in V, F. exists m'. split; [exact E|]. split.
    + intros c Hc. cbn [t_shape t] in Hc. specialize (V _ (Iv c Hc)). rewrite Ea in V. pose proof (valid_length _ _ Hc). rewrite vsub_vadd in V by lia. exact V.
    + intros a Hna. apply F. intros c Hc. rewrite Ea. apply Hna. apply Ib in Hc. apply Hc.
Qed.

(** C73 part 4: all tiles into a buffer of the whole tensor, from tile buffers (move out: the source of tile [n] holds tile [n] of [Y]) or
    from a buffer of the whole tensor: the destination holds [Y] everywhere, and nothing else changes. *)
Theorem move_out ts shape tile ss sd bs bd (ms : nat -> mem) m Y : tiling shape tile -> tiled_side ts shape tile ss -> tiled_side 0 shape tile sd -> In (lb_esz bs) [1; 2; 4] ->
  let N := Z.to_nat (total_count (tile_cfg shape tile (seq 0 (length shape)) 0)) in
  (forall n c, (n < N)%nat -> valid (tile_dims shape tile n) c ->
     ms n (lb_data bs + (if ts =? 0 then addr ss (vadd (tile_base shape tile n) c) else addr (tile_strides tile) c)) = Some (Y (vadd (tile_base shape tile n) c))) ->
  (forall c, valid shape c -> allocated m (lb_data bd + addr sd c)) ->
  exists m', move_tiles N (move_create (move_iter ts shape tile ss) (move_iter 0 shape tile sd) bs bd) ms m = Some m'
    /\ (forall c, valid shape c -> m' (lb_data bd + addr sd c) = Some (Y c))
    /\ forall a, (forall c, valid shape c -> a <> lb_data bd + addr sd c) -> m' a = m a.
Proof.
  intros H Hs Hd He N Hr Ha. pose proof (tiling_length _ _ H) as L. destruct (axes_sides shape tile H 0) as (A1 & A2 & A3 & A4 & A5).
  pose proof (fun n => move_iter_at ts shape tile ss n H Hs) as Ei. unfold move_iter in *. unfold N in *. clear N. rewrite tile_cfg_axes in * by exact L. set (N := Z.to_nat (total_count (axes 0 shape tile))) in *.
  assert (Il : forall n, length (tile_base shape tile n) = length shape /\ length (tile_dims shape tile n) = length shape).
  { intros n. destruct (tiles_iter_tile shape tile shape n H) as (Sm & Lp & _). split; [exact Lp|]. pose proof (smaller_length _ _ Sm) as Lz. fold (tile_dims shape tile n) in Lz. lia. }
  assert (Ib : forall n c, in_box (tile_base shape tile n) (tile_dims shape tile n) c <-> valid (tile_dims shape tile n) (vsub c (tile_base shape tile n)) /\ length c = length shape).
  { intros n c. destruct (Il n) as [L1 L2]. rewrite in_box_valid by lia. rewrite L1. tauto. }
  destruct (move_all ts (axes 0 shape tile) shape ss sd bs bd ms m Y N (axes_order _ _ L) A1 (tiled_side_ok _ _ _ _ H Hs) (tiled_side_ok _ _ _ _ H Hd) He) as (m' & E & V & F).
  - intros n c Hn. destruct (Ei n) as [-> ->]. intros Hb. apply Ib in Hb. destruct Hb as [Hv Lc]. specialize (Hr n _ Hn Hv). destruct (Il n) as [L1 L2]. rewrite vadd_vsub in Hr by lia.
    unfold side_addr, side_stride. rewrite A3. destruct (ts =? 0); exact Hr.
  - exact Ha.
  - exists m'. split; [exact E|]. split.
    + intros c Vc. destruct (tiles_iter_cover shape tile shape c H Vc) as (n & [Hn Hv] & _).
      apply (V n c); [unfold N; lia|]. destruct (Ei n) as [-> ->]. apply Ib. split; [exact Hv|apply (valid_length _ _ Vc)].
    + intros a Hna. apply F. intros n c Hn. destruct (Ei n) as [-> ->]. intros Hb. apply Ib in Hb. destruct Hb as [Hv Lc]. apply Hna. destruct (Il n) as [L1 L2].
      rewrite <- (vadd_vsub c (tile_base shape tile n)) by lia. apply (tiles_iter_inside shape tile shape n); [exact H|exact Hv].
Qed.

(** * Where it fails, and examples *)

(** A buffer of the whole tensor with an axis that is not cut: of a 2x4 tensor in tiles of 2x2 (element [r; c] is 10 * r + c), the second
    tile starts at [0; 2]; the tile buffer receives [1; 2] and what lies after it and beyond the end of the tensor (-1). *)
Definition mvx_src : mem := fun a => if (0 <=? a) && (a <? 8) then Some (10 * (a / 4) + a mod 4) else if (8 <=? a) && (a <? 16) then Some (-1) else None.
Definition mvx_free : mem := fun a => if (100 <=? a) && (a <? 120) then Some 99 else None.
Theorem move_uncut_refuted :
  let o := move_create (move_iter 0 [2; 4] [2; 2] [4; 1]) (move_iter 1 [2; 4] [2; 2] [4; 1]) (mkLb 0 8 1) (mkLb 100 4 1) in
  tiling [2; 4] [2; 2] /\ nested [2; 4] [4; 1]
  /\ tile_base [2; 4] [2; 2] 1 = [0; 2]
  /\ (do m <- move_issue (move_updates 1 o) mvx_src mvx_free ; Some (map m [100; 101; 102; 103])) = Some [Some 12; Some 13; Some (-1); Some (-1)]
  /\ map (fun c => mvx_src (addr [4; 1] c)) [[0; 2]; [0; 3]; [1; 2]; [1; 3]] = [Some 2; Some 3; Some 12; Some 13].
Proof. split; [repeat constructor; lia|]. split; [cbn; lia|]. vm_compute. repeat split. Qed.

(** The axes in another order: a 2x4 tensor in tiles of 1x2, columns first. The first tile is elements 0 and 1: only 0 is moved. The
    second tile is elements 2 and 3: a value beyond the end of the tensor is moved. *)
Theorem move_order_refuted :
  let cfg := tile_cfg [2; 4] [1; 2] [1; 0]%nat 0 in
  let o := move_create (mi_new 0 cfg [2; 4] [4; 1]) (mi_new 1 cfg [2; 4] [4; 1]) (mkLb 0 8 1) (mkLb 100 2 1) in
  let tile n := sub_tensor cfg [2; 4] (ti_st (mi_ti (mi_run (mi_new 0 cfg [2; 4] [4; 1]) n))) in
  let moved n := do m <- move_issue (move_updates n o) mvx_src mvx_free ; Some (map m [100; 101]) in
  tile 0%nat = ([0; 0], [1; 2]) /\ moved 0%nat = Some [Some 0; Some 99] /\ tile 1%nat = ([0; 2], [1; 2]) /\ moved 1%nat = Some [Some (-1); Some 99].
Proof. vm_compute. repeat split. Qed.

(** Non-trivial case: a 3x5 tensor, rows 8 apart, in tiles of 2x2, whole to whole with rows 6 apart. *)
Definition mvx_wide : mem := fun a => if (0 <=? a) && (a <? 24) then Some (10 * (a / 8) + a mod 8) else None.
Example move_out_ex :
  let o := move_create (move_iter 0 [3; 5] [2; 2] [8; 1]) (move_iter 0 [3; 5] [2; 2] [6; 1]) (mkLb 0 24 1) (mkLb 100 18 1) in
  tiling [3; 5] [2; 2] /\ tiled_side 0 [3; 5] [2; 2] [8; 1] /\ tiled_side 0 [3; 5] [2; 2] [6; 1]
  /\ total_count (tile_cfg [3; 5] [2; 2] (seq 0 2) 0) = 6
  /\ (do m <- move_tiles 6 o (fun _ => mvx_wide) mvx_free ; Some (map (fun k => m (100 + Z.of_nat k)) (seq 0 18)))
     = Some (map Some [0; 1; 2; 3; 4; 99; 10; 11; 12; 13; 14; 99; 20; 21; 22; 23; 24; 99]).
Proof.
  split; [repeat constructor; lia|]. split; [split; [repeat constructor; lia|cbn; lia]|]. split; [split; [repeat constructor; lia|cbn; lia]|].
  split; vm_compute; reflexivity.
Qed.

(** Move in, the last tile but one: the tile at [0; 4] is 2x1 in a buffer with the strides of a 2x2 tile. *)
Example move_in_ex :
  let o := move_create (move_iter 0 [3; 5] [2; 2] [8; 1]) (move_iter 1 [3; 5] [2; 2] [8; 1]) (mkLb 0 24 1) (mkLb 100 4 1) in
  tile_base [3; 5] [2; 2] 4 = [0; 4] /\ tile_dims [3; 5] [2; 2] 4 = [2; 1]
  /\ (do m <- move_issue (move_updates 4 o) mvx_wide mvx_free ; Some (map (fun k => m (100 + Z.of_nat k)) (seq 0 4))) = Some (map Some [4; 99; 14; 99]).
Proof. vm_compute. repeat split. Qed.

(** An explicit configuration with an axis that is not cut and whose last increment completes it: [move_tile] applies, and the second
    tile of the 2x4 tensor is moved correctly. *)
Definition mvx_cfg : list idim := [mkIdim 0 1 2 2 2 2 2 2; mkIdim 1 2 2 2 (-2) 2 2 2].
Example move_tile_ex :
  own_order mvx_cfg /\ Forall2 walks mvx_cfg [2; 4] /\ side_ok 0 mvx_cfg [2; 4] [4; 1] /\ side_ok 1 mvx_cfg [2; 4] [4; 1]
  /\ (do m <- move_issue (move_updates 1 (move_create (mi_new 0 mvx_cfg [2; 4] [4; 1]) (mi_new 1 mvx_cfg [2; 4] [4; 1]) (mkLb 0 8 1) (mkLb 100 4 1))) mvx_src mvx_free ;
      Some (map m [100; 101; 102; 103])) = Some [Some 2; Some 3; Some 12; Some 13].
Proof.
  assert (W : Forall2 walks mvx_cfg [2; 4]).
  { apply Forall2_cons; [|apply Forall2_cons; [|apply Forall2_nil]]; (split; [cbn; lia|split; [lia|]]); intros k; cbn [it_count]; intros Hk; unfold tile_start, plain_len; cbn;
    (destruct (Z.eqb_spec k 0); [subst k; cbn; lia|]); assert (k = 1) by lia; subst k; cbn; lia. }
  split; [reflexivity|]. split; [exact W|]. split.
  { split; [|cbn; lia]. apply Forall2_cons; [|apply Forall2_cons; [|apply Forall2_nil]]; right; unfold tile_start; cbn; repeat split; lia. }
  split; [|vm_compute; reflexivity]. split; [|cbn; lia].
  apply Forall_cons; [|apply Forall_cons; [|apply Forall_nil]]; (split; [cbn; lia|]); intros k; cbn [it_count it_size]; intros Hk; unfold plain_len; cbn;
    destruct (k =? 0); destruct (k =? 1); lia.
Qed.
