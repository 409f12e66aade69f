(** The iterator as the kernels use it: tiles inside the tensor, the offset of the tile in the buffer, input tiles of convolution-like
    kernels, tiles without overlap, and the parameter sets of the tiles. *)
From Coq Require Import ZArith List Lia Bool.
From Verif Require Import Base FxMath FxMathProofs Tensor TensorProofs Ops3 Ops3Proofs Iter IterProofs.
Import ListNotations.
Open Scope Z_scope.
Ltac Zify.zify_post_hook ::= Z.div_mod_to_equations.

(** * Tiles stay inside *)

Lemma cuts_inside : forall D n start size, 1 <= n -> cuts D n start size -> forall k, 0 <= k < n -> 0 <= start k /\ start k + size k <= D.
Proof.
  intros D n start size Hn Hc k Hk. pose proof (cuts_mono _ _ _ _ Hc) as Hm. destruct Hc as (H0 & Hs & He & Hz).
  split; [pose proof (Hm k Hk 0 ltac:(lia)); lia|].
  destruct (Z.eq_dec k (n - 1)) as [->|Hne]; [lia|].
  rewrite <- (Hs k) by lia. pose proof (Hm (n - 1) ltac:(lia) (k + 1) ltac:(lia)). pose proof (Hz (n - 1) ltac:(lia)). lia.
Qed.

(** Every visited tile of a tensor is inside it; without skew over a whole tile it is not empty and not larger than the tile size. *)
Theorem tiles_inside : forall shape tile order skew bufs bsize,
  is_order (length shape) order ->
  (forall a, (a < length shape)%nat -> 1 <= nth a tile 0 <= nth a shape 0 /\ nth a shape 0 + 2 * nth a tile 0 < 2 ^ 31) ->
  (forall a, In a order -> 0 <= skew <= nth a tile 0) ->
  length bufs = length order ->
  let cfg := tile_cfg shape tile order skew in
  forall n, let '(pos, size) := sub_tensor cfg shape (fst (iter_run cfg bufs bsize n)) in
  length pos = length shape /\ length size = length shape /\
  forall a, (a < length shape)%nat -> 0 <= nth a pos 0 /\ nth a pos 0 + nth a size 0 <= nth a shape 0
    /\ ((forall b, In b order -> skew < nth b tile 0) -> 1 <= nth a size 0 <= nth a tile 0).
Proof.
  intros shape tile order skew bufs bsize Hord Hsz Hskew Hb cfg n.
  destruct (order_ok _ shape tile order skew Hord) as [Ho Hl]. fold cfg in Ho, Hl.
  assert (HF : Forall (fun d => let a := Z.to_nat (it_order d) in let D := nth a shape 0 in 1 <= it_count d /\ D < 2 ^ 31 /\ cuts D (it_count d) (tile_start d) (tile_len d D)
     /\ ((forall b, In b order -> skew < nth b tile 0) -> forall k, 0 <= k < it_count d -> 1 <= tile_len d D k <= nth a tile 0)) cfg).
  { apply tile_cfg_dims. intros d s Hd Hs. cbv zeta. destruct Hord as (_ & _ & Hrg). rewrite Forall_forall in Hrg. specialize (Hrg d Hd).
    destruct (Hsz d Hrg) as [H1 H2]. specialize (Hskew d Hd).
    destruct (tile_dim_cuts (Z.of_nat d) (nth d shape 0) (nth d tile 0) s ltac:(lia) ltac:(lia) ltac:(lia)) as (C1 & C2 & C3).
    cbn [it_order tile_dim]. rewrite Nat2Z.id. split; [exact C1|]. split; [lia|]. split; [exact C2|].
    intros Hst. apply C3. specialize (Hst d Hd). lia. }
  assert (Hcnt : counts_ok cfg) by (eapply Forall_impl; [|exact HF]; cbv zeta; intros x Hx; exact (proj1 Hx)).
  assert (Hbl : length bufs = length cfg) by (destruct Hord as (_ & Hlo & _); lia).
  destruct (iter_walk cfg bufs bsize Hcnt Hbl n) as (idx & Hok & _ & Hst & _). rewrite Hst.
  pose proof (sub_tensor_spec cfg shape (at_tile cfg idx) Ho (at_tile_len _ _ Hok)) as HS.
  destruct (sub_tensor cfg shape (at_tile cfg idx)) as [pos size]. destruct HS as (L1 & L2 & A & _).
  split; [exact L1|]. split; [exact L2|]. intros a Ha.
  assert (exists i d, nth_error cfg i = Some d /\ Z.to_nat (it_order d) = a) as (i & d & Hi & Ea).
  { destruct Hord as (Hnd & Hlo & Hrg). assert (In a order).
    { apply (NoDup_length_incl Hnd (l' := seq 0 (length shape))); [rewrite seq_length; lia| |apply in_seq; lia].
      intros x Hx. rewrite Forall_forall in Hrg. specialize (Hrg x Hx). apply in_seq. lia. }
    assert (Hin : In (Z.of_nat a) (map it_order cfg)) by (unfold cfg; rewrite tile_cfg_orders; apply in_map; assumption).
    apply in_map_iff in Hin. destruct Hin as (d & Hd & Hin). apply In_nth_error in Hin. destruct Hin as (i & Hi). exists i, d. split; [exact Hi|]. rewrite Hd. lia. }
  rewrite Forall_forall in HF. destruct (HF d (nth_error_In _ _ Hi)) as (C1 & C2 & C3 & C4).
  destruct (at_tile_nth cfg idx i d Hok Hi) as (k & Hk & Hr & Hs). destruct (A i d _ _ Hi Hs) as [A1 A2].
  rewrite Ea in *. destruct (cuts_inside _ _ _ _ C1 C3 k Hr) as [I1 I2].
  pose proof (proj2 (proj2 (proj2 C3)) k Hr) as I0.
  rewrite A1, A2. rewrite u32_id by lia. fold (tile_len d (nth a shape 0) k).
  split; [exact I1|]. split; [exact I2|]. intros Hsk. exact (C4 Hsk k Hr).
Qed.

(** * The buffer offset *)

Definition buf_ok (d : idim) (b : bdim) (D s : Z) : Prop :=
  1 <= it_count d /\ (forall k, 0 <= k < it_count d -> 0 <= tile_start d k < D)
  /\ (1 < it_count d -> b_first b = it_first_inc d * s) /\ (2 < it_count d -> b_inc b = it_inc d * s)
  /\ b_last b = - tile_start d (it_count d - 1) * s /\ b_dec b = D * s.

Fixpoint bufs_ok (cfg : list idim) (bufs : list bdim) (shape stride : list Z) : Prop :=
  match cfg, bufs, shape, stride with
  | [], [], [], [] => True
  | d :: cfg', b :: bufs', D :: shape', s :: stride' => buf_ok d b D s /\ bufs_ok cfg' bufs' shape' stride'
  | _, _, _, _ => False
  end.

Lemma bufs_ok_nth : forall cfg bufs shape stride d0 b0,
  length bufs = length cfg -> length shape = length cfg -> length stride = length cfg ->
  (forall i, (i < length cfg)%nat -> buf_ok (nth i cfg d0) (nth i bufs b0) (nth i shape 0) (nth i stride 0)) -> bufs_ok cfg bufs shape stride.
Proof.
  induction cfg as [|d cfg IH]; intros [|b bufs] [|D shape] [|s stride] d0 b0 H1 H2 H3 H; try discriminate; [exact I|].
  split; [exact (H 0%nat ltac:(cbn; lia))|]. eapply IH; [cbn in *; lia..|]. intros i Hi. exact (H (S i) ltac:(cbn; lia)).
Qed.

(** Start positions of a tile. *)
Fixpoint starts (cfg : list idim) (idx : list Z) : list Z := match cfg, idx with d :: cfg', k :: idx' => tile_start d k :: starts cfg' idx' | _, _ => [] end.

Lemma starts_valid : forall cfg bufs shape stride idx, bufs_ok cfg bufs shape stride -> idx_ok cfg idx -> valid shape (starts cfg idx).
Proof.
  induction cfg as [|d cfg IH]; intros [|b bufs] [|D shape] [|s stride] [|k idx]; cbn [bufs_ok idx_ok starts valid]; try contradiction; [auto|].
  intros [(Hn & Hk & _) Hb] [Hi Hok]. split; [apply Hk; exact Hi|eauto].
Qed.

Lemma iter_next_offset : forall cfg bufs shape stride idx, nested shape stride -> bufs_ok cfg bufs shape stride -> idx_ok cfg idx ->
  snd (fst (iter_next cfg bufs 1 (at_tile cfg idx) (addr stride (starts cfg idx)))) = addr stride (starts cfg (next_tile cfg idx)).
Proof.
  induction cfg as [|d cfg IH]; intros bufs shape stride idx Hn Hb Hok.
  - destruct idx; [|contradiction]. destruct bufs; reflexivity.
  - destruct idx as [|k idx]; [contradiction|]. destruct bufs as [|b bufs]; [contradiction|]. destruct shape as [|D shape]; [contradiction|]. destruct stride as [|s stride]; [contradiction|].
    destruct Hb as [Hb Hbs]. destruct Hok as [Hk Hok]. destruct Hn as (HD & Hs & Hn1 & Hn).
    destruct Hb as (Hc & Hst & Hf & Hi & Hla & Hde).
    cbn [iter_next at_tile next_tile starts addr].
    pose proof (starts_valid _ _ _ _ _ Hbs Hok) as Hv.
    destruct (nested_addr shape stride (starts cfg idx) Hn Hv) as [[A1 _] A3].
    assert (Hlt : addr stride (starts cfg idx) < s).
    { destruct shape as [|D' shape], stride as [|s' stride]; cbn [nested] in Hn; try tauto; cbn [extent] in A3; lia. }
    destruct (k =? it_count d - 1) eqn:E.
    + assert (Ek : k = it_count d - 1) by lia.
      assert (Eo : end_of_dim b (buffer_next 1 (tile_start d k * s + addr stride (starts cfg idx)) (b_last b)) = addr stride (starts cfg idx)).
      { unfold end_of_dim, buffer_next. change (1 <? 1) with false. cbv iota. rewrite Hla, Hde, <- Ek.
        replace (tile_start d k * s + addr stride (starts cfg idx) + - tile_start d k * s) with (addr stride (starts cfg idx)) by lia.
        destruct (D * s <=? addr stride (starts cfg idx)) eqn:E2; [nia|reflexivity]. }
      rewrite (Z.mul_comm s) in *. cbn [addr starts].
      specialize (IH bufs shape stride idx Hn Hbs Hok).
      replace (tile_start d k * s + addr stride (starts cfg idx)) with (tile_start d k * s + addr stride (starts cfg idx)) by reflexivity.
      rewrite Eo. destruct (iter_next cfg bufs 1 (at_tile cfg idx) (addr stride (starts cfg idx))) as [[st o] dn]. cbn [fst snd] in *.
      rewrite IH. change (tile_start d 0) with 0. lia.
    + assert (Hk1 : tile_start d (k + 1) = if k =? 0 then tile_start d k + it_first_inc d else tile_start d k + it_inc d).
      { unfold tile_start. destruct (k + 1 =? 0) eqn:E1; [lia|]. destruct (k =? 0) eqn:E2; [assert (k = 0) by lia; subst k|]; lia. }
      destruct (k =? 0) eqn:E2; cbn [fst snd starts addr]; rewrite Hk1; unfold buffer_next; change (1 <? 1) with false; cbv iota.
      * rewrite Hf by lia. lia.
      * rewrite Hi by lia. lia.
Qed.

Lemma iter_run_offset : forall cfg bufs shape stride, nested shape stride -> bufs_ok cfg bufs shape stride -> counts_ok cfg -> length bufs = length cfg ->
  forall n, exists idx, idx_ok cfg idx /\ iter_run cfg bufs 1 n = (at_tile cfg idx, addr stride (starts cfg idx)).
Proof.
  intros cfg bufs shape stride Hn Hb Hc Hl. induction n as [|n IH].
  - exists (zero_idx cfg). split; [apply zero_ok; exact Hc|]. cbn [iter_run]. rewrite at_zero. f_equal.
    clear. revert stride. induction cfg as [|d cfg IH]; intros [|s stride]; cbn [zero_idx map starts addr]; try reflexivity.
    fold (zero_idx cfg). rewrite <- IH. change (tile_start d 0) with 0. lia.
  - destruct IH as (idx & Hok & E). cbn [iter_run]. rewrite E.
    pose proof (iter_next_tile cfg bufs 1 idx (addr stride (starts cfg idx)) Hl Hok) as HN.
    pose proof (iter_next_offset cfg bufs shape stride idx Hn Hb Hok) as HO.
    destruct (iter_next cfg bufs 1 (at_tile cfg idx) (addr stride (starts cfg idx))) as [[st' o'] done]. destruct HN as (-> & Hok' & _ & _).
    cbn [fst snd] in HO. subst o'. exists (next_tile cfg idx). auto.
Qed.

Lemma fold_left_in_ext : forall (A B : Type) (f g : A -> B -> A) l a, (forall a b, In b l -> f a b = g a b) -> fold_left f l a = fold_left g l a.
Proof. intros A B f g l. induction l as [|b l IH]; intros a H; cbn [fold_left]; [reflexivity|]. rewrite (H a b (or_introl eq_refl)). apply IH. intros. apply H. right. assumption. Qed.

Lemma set_at_app_mid : forall (A : Type) (l : list A) x y r, set_at (length l) x (l ++ y :: r) = l ++ x :: r.
Proof. intros A l. induction l as [|a l IH]; intros; cbn; [reflexivity|]. f_equal. apply IH. Qed.

Lemma fold_fill : forall (A : Type) (h : nat -> A) (g : nat -> Z) z n k, (k <= n)%nat ->
  fold_left (fun (acc : list A * Z) i => let '(l, b) := acc in (set_at i (h i) l, b * g i)) (seq 0 k) (repeat z n, 1)
  = (map h (seq 0 k) ++ repeat z (n - k), fold_left (fun b i => b * g i) (seq 0 k) 1).
Proof.
  intros A h g z n. induction k as [|k IH]; intros Hk.
  - cbn. rewrite Nat.sub_0_r. reflexivity.
  - rewrite seq_S, !fold_left_app, IH by lia. cbn [fold_left Nat.add]. f_equal.
    replace (n - k)%nat with (S (n - S k)) by lia. cbn [repeat].
    rewrite map_app. cbn [map]. rewrite <- app_assoc. cbn [app].
    rewrite <- (set_at_app_mid A (map h (seq 0 k)) (h k) z) at 1. rewrite map_length, seq_length. reflexivity.
Qed.

Lemma fold_ones : forall (g : nat -> Z) l, (forall i, In i l -> g i = 1) -> fold_left (fun b i => b * g i) l 1 = 1.
Proof. intros g l. induction l as [|i l IH]; intros H; cbn [fold_left]; [reflexivity|]. rewrite (H i (or_introl eq_refl)). apply IH. intros j Hj. apply H. right. exact Hj. Qed.

Lemma nth_map_lt : forall (A B : Type) (f : A -> B) l i d d', (i < length l)%nat -> nth i (map f l) d = f (nth i l d').
Proof. intros A B f l. induction l as [|a l IH]; intros [|i] d d' Hi; cbn in *; try lia; [reflexivity|]. apply IH. lia. Qed.

(** The buffer iterator of a tiling in the order of the axes, when every axis is either cut into several tiles or of size 1. *)
Lemma buffer_init_ok : forall shape tile stride skew,
  length stride = length shape -> (1 <= length shape)%nat ->
  (forall a, (a < length shape)%nat -> 1 <= nth a tile 0 /\ (nth a tile 0 < nth a shape 0 \/ nth a shape 0 = 1 /\ nth a tile 0 = 1) /\ nth a shape 0 + 2 * nth a tile 0 < 2 ^ 31) ->
  0 <= skew < nth 0 tile 0 ->
  let cfg := tile_cfg shape tile (seq 0 (length shape)) skew in
  exists bufs, buffer_init cfg shape stride = (bufs, 1) /\ bufs_ok cfg bufs shape stride /\ counts_ok cfg /\ length bufs = length cfg.
Proof.
  intros shape tile stride skew Hls Hr Hsz Hskew cfg.
  set (dflt := mkIdim (-1) 0 0 0 0 0 0 0).
  assert (Hlc : length cfg = length shape).
  { unfold cfg. rewrite <- (map_length it_order), tile_cfg_orders, map_length, seq_length. reflexivity. }
  assert (Hcfg : forall i, (i < length shape)%nat -> exists s, (s = skew /\ i = 0%nat \/ s = 0) /\ nth i cfg dflt = tile_dim (Z.of_nat i) (nth i shape 0) (nth i tile 0) s).
  { intros i Hi. unfold cfg. destruct shape as [|D shape]; [cbn in Hr; lia|]. cbn [length seq tile_cfg].
    destruct i as [|i]; [exists skew; split; [auto|reflexivity]|]. exists 0. split; [auto|]. cbn [nth].
    rewrite (nth_map_lt _ _ _ _ _ _ 0%nat) by (rewrite seq_length; cbn in Hi; lia). rewrite seq_nth by (cbn in Hi; lia). reflexivity. }
  set (h := fun i => let d := nth i cfg dflt in let ms := nth i stride 0 in let dec := nth i shape 0 * ms in
     if 1 <? nth i shape 0 then let f x := if x =? 0 then ms else x * ms in mkBdim (f (it_first_inc d)) (f (it_inc d)) (f (it_last_inc d)) dec else mkBdim 0 0 0 dec).
  set (g := fun i => if 1 <? nth i shape 0 then 1 else Z.max (it_size (nth i cfg dflt)) (it_first_size (nth i cfg dflt))).
  assert (Hval : forall i, (i < length shape)%nat -> let D := nth i shape 0 in let T := nth i tile 0 in
    exists s, 0 <= s < T /\ let n := ceil_div (D + s) T in
    nth i cfg dflt = mkIdim (Z.of_nat i) n (T - s) T (T * (1 - n) + s) (T - s) T ((D + s - 1) mod T + 1) /\ 1 <= n /\ (n - 1) * T < D + s <= n * T /\ (1 < D -> 2 <= n) /\ (D = 1 -> n = 1 /\ s = 0)).
  { intros i Hi. cbv zeta. destruct (Hcfg i Hi) as (s & Hs & E). destruct (Hsz i Hi) as (T1 & T2 & T3).
    assert (Hs' : 0 <= s < nth i tile 0) by (destruct Hs as [[-> ->]| ->]; lia).
    destruct (tile_dim_val (Z.of_nat i) (nth i shape 0) (nth i tile 0) s ltac:(lia) ltac:(lia) ltac:(lia)) as (V & Hn1 & Hn & _).
    exists s. split; [exact Hs'|]. rewrite E, V. split; [reflexivity|]. split; [exact Hn1|]. split; [exact Hn|].
    generalize dependent (ceil_div (nth i shape 0 + s) (nth i tile 0)). intros n _ Hn1 Hn. set (T := nth i tile 0) in *. set (D := nth i shape 0) in *. clearbody D T.
    split; [intros; nia|]. intros ->. destruct T2 as [T2|[_ ->]]; [lia|]. split; nia. }
  assert (Hinit : buffer_init cfg shape stride = (map h (seq 0 (length cfg)), 1)).
  { unfold buffer_init. fold dflt.
    rewrite (fold_left_in_ext _ _ _ (fun (acc : list bdim * Z) i => let '(l, b) := acc in (set_at i (h i) l, b * g i))).
    - rewrite fold_fill by lia. rewrite Nat.sub_diag. cbn [repeat]. rewrite app_nil_r. f_equal. apply fold_ones.
      intros i Hi. apply in_seq in Hi. unfold g. destruct (1 <? nth i shape 0) eqn:E; [reflexivity|].
      destruct (Hval i ltac:(lia)) as (s & Hs & V & _ & _ & _ & V1). destruct (Hsz i ltac:(lia)) as (T1 & T2 & T3).
      destruct V1 as [_ ->]; [lia|]. rewrite V. cbn [it_size it_first_size]. lia.
    - intros [l b] i Hi. apply in_seq in Hi. destruct (Hval i ltac:(lia)) as (s & _ & V & _).
      assert (Eo : it_order (nth i cfg dflt) = Z.of_nat i) by (rewrite V; reflexivity).
      rewrite Eo. destruct (Z.of_nat i =? -1) eqn:E; [lia|]. rewrite Nat2Z.id. unfold h, g.
      destruct (1 <? nth i shape 0); [f_equal; lia|reflexivity]. }
  exists (map h (seq 0 (length cfg))). split; [exact Hinit|].
  assert (Hbl : length (map h (seq 0 (length cfg))) = length cfg) by (rewrite map_length, seq_length; reflexivity).
  split; [|split; [|exact Hbl]].
  - apply bufs_ok_nth with (d0 := dflt) (b0 := h 0%nat); [exact Hbl|lia|lia|].
    intros i Hi. rewrite map_nth, seq_nth by lia. cbn [Nat.add].
    destruct (Hval i ltac:(lia)) as (s & Hs & V & V1 & V2 & V3 & V4). destruct (Hsz i ltac:(lia)) as (T1 & T2 & T3). unfold h. rewrite V. cbn [it_first_inc it_inc it_last_inc].
    set (n := ceil_div (nth i shape 0 + s) (nth i tile 0)) in *. clearbody n. clear V Hbl Hinit Hcfg Hval g h.
    set (T := nth i tile 0) in *. set (D := nth i shape 0) in *. clearbody D T. generalize (nth i stride 0). intros ms.
    unfold buf_ok, tile_start. cbn [it_count it_first_inc it_inc it_last_inc].
    split; [exact V1|]. split; [intros k Hk; destruct (k =? 0) eqn:E; nia|].
    assert (Hl : T * (1 - n) + s = - (if n - 1 =? 0 then 0 else T - s + (n - 1 - 1) * T)).
    { destruct (n - 1 =? 0) eqn:E; [|lia]. assert (n = 1) by lia. subst n. assert (D = 1) by lia. destruct (V4 ltac:(lia)). lia. }
    destruct (1 <? D) eqn:ED.
    + specialize (V3 ltac:(lia)). cbv zeta. rewrite <- Hl. cbn [b_first b_inc b_last b_dec].
      destruct (T - s =? 0) eqn:E1; [lia|]. destruct (T =? 0) eqn:E2; [lia|]. destruct (T * (1 - n) + s =? 0) eqn:E3; [nia|].
      repeat split; intros; lia.
    + assert (D = 1) by lia. destruct (V4 ltac:(lia)) as [-> ->]. cbn [b_first b_inc b_last b_dec]. change (1 - 1 =? 0) with true. cbv iota. repeat split; intros; lia.
  - apply Forall_forall. intros d Hd. apply In_nth with (d := dflt) in Hd. destruct Hd as (i & Hi & <-).
    destruct (Hval i ltac:(lia)) as (s & _ & V & V1 & _). rewrite V. exact V1.
Qed.

(** C50, buffer offset: iterating in the order of the axes over a tensor with nested strides, if every axis is cut into at least two
    tiles or has size 1, the offset is always that of the first element of the current tile. *)
Theorem iter_offset_correct : forall shape tile stride skew,
  nested shape stride -> (1 <= length shape)%nat ->
  (forall a, (a < length shape)%nat -> 1 <= nth a tile 0 /\ (nth a tile 0 < nth a shape 0 \/ nth a shape 0 = 1 /\ nth a tile 0 = 1) /\ nth a shape 0 + 2 * nth a tile 0 < 2 ^ 31) ->
  0 <= skew < nth 0 tile 0 ->
  let cfg := tile_cfg shape tile (seq 0 (length shape)) skew in
  let '(bufs, bsize) := buffer_init cfg shape stride in
  length bufs = length shape /\
  forall n, let '(st, offs) := iter_run cfg bufs bsize n in offs = addr stride (fst (sub_tensor cfg shape st)).
Proof.
  intros shape tile stride skew Hn Hr Hsz Hskew cfg.
  pose proof (nested_length _ _ Hn) as Hls.
  destruct (buffer_init_ok shape tile stride skew ltac:(lia) Hr Hsz Hskew) as (bufs & E & Hb & Hc & Hl). fold cfg in E, Hb, Hc, Hl. rewrite E.
  assert (Hord : is_order (length shape) (seq 0 (length shape))).
  { split; [apply seq_NoDup|]. split; [apply seq_length|]. apply Forall_forall. intros x Hx. apply in_seq in Hx. lia. }
  destruct (order_ok _ shape tile _ skew Hord) as [Ho Hlc]. fold cfg in Ho, Hlc.
  split; [lia|].
  intros n. destruct (iter_run_offset cfg bufs shape stride Hn Hb Hc Hl n) as (idx & Hok & ->). f_equal.
  pose proof (sub_tensor_spec cfg shape (at_tile cfg idx) Ho (at_tile_len _ _ Hok)) as HS.
  destruct (sub_tensor cfg shape (at_tile cfg idx)) as [pos size]. destruct HS as (L1 & _ & A & _). cbn [fst].
  assert (Hsl : length (starts cfg idx) = length cfg).
  { clear - Hok. revert idx Hok. induction cfg as [|d cfg IH]; intros [|k idx]; cbn [idx_ok starts length]; try contradiction; [reflexivity|]. intros [_ H]. rewrite IH by exact H. reflexivity. }
  apply nth_ext with (d := 0) (d' := 0); [lia|]. intros i Hi.
  destruct (nth_error cfg i) as [d|] eqn:Ed; [|apply nth_error_None in Ed; lia].
  destruct (at_tile_nth cfg idx i d Hok Ed) as (k & Hk & Hrk & Hs). destruct (A i d _ _ Ed Hs) as [A1 _].
  assert (Eo : Z.to_nat (it_order d) = i).
  { assert (Hm : nth_error (map it_order cfg) i = Some (it_order d)) by (apply map_nth_error; exact Ed).
    unfold cfg in Hm. rewrite tile_cfg_orders in Hm. rewrite (map_nth_error Z.of_nat i (seq 0 (length shape)) (d := i)) in Hm.
    - injection Hm as <-. lia.
    - rewrite (nth_error_nth' _ 0%nat) by (rewrite seq_length; lia). rewrite seq_nth by lia. reflexivity. }
  rewrite Eo in A1. rewrite A1.
  assert (Hst : nth i (starts cfg idx) 0 = tile_start d k).
  { clear - Hok Ed Hk. revert idx i Hok Ed Hk. induction cfg as [|d0 cfg IH]; intros [|k0 idx] [|i] Hok Ed Hk; cbn [idx_ok nth_error] in *; try contradiction; try discriminate.
    - injection Ed as ->. injection Hk as ->. reflexivity.
    - cbn [starts nth]. apply IH; tauto. }
  rewrite Hst. symmetry. apply u32_id.
  assert (Hbnd : 0 <= tile_start d k < nth i shape 0).
  { rewrite <- Hst. pose proof (starts_valid _ _ _ _ _ Hb Hok) as Hv. clear - Hv Hsl Hlc Hi. revert Hv Hi. generalize (starts cfg idx). clear. intros l. revert i l.
    induction shape as [|D shape IH]; intros i [|x l] Hv Hi; cbn [valid length] in *; try contradiction; [lia|]. destruct Hv as [H1 H2]. destruct i as [|i]; cbn [nth]; [exact H1|apply IH; [exact H2|lia]]. }
  destruct (Hsz i ltac:(lia)) as (_ & _ & T3). destruct (Hsz i ltac:(lia)) as (T1 & _). lia.
Qed.

(** The offset is wrong when the axes are iterated in another order: after one step over a 4x6 tensor in tiles of 2x3, columns first,
    the tile starts at element 3 and the offset is 18. *)
Theorem iter_offset_order_refuted :
  let cfg := tile_cfg [4; 6] [2; 3] [1; 0]%nat 0 in
  let '(bufs, bsize) := buffer_init cfg [4; 6] [6; 1] in
  let '(st, offs) := iter_run cfg bufs bsize 1 in addr [6; 1] (fst (sub_tensor cfg [4; 6] st)) = 3 /\ offs = 18.
Proof. vm_compute. split; reflexivity. Qed.

(** It also drifts when an axis is not cut: after the single tile of a tensor of 4 elements the iterator is back at the start of the
    tensor with offset 1. *)
Theorem iter_offset_whole_refuted :
  let cfg := tile_cfg [4] [4] [0]%nat 0 in
  let '(bufs, bsize) := buffer_init cfg [4] [1] in
  let '(st, offs) := iter_run cfg bufs bsize 1 in addr [1] (fst (sub_tensor cfg [4] st)) = 0 /\ offs = 1.
Proof. vm_compute. split; reflexivity. Qed.

(** * Input tiles of a kernel with stride and padding *)

Lemma kernel_dim_val : forall o Do T skew D K S P, 1 <= T <= Do -> 0 <= skew < T -> Do + T + T < 2 ^ 31 ->
  1 <= S -> 1 <= K -> 1 <= D -> 0 <= P <= (T - skew) * S -> P <= (T - skew - 1) * S + K ->
  (Do + 2 * T) * S + K + D < 2 ^ 31 ->
  let n := ceil_div (Do + skew) T in
  let out := tile_dim o Do T skew in
  tile_start out (n - 1) * S - P <= D ->
  let first := (T - skew) * S - P in
  let last := if 1 <? n then - (first + (n - 2) * (T * S)) else 0 in
  kernel_dim out D K S P = mkIdim o n first (T * S) last (Z.min ((T - skew - 1) * S + K - P) D) ((T - 1) * S + K) (D + last).
Proof.
  intros o Do T skew D K S P HT Hs Hb HS HK HD HP HP2 Hbig n out Hlast first last.
  destruct (tile_dim_val o Do T skew HT ltac:(lia) Hb) as (E & Hn1 & Hn & Hnb). fold n in E, Hn1, Hn, Hnb. fold out in E.
  assert (HTS : (T - 1) * S <= Do * S) by (apply Z.mul_le_mono_nonneg_r; lia).
  assert (HT2 : T * S <= Do * S) by (apply Z.mul_le_mono_nonneg_r; lia).
  assert (HnT3 : T * n <= Do + 2 * T) by (clear -Hn Hs HT; nia).
  assert (HnS : T * n * S <= (Do + 2 * T) * S) by (apply Z.mul_le_mono_nonneg_r; lia).
  assert (HsS : 0 <= skew * S <= T * S) by (split; [apply Z.mul_nonneg_nonneg|apply Z.mul_le_mono_nonneg_r]; lia).
  assert (HTS0 : 0 <= (T - skew) * S <= T * S) by (split; [apply Z.mul_nonneg_nonneg|apply Z.mul_le_mono_nonneg_r]; lia).
  assert (HTS1 : 0 <= (T - skew - 1) * S <= T * S) by (split; [apply Z.mul_nonneg_nonneg|apply Z.mul_le_mono_nonneg_r]; lia).
  assert (HTS2 : 0 <= (T - 1) * S) by (apply Z.mul_nonneg_nonneg; lia).
  unfold kernel_dim. rewrite E. cbn [it_count it_first_inc it_inc it_first_size it_size it_last_size it_order].
  rewrite (w32_id P) by lia. rewrite (w32_id ((T - skew) * S)) by lia. rewrite (w32_id ((T - skew) * S - P)) by lia. rewrite (w32_id (T * S)) by lia. fold first.
  assert (El : (if 1 <? n then wrap 32 (T * S * (2 - n) - first) else 0) = last).
  { unfold last. destruct (1 <? n) eqn:En; [|reflexivity]. rewrite w32_id; [lia|]. unfold first. assert (0 <= T * n * S) by (apply Z.mul_nonneg_nonneg; [apply Z.mul_nonneg_nonneg|]; lia). lia. }
  rewrite El. rewrite (u32_id ((T - skew - 1) * S + K - P)) by lia. rewrite (u32_id ((T - 1) * S + K)) by lia.
  rewrite (u32_id (D + last)); [reflexivity|].
  assert (Hst : 1 < n -> tile_start out (n - 1) = T - skew + (n - 2) * T).
  { intros Hn2. unfold tile_start. rewrite E. cbn [it_first_inc it_inc]. destruct (n - 1 =? 0) eqn:En; [lia|]. replace (n - 1 - 1) with (n - 2) by lia. reflexivity. }
  unfold last. destruct (1 <? n) eqn:En; [|lia]. rewrite Hst in Hlast by lia. unfold first. assert (0 <= (n - 2) * (T * S)) by (apply Z.mul_nonneg_nonneg; lia). lia.
Qed.

(** C62: the input tiles of a convolution-like kernel derived from any output tiling lie inside the input, and tile [k] contains every
    input position that the kernel window of an output of tile [k] covers. *)
Theorem kernel_tiles_cover : forall o Do T skew D K S P, 1 <= T <= Do -> 0 <= skew < T -> Do + T + T < 2 ^ 31 ->
  1 <= S -> 1 <= K -> 1 <= D -> 0 <= P <= (T - skew) * S -> P <= (T - skew - 1) * S + K ->
  (Do + 2 * T) * S + K + D < 2 ^ 31 ->
  let out := tile_dim o Do T skew in let inp := kernel_dim out D K S P in
  tile_start out (it_count out - 1) * S - P <= D ->
  it_count inp = it_count out /\
  forall k, 0 <= k < it_count out ->
    (0 <= tile_start inp k /\ 0 <= tile_len inp D k /\ tile_start inp k + tile_len inp D k <= D)
    /\ forall y x, tile_start out k <= y < tile_start out k + tile_len out Do k -> 0 <= x < D -> y * S - P <= x < y * S - P + K ->
       tile_start inp k <= x < tile_start inp k + tile_len inp D k.
Proof.
  intros o Do T skew D K S P HT Hs Hb HS HK HD HP HP2 Hbig out inp Hlast.
  destruct (tile_dim_val o Do T skew HT ltac:(lia) Hb) as (E & Hn1 & Hn & Hnb). fold out in E.
  destruct (tile_dim_cuts o Do T skew HT ltac:(lia) Hb) as (_ & Hcut & Hlen). fold out in Hcut, Hlen. specialize (Hlen ltac:(lia)).
  set (n := ceil_div (Do + skew) T) in *.
  assert (Ec : it_count out = n) by (rewrite E; reflexivity).
  assert (V := kernel_dim_val o Do T skew D K S P HT Hs Hb HS HK HD HP HP2 Hbig). cbv zeta in V. fold n out in V. fold inp in V. rewrite Ec in *.
  assert (HDb : 0 <= (Do + 2 * T) * S) by (apply Z.mul_nonneg_nonneg; lia).
  specialize (V Hlast).
  set (first := (T - skew) * S - P) in *. set (last := if 1 <? n then - (first + (n - 2) * (T * S)) else 0) in *.
  assert (Eci : it_count inp = n) by (rewrite V; reflexivity). split; [exact Eci|].
  intros k Hk. specialize (Hlen k Hk).
  assert (Hso : tile_start out k = if k =? 0 then 0 else k * T - skew).
  { unfold tile_start. rewrite E. cbn [it_first_inc it_inc]. destruct (k =? 0); lia. }
  assert (Hsi : tile_start inp k = if k =? 0 then 0 else (k * T - skew) * S - P).
  { unfold tile_start. rewrite V. cbn [it_first_inc it_inc]. unfold first. destruct (k =? 0); lia. }
  assert (Hsl : tile_start out (n - 1) = if n - 1 =? 0 then 0 else (n - 1) * T - skew).
  { unfold tile_start. rewrite E. cbn [it_first_inc it_inc]. destruct (n - 1 =? 0); lia. }
  assert (Hge : forall j, 1 <= j <= n - 1 -> 0 <= (j * T - skew) * S - P <= D).
  { intros j Hj. rewrite Hsl in Hlast. destruct (n - 1 =? 0) eqn:En; [lia|].
    assert (1 * T <= j * T <= (n - 1) * T) by (split; apply Z.mul_le_mono_nonneg_r; lia). assert ((T - skew) * S <= (j * T - skew) * S <= ((n - 1) * T - skew) * S) by (split; apply Z.mul_le_mono_nonneg_r; lia). lia. }
  assert (Hli : tile_len inp D k = if k =? n - 1 then (if k =? 0 then D else D - ((k * T - skew) * S - P)) else if k =? 0 then Z.min ((T - skew - 1) * S + K - P) D
      else Z.min (D - ((k * T - skew) * S - P)) ((T - 1) * S + K)).
  { unfold tile_len, tile_size. rewrite Hsi, V. cbn [it_count it_last_size it_first_size it_size].
    destruct (k =? n - 1) eqn:E1.
    - unfold last, first. destruct (k =? 0) eqn:E0; destruct (1 <? n) eqn:En; lia.
    - destruct (k =? 0) eqn:E0; [reflexivity|]. pose proof (Hge k ltac:(lia)). rewrite (u32_id ((k * T - skew) * S - P)) by lia. rewrite u32_id by lia. reflexivity. }
  assert (Hk0 : k = 0 -> n <> 1 -> tile_len out Do k = T - skew).
  { intros -> Hne. unfold tile_len, tile_size. rewrite E. cbn [it_count it_first_size]. destruct (0 =? n - 1) eqn:E1; [lia|]. reflexivity. }
  rewrite Hli, Hsi. rewrite Hso. split.
  - destruct (k =? 0) eqn:E0; destruct (k =? n - 1) eqn:E1; try lia.
    + pose proof (Hge k ltac:(lia)). lia.
    + pose proof (Hge k ltac:(lia)). assert (0 <= (T - 1) * S) by (apply Z.mul_nonneg_nonneg; lia). lia.
  - intros y x Hy Hx Hw. destruct (k =? 0) eqn:E0; destruct (k =? n - 1) eqn:E1; try lia.
    + rewrite Hk0 in Hy by lia. assert (y * S <= (T - skew - 1) * S) by (apply Z.mul_le_mono_nonneg_r; lia). lia.
    + pose proof (Hge k ltac:(lia)). assert ((k * T - skew) * S <= y * S) by (apply Z.mul_le_mono_nonneg_r; lia). lia.
    + assert ((k * T - skew) * S <= y * S) by (apply Z.mul_le_mono_nonneg_r; lia). assert (y * S <= (k * T - skew + (T - 1)) * S) by (apply Z.mul_le_mono_nonneg_r; lia). lia.
Qed.

(** C63: without the overlap of adjacent tiles the input tiles cut the input, if the first tile is not limited by the input and the
    window of the output before the last tile ends inside the input. *)
Theorem remove_overlap_cuts : forall o Do T skew D K S P, 1 <= T <= Do -> 0 <= skew < T -> Do + T + T < 2 ^ 31 ->
  1 <= S -> 1 <= K -> 1 <= D -> 0 <= P <= (T - skew) * S -> P <= (T - skew - 1) * S + K ->
  (Do + 2 * T) * S + K + D < 2 ^ 31 ->
  let out := tile_dim o Do T skew in let inp := kernel_dim out D K S P in
  tile_start out (it_count out - 1) * S - P <= D ->
  1 < it_count out -> (T - skew - 1) * S + K - P <= D -> (tile_start out (it_count out - 1) - 1) * S - P + K <= D ->
  let rem := remove_overlap_dim inp in
  it_count rem = it_count out /\ cuts D (it_count rem) (tile_start rem) (tile_len rem D)
  /\ forall k, 1 <= k < it_count out -> tile_start rem k = (tile_start out k - 1) * S - P + K.
Proof.
  intros o Do T skew D K S P HT Hs Hb HS HK HD HP HP2 Hbig out inp Hlast Hc1 Hfirst Hend rem.
  destruct (tile_dim_val o Do T skew HT ltac:(lia) Hb) as (E & Hn1 & Hn & Hnb). fold out in E.
  set (n := ceil_div (Do + skew) T) in *.
  assert (Ec : it_count out = n) by (rewrite E; reflexivity).
  assert (V := kernel_dim_val o Do T skew D K S P HT Hs Hb HS HK HD HP HP2 Hbig). cbv zeta in V. fold n out in V. fold inp in V. rewrite Ec in *.
  assert (HDb : 0 <= (Do + 2 * T) * S) by (apply Z.mul_nonneg_nonneg; lia).
  specialize (V Hlast). destruct (1 <? n) eqn:En; [|lia].
  assert (HTS : (T - 1) * S <= Do * S) by (apply Z.mul_le_mono_nonneg_r; lia).
  assert (HT2 : 0 <= T * S <= Do * S) by (split; [apply Z.mul_nonneg_nonneg|apply Z.mul_le_mono_nonneg_r]; lia).
  assert (HTS1 : 0 <= (T - skew - 1) * S <= T * S) by (split; [apply Z.mul_nonneg_nonneg|apply Z.mul_le_mono_nonneg_r]; lia).
  assert (HnT3 : T * n <= Do + 2 * T) by (clear -Hn Hs HT; nia).
  assert (HnS : T * n * S <= (Do + 2 * T) * S) by (apply Z.mul_le_mono_nonneg_r; lia).
  assert (Hlo : tile_start out (n - 1) = (n - 1) * T - skew).
  { unfold tile_start. rewrite E. cbn [it_first_inc it_inc]. destruct (n - 1 =? 0) eqn:E0; lia. }
  rewrite Hlo in Hend, Hlast.
  assert (HnT : ((n - 1) * T - skew) * S <= n * T * S) by (apply Z.mul_le_mono_nonneg_r; lia).
  assert (HnT0 : 0 <= ((n - 1) * T - skew) * S) by (apply Z.mul_nonneg_nonneg; [clear -Hs Hc1; nia|lia]).
  assert (R : rem = mkIdim o n ((T - skew - 1) * S + K - P) (T * S) (- (((n - 1) * T - skew - 1) * S - P + K)) ((T - skew - 1) * S + K - P) (T * S) (D - (((n - 1) * T - skew - 1) * S - P + K))).
  { unfold rem, remove_overlap_dim. rewrite V. cbn [it_count it_first_inc it_inc it_last_inc it_first_size it_size it_last_size it_order]. rewrite En.
    rewrite Z.min_l by lia. rewrite (w32_id ((T - 1) * S + K - T * S)) by lia.
    rewrite (w32_id ((T - skew - 1) * S + K - P)) by lia. rewrite (u32_id (T * S)) by lia.
    rewrite w32_id by lia. rewrite u32_id by lia. f_equal; lia. }
  assert (Er : it_count rem = n) by (rewrite R; reflexivity). rewrite Er. split; [reflexivity|].
  assert (Hst : forall k, 1 <= k < n -> tile_start rem k = (k * T - skew - 1) * S + K - P).
  { intros k Hk. unfold tile_start. rewrite R. cbn [it_first_inc it_inc]. destruct (k =? 0) eqn:E0; [lia|]. lia. }
  assert (Hmono : forall k, 1 <= k <= n - 1 -> 0 <= (k * T - skew - 1) * S + K - P <= D).
  { intros k Hk. assert (1 * T <= k * T <= (n - 1) * T) by (split; apply Z.mul_le_mono_nonneg_r; lia). assert ((T - skew - 1) * S <= (k * T - skew - 1) * S <= ((n - 1) * T - skew - 1) * S) by (split; apply Z.mul_le_mono_nonneg_r; lia). lia. }
  assert (Hln : forall k, 0 <= k < n -> tile_len rem D k = if k =? n - 1 then D - ((k * T - skew - 1) * S - P + K) else if k =? 0 then (T - skew - 1) * S + K - P else T * S).
  { intros k Hk. unfold tile_len, tile_size. remember (tile_start rem k) as ts eqn:Ets. rewrite R. cbn [it_count it_last_size it_first_size it_size].
    destruct (k =? n - 1) eqn:E1; [assert (k = n - 1) by lia; subst k; reflexivity|]. destruct (k =? 0) eqn:E0; [reflexivity|].
    rewrite Ets, Hst by lia. pose proof (Hmono k ltac:(lia)). pose proof (Hmono (k + 1) ltac:(lia)). rewrite (u32_id ((k * T - skew - 1) * S + K - P)) by lia. rewrite u32_id by lia. lia. }
  split; [split; [reflexivity|split; [|split]]|].
  - intros k Hk Hkn. rewrite (Hst (k + 1)) by lia. rewrite Hln by lia. destruct (k =? n - 1) eqn:E1; [lia|].
    destruct (k =? 0) eqn:E0; [assert (k = 0) by lia; subst k; change (tile_start rem 0) with 0; lia|]. rewrite Hst by lia. lia.
  - rewrite Hst, Hln by lia. rewrite Z.eqb_refl. lia.
  - intros k Hk. rewrite Hln by lia. destruct (k =? n - 1) eqn:E1; [pose proof (Hmono k ltac:(lia)); lia|]. destruct (k =? 0); lia.
  - intros k Hk. rewrite Hst by lia. unfold tile_start. rewrite E. cbn [it_first_inc it_inc]. destruct (k =? 0) eqn:E0; lia.
Qed.

(** Non-trivial case: a 3-wide kernel with stride 2 and padding 1 over 9 inputs (5 outputs), in output tiles of 2: input tiles at 0, 3
    and 7 of sizes 4, 5 and 2; without the overlap at 0, 4 and 8 of sizes 4, 4 and 1. *)
Example kernel_tiles_run :
  let out := tile_dim 0 5 2 0 in let inp := kernel_dim out 9 3 2 1 in let rem := remove_overlap_dim inp in
  map (fun k => (tile_start inp k, tile_len inp 9 k)) [0; 1; 2] = [(0, 4); (3, 5); (7, 2)]
  /\ map (fun k => (tile_start rem k, tile_len rem 9 k)) [0; 1; 2] = [(0, 4); (4, 4); (8, 1)]
  /\ 1 <= 2 <= 5 /\ 0 <= 1 <= (2 - 0) * 2 /\ 1 <= (2 - 0 - 1) * 2 + 3 /\ tile_start out (it_count out - 1) * 2 - 1 <= 9
  /\ (2 - 0 - 1) * 2 + 3 - 1 <= 9 /\ (tile_start out (it_count out - 1) - 1) * 2 - 1 + 3 <= 9.
Proof. vm_compute. intuition congruence. Qed.

(** The last condition fails for a same-padded 5-wide kernel over 5 inputs in output tiles of 2: the size of the last tile, whose
    window adds no input, is the unsigned wrap of -1. *)
Theorem remove_overlap_refuted :
  let out := tile_dim 0 5 2 0 in let inp := kernel_dim out 5 5 1 2 in let rem := remove_overlap_dim inp in
  it_count rem = 3 /\ tile_len inp 5 2 = 3 /\ tile_start inp 2 = 2 /\ tile_len rem 5 2 = 2 ^ 32 - 1.
Proof. vm_compute. auto. Qed.

(** * Parameter sets of the tiles *)

(** The sizes of the tile with indices [idx] if no middle tile is limited by the tensor. *)
Definition plain_len (d : idim) (k : Z) : Z := if k =? it_count d - 1 then it_last_size d else if k =? 0 then it_first_size d else it_size d.

Lemma update_dim_spec : forall d j k, 0 <= j < it_count d -> 0 <= k < it_count d ->
  0 <= fst (update_dim d j) < snd (update_dim d j) /\ snd (update_dim d j) = snd (update_dim d k)
  /\ (fst (update_dim d j) = fst (update_dim d k) <-> plain_len d j = plain_len d k).
Proof.
  intros [o c fi ic li fs sz ls] j k Hj Hk. cbn [it_count] in *. unfold update_dim, plain_len, diff_code. cbn [it_count it_first_size it_size it_last_size].
  destruct (1 <? c) eqn:E1; destruct (2 <? c) eqn:E2; destruct (fs =? sz) eqn:E3; destruct (fs =? ls) eqn:E4; destruct (sz =? ls) eqn:E5; cbn [andb negb];
    destruct (j =? c - 1) eqn:J1; destruct (j =? 0) eqn:J0; destruct (0 <? j) eqn:J2; destruct (j <? c - 1) eqn:J3; try lia;
    destruct (k =? c - 1) eqn:K1; destruct (k =? 0) eqn:K0; destruct (0 <? k) eqn:K2; destruct (k <? c - 1) eqn:K3; try lia;
    cbn [andb fst snd]; repeat split; intros; lia.
Qed.

(** The sum of digits from the right end of a list: the value of update_idx from a given multiplier. *)
Lemma update_fold : forall cfg idx u mul,
  fold_left (fun (acc : Z * Z) di => let '(u, mul) := acc in let '(k, num) := update_dim (fst di) (snd di) in (u + k * mul, mul * num)) (combine cfg idx) (u, mul)
  = (u + mul * update_idx cfg idx, mul * snd (fold_left (fun (acc : Z * Z) di => let '(u, mul) := acc in let '(k, num) := update_dim (fst di) (snd di) in (u + k * mul, mul * num)) (combine cfg idx) (0, 1))).
Proof.
  induction cfg as [|d cfg IH]; intros [|k idx] u mul; unfold update_idx; cbn [combine fold_left fst snd]; try (f_equal; lia).
  destruct (update_dim d k) as [a num]. rewrite IH. rewrite (IH idx (0 + a * 1) (1 * num)). cbn [fst snd]. f_equal; lia.
Qed.

Lemma update_idx_cons : forall d cfg k idx, update_idx (d :: cfg) (k :: idx) = fst (update_dim d k) + snd (update_dim d k) * update_idx cfg idx.
Proof.
  intros d cfg k idx. unfold update_idx at 1. cbn [combine fold_left fst snd]. destruct (update_dim d k) as [a num]. rewrite update_fold. cbn [fst snd]. lia.
Qed.

(** C64: two tiles have the same update index exactly if they have the same sizes in every dimension. *)
Theorem update_idx_sizes : forall cfg a b, idx_ok cfg a -> idx_ok cfg b ->
  update_idx cfg a = update_idx cfg b <-> Forall2 (fun d jk => plain_len d (fst jk) = plain_len d (snd jk)) cfg (combine a b).
Proof.
  induction cfg as [|d cfg IH]; intros [|j a] [|k b]; cbn [idx_ok]; try contradiction.
  - intros _ _. split; [constructor|reflexivity].
  - intros [Hj Ha] [Hk Hb]. rewrite !update_idx_cons. cbn [combine].
    destruct (update_dim_spec d j k Hj Hk) as (R1 & Rn & Re). destruct (update_dim_spec d k j Hk Hj) as (R2 & _ & _).
    specialize (IH a b Ha Hb). rewrite <- Rn in *. generalize dependent (snd (update_dim d j)). intros num R1 _ R2.
    set (x := fst (update_dim d j)) in *. set (y := fst (update_dim d k)) in *. clearbody x y.
    set (ua := update_idx cfg a) in *. set (ub := update_idx cfg b) in *. clearbody ua ub. split.
    + intros E. assert (ua = ub) by (destruct (Z.lt_trichotomy ua ub) as [H|[H|H]]; [|exact H|]; nia). subst ub.
      constructor; cbn [fst snd]; [apply Re; lia|apply IH; reflexivity].
    + intros H. inversion H as [|? ? ? ? H1 H2]; subst. cbn [fst snd] in H1. apply Re in H1. apply IH in H2. subst. reflexivity.
Qed.

(** The indices in use have no gaps: as many parameter sets are needed as there are different sizes. *)
Lemma update_dim_dense : forall d j v, 0 <= j < it_count d -> 0 <= v < snd (update_dim d j) -> exists k, 0 <= k < it_count d /\ fst (update_dim d k) = v.
Proof.
  intros [o c fi ic li fs sz ls] j v Hj Hv. cbn [it_count] in *. unfold update_dim, diff_code in *. cbn [it_count it_first_size it_size it_last_size] in *.
  destruct (1 <? c) eqn:E1; [|exists 0; cbn [fst snd] in *; lia].
  destruct (2 <? c) eqn:E2; destruct (fs =? sz) eqn:E3; destruct (fs =? ls) eqn:E4; destruct (sz =? ls) eqn:E5; cbn [andb negb fst snd] in *;
    first [ exists 0; lia
          | destruct (v =? 0) eqn:V0; [exists 0|destruct (v =? 1) eqn:V1; [first [exists (c - 1); rewrite Z.eqb_refl; lia | exists 1]|exists (c - 1)]];
            repeat match goal with |- context [?a =? ?b] => destruct (a =? b) eqn:?; cbn [fst snd andb] | |- context [?a <? ?b] => destruct (a <? b) eqn:?; cbn [fst snd andb] end; lia ].
Qed.

Theorem update_idx_dense : forall cfg a v, idx_ok cfg a -> 0 <= v <= update_idx cfg a -> exists b, idx_ok cfg b /\ update_idx cfg b = v.
Proof.
  induction cfg as [|d cfg IH]; intros [|j a] v; cbn [idx_ok]; try contradiction.
  - intros _ Hv. exists []. split; [exact I|]. change (update_idx [] []) with 0 in *. lia.
  - intros [Hj Ha] Hv. rewrite update_idx_cons in Hv. destruct (update_dim_spec d j j Hj Hj) as (R & _ & _).
    set (num := snd (update_dim d j)) in *. pose proof (Z.div_mod v num ltac:(lia)) as DM. pose proof (Z.mod_pos_bound v num ltac:(lia)) as MB.
    destruct (IH a (v / num) Ha) as (b & Hb & Eb). { clear - R Hv DM MB. set (q := v / num) in *. set (r := v mod num) in *. clearbody q r. split; nia. }
    destruct (update_dim_dense d j (v mod num) Hj MB) as (k & Hk & Ek). exists (k :: b). split; [split; assumption|].
    rewrite update_idx_cons, Ek, Eb. destruct (update_dim_spec d j k Hj Hk) as (_ & Rn & _). fold num in Rn. rewrite <- Rn. lia.
Qed.

(** For plain tilings these are the real sizes of the tiles. *)
Theorem update_idx_tiles : forall shape tile order skew,
  is_order (length shape) order ->
  (forall a, (a < length shape)%nat -> 1 <= nth a tile 0 <= nth a shape 0 /\ nth a shape 0 + 2 * nth a tile 0 < 2 ^ 31) ->
  (forall a, In a order -> 0 <= skew <= nth a tile 0) ->
  let cfg := tile_cfg shape tile order skew in
  forall a b, idx_ok cfg a -> idx_ok cfg b ->
  update_idx cfg a = update_idx cfg b <-> snd (sub_tensor cfg shape (at_tile cfg a)) = snd (sub_tensor cfg shape (at_tile cfg b)).
Proof.
  intros shape tile order skew Hord Hsz Hskew cfg a b Ha Hb.
  destruct (order_ok _ shape tile order skew Hord) as [Ho Hl]. fold cfg in Ho, Hl.
  rewrite (update_idx_sizes cfg a b Ha Hb).
  assert (HF : Forall (fun d => forall k, 0 <= k < it_count d -> tile_len d (nth (Z.to_nat (it_order d)) shape 0) k = plain_len d k) cfg).
  { apply tile_cfg_dims. intros d s Hd Hs k Hk. destruct Hord as (_ & _ & Hrg). rewrite Forall_forall in Hrg. specialize (Hrg d Hd).
    destruct (Hsz d Hrg) as [H1 H2]. specialize (Hskew d Hd).
    destruct (tile_dim_val (Z.of_nat d) (nth d shape 0) (nth d tile 0) s ltac:(lia) ltac:(lia) ltac:(lia)) as (V & V1 & V2 & V3).
    assert (Eo : Z.to_nat (it_order (tile_dim (Z.of_nat d) (nth d shape 0) (nth d tile 0) s)) = d) by (cbn [it_order tile_dim]; apply Nat2Z.id).
    rewrite Eo. rewrite V in *. unfold tile_len, tile_size, plain_len, tile_start. cbn [it_count it_first_inc it_inc it_first_size it_size it_last_size] in *.
    set (n := ceil_div (nth d shape 0 + s) (nth d tile 0)) in *. clearbody n. clear V Eo. set (D := nth d shape 0) in *. set (T := nth d tile 0) in *. clearbody D T.
    destruct (k =? n - 1) eqn:E1; [reflexivity|]. destruct (k =? 0) eqn:E0; [reflexivity|].
    assert (k * T + T <= (n - 1) * T) by nia. rewrite !u32_id by (try rewrite u32_id; nia). nia. }
  pose proof (sub_tensor_spec cfg shape (at_tile cfg a) Ho (at_tile_len _ _ Ha)) as SA.
  pose proof (sub_tensor_spec cfg shape (at_tile cfg b) Ho (at_tile_len _ _ Hb)) as SB.
  destruct (sub_tensor cfg shape (at_tile cfg a)) as [pa sa]. destruct (sub_tensor cfg shape (at_tile cfg b)) as [pb sb]. cbn [snd].
  destruct SA as (_ & La & A & _). destruct SB as (_ & Lb & B & _).
  assert (Hboth : forall i d j k, nth_error cfg i = Some d -> nth_error a i = Some j -> nth_error b i = Some k ->
     nth (Z.to_nat (it_order d)) sa 0 = plain_len d j /\ nth (Z.to_nat (it_order d)) sb 0 = plain_len d k).
  { intros i d j k Hd Hj Hk. rewrite Forall_forall in HF. specialize (HF d (nth_error_In _ _ Hd)).
    destruct (at_tile_nth cfg a i d Ha Hd) as (j' & Hj' & Rj & Sj). destruct (at_tile_nth cfg b i d Hb Hd) as (k' & Hk' & Rk & Sk).
    rewrite Hj in Hj'. rewrite Hk in Hk'. injection Hj' as <-. injection Hk' as <-.
    destruct (A i d _ _ Hd Sj) as [_ A2]. destruct (B i d _ _ Hd Sk) as [_ B2]. rewrite A2, B2.
    split; [apply (HF j Rj)|apply (HF k Rk)]. }
  assert (Hnths : forall i d, nth_error cfg i = Some d -> exists j k, nth_error a i = Some j /\ nth_error b i = Some k).
  { intros i d Hd. destruct (at_tile_nth cfg a i d Ha Hd) as (j & Hj & _). destruct (at_tile_nth cfg b i d Hb Hd) as (k & Hk & _). eauto. }
  split.
  - intros HF2. apply nth_ext with (d := 0) (d' := 0); [lia|]. intros x Hx.
    assert (exists i d, nth_error cfg i = Some d /\ Z.to_nat (it_order d) = x) as (i & d & Hd & Ex).
    { destruct Hord as (Hnd & Hlo & Hrg). assert (In x order).
      { apply (NoDup_length_incl Hnd (l' := seq 0 (length shape))); [rewrite seq_length; lia| |apply in_seq; lia].
        intros y Hy. rewrite Forall_forall in Hrg. specialize (Hrg y Hy). apply in_seq. lia. }
      assert (Hin : In (Z.of_nat x) (map it_order cfg)) by (unfold cfg; rewrite tile_cfg_orders; apply in_map; assumption).
      apply in_map_iff in Hin. destruct Hin as (d & Hd & Hin). apply In_nth_error in Hin. destruct Hin as (i & Hi). exists i, d. split; [exact Hi|]. rewrite Hd. lia. }
    destruct (Hnths i d Hd) as (j & k & Hj & Hk). destruct (Hboth i d j k Hd Hj Hk) as [B1 B2]. rewrite <- Ex, B1, B2.
    clear - HF2 Hd Hj Hk. revert a b i HF2 Hd Hj Hk. induction cfg as [|d0 c IH]; intros [|j0 a] [|k0 b] [|i] HF2 Hd Hj Hk; cbn [nth_error combine] in *; try discriminate.
    + injection Hd as ->. injection Hj as ->. injection Hk as ->. inversion HF2; subst. assumption.
    + inversion HF2; subst. eauto.
  - intros Es. subst sb. clear - Hboth Ha Hb Hnths. revert a b Ha Hb Hboth Hnths. induction cfg as [|d c IH]; intros [|j a] [|k b] Ha Hb Hboth Hnths; cbn [idx_ok combine] in *; try contradiction; [constructor|].
    constructor.
    + cbn [fst snd]. destruct (Hboth 0%nat d j k eq_refl eq_refl eq_refl) as [B1 B2]. congruence.
    + apply IH; [tauto|tauto| |].
      * intros i d' j' k' H1 H2 H3. exact (Hboth (S i) d' j' k' H1 H2 H3).
      * intros i d' H1. exact (Hnths (S i) d' H1).
Qed.

(** When the post-padding limits a middle tile the update index does not show it: with a 4-wide kernel over 8 inputs with 3 elements of padding on
    both sides and output tiles of 3, the middle tiles 1 and 2 have update index 1 but sizes 6 and 5. *)
Theorem update_idx_refuted :
  let out := tile_dim 0 11 3 0 in let inp := kernel_dim out 8 4 1 3 in
  update_idx [inp] [1] = update_idx [inp] [2] /\ tile_len inp 8 1 = 6 /\ tile_len inp 8 2 = 5.
Proof. vm_compute. auto. Qed.

(** * Offset increments for iterating outside *)

(** [n] calls of Next(offset_inc) from Reset: the tile indices and the sum of the increments. *)
Fixpoint inc_run (cfg : list idim) (strides : list Z) (n : nat) : list Z * Z :=
  match n with
  | O => (map (fun _ => 0) cfg, 0)
  | S k => let '(st, offs) := inc_run cfg strides k in let '(st', o, _) := iter_next_inc cfg strides st in (st', offs + o)
  end.

Fixpoint off_sum (strides : list Z) (cfg : list idim) (idx : list Z) : Z :=
  match cfg, idx with d :: cfg', k :: idx' => tile_start d k * nth (Z.to_nat (it_order d)) strides 0 + off_sum strides cfg' idx' | _, _ => 0 end.

Definition inc_ok (d : idim) : Prop := 1 <= it_count d /\ 0 <= it_order d /\ it_last_inc d = - tile_start d (it_count d - 1).

Lemma iter_next_inc_tile : forall cfg strides idx, cfg <> [] -> Forall inc_ok cfg -> idx_ok cfg idx ->
  let '(st, o, done) := iter_next_inc cfg strides idx in
  st = next_tile cfg idx /\ off_sum strides cfg idx + o = off_sum strides cfg st /\ done = (tile_no cfg idx =? total_count cfg - 1).
Proof.
  induction cfg as [|d cfg IH]; intros strides idx Hne HF Hok; [congruence|]. clear Hne.
  destruct idx as [|k idx]; [contradiction|]. destruct Hok as [Hk Hok]. inversion HF as [|? ? (Hc & Ho & Hl) HF']; subst.
  cbn [iter_next_inc next_tile]. destruct (it_order d <? 0) eqn:Eo; [lia|].
  pose proof (tile_no_range _ _ Hok) as Hrg.
  destruct (k =? it_count d - 1) eqn:E.
  - destruct cfg as [|d' cfg'].
    + destruct idx; [|contradiction]. cbn [iter_next_inc off_sum tile_no total_count fold_right next_tile]. assert (k = it_count d - 1) by lia. subst k. rewrite Hl. change (tile_start d 0) with 0.
      repeat split; lia.
    + specialize (IH strides idx ltac:(discriminate) HF' Hok).
      destruct (iter_next_inc (d' :: cfg') strides idx) as [[st o] done]. destruct IH as (E1 & E2 & E3).
      split; [rewrite E1; reflexivity|]. remember (d' :: cfg') as cfg. cbn [off_sum tile_no total_count fold_right]. fold (total_count cfg). split.
      * assert (k = it_count d - 1) by lia. subst k. rewrite Hl. change (tile_start d 0) with 0. lia.
      * rewrite E3. destruct (tile_no cfg idx =? total_count cfg - 1) eqn:E5; nia.
  - assert (Hs : tile_start d (k + 1) = if k =? 0 then tile_start d k + it_first_inc d else tile_start d k + it_inc d).
    { unfold tile_start. destruct (k + 1 =? 0) eqn:E1; [lia|]. destruct (k =? 0) eqn:E2; [assert (k = 0) by lia; subst k|]; lia. }
    destruct (k =? 0) eqn:E2; (split; [reflexivity|]); cbn [off_sum tile_no total_count fold_right]; fold (total_count cfg); (split; [rewrite Hs; lia|]);
      symmetry; apply Z.eqb_neq; nia.
Qed.

Lemma next_tile_ok : forall cfg idx, idx_ok cfg idx -> counts_ok cfg -> idx_ok cfg (next_tile cfg idx).
Proof.
  induction cfg as [|d cfg IH]; intros [|k idx]; cbn [idx_ok next_tile]; try contradiction; [auto|].
  intros [Hk Hok] Hc. inversion Hc; subst. destruct (k =? it_count d - 1) eqn:E; cbn [idx_ok]; split; auto; lia.
Qed.

Lemma inc_run_off : forall cfg strides bufs bsize, cfg <> [] -> Forall inc_ok cfg -> length bufs = length cfg -> forall n,
  idx_ok cfg (fst (inc_run cfg strides n)) /\ fst (iter_run cfg bufs bsize n) = at_tile cfg (fst (inc_run cfg strides n))
  /\ snd (inc_run cfg strides n) = off_sum strides cfg (fst (inc_run cfg strides n)).
Proof.
  intros cfg strides bufs bsize Hne HF Hl.
  assert (Hc : counts_ok cfg) by (eapply Forall_impl; [|exact HF]; intros d Hd; exact (proj1 Hd)).
  induction n as [|n IH].
  - cbn [inc_run iter_run fst snd]. split; [apply zero_ok; exact Hc|]. split; [symmetry; apply at_zero|].
    clear. induction cfg as [|d cfg IH]; cbn [map off_sum]; [reflexivity|]. rewrite <- IH. change (tile_start d 0) with 0. lia.
  - cbn [inc_run iter_run]. destruct (inc_run cfg strides n) as [st offs]. destruct (iter_run cfg bufs bsize n) as [s o]. cbn [fst snd] in IH. destruct IH as (I1 & -> & I2).
    pose proof (iter_next_inc_tile cfg strides st Hne HF I1) as HI. pose proof (iter_next_tile cfg bufs bsize st o Hl I1) as HN.
    destruct (iter_next_inc cfg strides st) as [[st' oi] dn]. destruct (iter_next cfg bufs bsize (at_tile cfg st) o) as [[s' o'] dn'].
    destruct HI as (-> & HI & _). destruct HN as (-> & _ & _ & _). cbn [fst snd].
    split; [apply next_tile_ok; assumption|]. split; [reflexivity|]. lia.
Qed.

Definition lsum (l : list Z) : Z := fold_right Z.add 0 l.

Lemma lsum_perm : forall l l', Permutation.Permutation l l' -> lsum l = lsum l'.
Proof. induction 1; unfold lsum in *; cbn [fold_right]; lia. Qed.

Lemma addr_lsum : forall st c, length st = length c -> addr st c = lsum (map (fun a => nth a c 0 * nth a st 0) (seq 0 (length c))).
Proof.
  induction st as [|s st IH]; intros [|x c] Hl; try discriminate; [reflexivity|].
  cbn [addr length seq map nth]. rewrite <- seq_shift, map_map. unfold lsum in *. cbn [fold_right nth]. rewrite IH by (cbn in Hl; lia). cbn [nth]. lia.
Qed.

(** C65: the increments of Next(offset_inc) lead from the first element of one tile to that of the next, for every iteration order. *)
Theorem iter_increments : forall shape tile order skew strides bufs bsize,
  is_order (length shape) order -> shape <> [] -> length strides = length shape ->
  (forall a, (a < length shape)%nat -> 1 <= nth a tile 0 <= nth a shape 0 /\ nth a shape 0 + 2 * nth a tile 0 < 2 ^ 31) ->
  (forall a, In a order -> 0 <= skew < nth a tile 0) ->
  length bufs = length order ->
  let cfg := tile_cfg shape tile order skew in
  forall n, snd (inc_run cfg strides n) = addr strides (fst (sub_tensor cfg shape (fst (iter_run cfg bufs bsize n))))
    /\ snd (iter_next_inc cfg strides (fst (inc_run cfg strides n))) = (Z.of_nat (S n) mod total_count cfg =? 0).
Proof.
  intros shape tile order skew strides bufs bsize Hord Hne Hls Hsz Hskew Hb cfg n.
  destruct (order_ok _ shape tile order skew Hord) as [Ho Hl]. fold cfg in Ho, Hl.
  assert (HF : Forall (fun d => inc_ok d /\ forall k, 0 <= k < it_count d -> 0 <= tile_start d k < 2 ^ 31) cfg).
  { apply tile_cfg_dims. intros d s Hd Hs. destruct Hord as (_ & _ & Hrg). rewrite Forall_forall in Hrg. specialize (Hrg d Hd).
    destruct (Hsz d Hrg) as [H1 H2]. specialize (Hskew d Hd).
    destruct (tile_dim_val (Z.of_nat d) (nth d shape 0) (nth d tile 0) s ltac:(lia) ltac:(lia) ltac:(lia)) as (V & V1 & V2 & V3). rewrite V. unfold inc_ok, tile_start. cbn [it_count it_order it_last_inc it_first_inc it_inc].
    set (c := ceil_div (nth d shape 0 + s) (nth d tile 0)) in *. clearbody c. clear V. set (D := nth d shape 0) in *. set (T := nth d tile 0) in *. clearbody D T.
    split; [split; [lia|split; [lia|]]|].
    - destruct (c - 1 =? 0) eqn:E; [|lia]. assert (c = 1) by lia. subst c. assert (s = 0) by lia. lia.
    - intros k Hk. destruct (k =? 0) eqn:E; [lia|]. nia. }
  assert (Hcne : cfg <> []).
  { intros E. apply (f_equal (@length idim)) in E. cbn [length] in E. destruct shape; [congruence|]. cbn [length] in *. lia. }
  assert (Hbl : length bufs = length cfg) by (destruct Hord as (_ & Hlo & _); lia).
  assert (HI : Forall inc_ok cfg) by (eapply Forall_impl; [|exact HF]; cbv beta; intros d Hd; exact (proj1 Hd)).
  assert (Hc : counts_ok cfg) by (eapply Forall_impl; [|exact HI]; intros d Hd; exact (proj1 Hd)).
  destruct (inc_run_off cfg strides bufs bsize Hcne HI Hbl n) as (I1 & I2 & I3).
  destruct (iter_walk cfg bufs bsize Hc Hbl n) as (idx & W1 & W2 & W3 & W4).
  set (idx' := fst (inc_run cfg strides n)) in *. split.
  - rewrite I3, I2. pose proof (sub_tensor_spec cfg shape (at_tile cfg idx') Ho (at_tile_len _ _ I1)) as HS.
    destruct (sub_tensor cfg shape (at_tile cfg idx')) as [pos size]. destruct HS as (L1 & _ & A & _). cbn [fst].
    rewrite addr_lsum by lia. rewrite L1.
    assert (Hp : Permutation.Permutation order (seq 0 (length shape))).
    { destruct Hord as (Hnd & Hlo & Hrg). apply Permutation.NoDup_Permutation_bis; [exact Hnd|rewrite seq_length; lia|].
      intros x Hx. rewrite Forall_forall in Hrg. specialize (Hrg x Hx). apply in_seq. lia. }
    rewrite <- (lsum_perm _ _ (Permutation.Permutation_map (fun a => nth a pos 0 * nth a strides 0) Hp)).
    assert (Eo : order = map (fun d => Z.to_nat (it_order d)) cfg).
    { rewrite <- (map_map it_order Z.to_nat). unfold cfg. rewrite tile_cfg_orders, map_map. rewrite <- map_id at 1. apply map_ext. intros x. rewrite Nat2Z.id. reflexivity. }
    rewrite Eo, map_map. clear Eo.
    assert (A' : forall i d k, nth_error cfg i = Some d -> nth_error idx' i = Some k -> nth (Z.to_nat (it_order d)) pos 0 = tile_start d k).
    { intros i d k Hd Hk. destruct (at_tile_nth cfg idx' i d I1 Hd) as (k' & Hk' & R & Sx). rewrite Hk in Hk'. injection Hk' as <-.
      destruct (A i d _ _ Hd Sx) as [A1 _]. rewrite A1. rewrite Forall_forall in HF. destruct (HF d (nth_error_In _ _ Hd)) as [_ Hr]. specialize (Hr k R). apply u32_id. lia. }
    clear - I1 A'. revert I1 A'. generalize idx'. generalize cfg. clear. intros cfg. induction cfg as [|d cfg IH]; intros [|k idx] Hok A; cbn [idx_ok off_sum map] in *; try contradiction; [reflexivity|].
    unfold lsum in *. cbn [fold_right]. rewrite (A 0%nat d k eq_refl eq_refl). f_equal. apply IH; [tauto|]. intros i d' k' H1 H2. exact (A (S i) d' k' H1 H2).
  - pose proof (iter_next_inc_tile cfg strides idx' Hcne HI I1) as HN.
    rewrite I2 in W3. destruct (iter_run cfg bufs bsize n) as [st offs] eqn:Er. cbn [fst] in I2. subst st.
    pose proof (iter_next_tile cfg bufs bsize idx' offs Hbl I1) as HT.
    destruct (iter_next cfg bufs bsize (at_tile cfg idx') offs) as [[s' o'] dn]. cbn [snd] in W4. rewrite <- W4.
    destruct HT as (_ & _ & _ & ->). destruct (iter_next_inc cfg strides idx') as [[s2 o2] d2]. cbn [snd]. tauto.
Qed.

(** If the last iteration dimension is skipped, Next(offset_inc) never reports the end. *)
Theorem iter_increments_refuted : forall d strides, it_order d = -1 -> forall k, snd (iter_next_inc [d] strides [k]) = false.
Proof. intros d strides Ho k. cbn [iter_next_inc]. rewrite Ho. reflexivity. Qed.

(** * Derived configurations *)

Lemma NoDup_map_on : forall (A B : Type) (f : A -> B) l, (forall x y, In x l -> In y l -> f x = f y -> x = y) -> NoDup l -> NoDup (map f l).
Proof.
  intros A B f l Hi Hn. induction Hn as [|a l Ha Hn IH]; cbn [map]; constructor.
  - intros H. apply in_map_iff in H. destruct H as (b & E & Hb). assert (b = a) by (apply Hi; [right; exact Hb|left; reflexivity|exact E]). subst. contradiction.
  - apply IH. intros x y Hx Hy. apply Hi; right; assumption.
Qed.

(** C66: transposing the configuration with a transposition (a permutation of the axes that is its own inverse) gives the tiles of the
    transposed tensor. *)
Theorem transpose_tiles : forall cfg shape st new_order,
  orders_ok (length shape) cfg -> length cfg = length shape -> length st = length cfg ->
  is_order (length shape) new_order -> (forall a, (a < length shape)%nat -> nth (nth a new_order 0%nat) new_order 0%nat = a) ->
  let perm l := map (fun a => nth a l 0) new_order in
  sub_tensor (transpose_order new_order cfg) (perm shape) st = (perm (fst (sub_tensor cfg shape st)), perm (snd (sub_tensor cfg shape st))).
Proof.
  intros cfg shape st no Ho Hlc Hls (Hnd & Hlo & Hrg) Hinv perm.
  assert (Hpl : length (perm shape) = length shape) by (unfold perm; rewrite map_length; exact Hlo).
  set (t := transpose_order no cfg).
  assert (Hlt : length t = length cfg) by (unfold t, transpose_order; rewrite map_length; reflexivity).
  assert (Hno : forall a, (a < length shape)%nat -> (nth a no 0%nat < length shape)%nat).
  { intros a Ha. rewrite Forall_forall in Hrg. apply Hrg. apply nth_In. lia. }
  assert (Hord : map it_order t = map (fun x => Z.of_nat (nth (Z.to_nat x) no 0%nat)) (map it_order cfg)).
  { unfold t, transpose_order. rewrite !map_map. apply map_ext_in. intros d Hd. cbn [it_order]. destruct Ho as [_ Hr]. rewrite Forall_forall in Hr. specialize (Hr d Hd).
    destruct (it_order d <? 0) eqn:E; [lia|reflexivity]. }
  assert (Hot : orders_ok (length (perm shape)) t).
  { split.
    - rewrite Hord. destruct Ho as [Hn Hr]. apply NoDup_map_on; [|exact Hn].
      intros x y Hx Hy E. apply in_map_iff in Hx. destruct Hx as (dx & <- & Hx). apply in_map_iff in Hy. destruct Hy as (dy & <- & Hy).
      rewrite Forall_forall in Hr. pose proof (Hr dx Hx). pose proof (Hr dy Hy).
      assert (E2 : Z.to_nat (it_order dx) = Z.to_nat (it_order dy)).
      { rewrite <- (Hinv (Z.to_nat (it_order dx))) by lia. rewrite <- (Hinv (Z.to_nat (it_order dy))) by lia. f_equal. lia. }
      lia.
    - apply Forall_forall. intros d Hd. apply (in_map it_order) in Hd. rewrite Hord in Hd. apply in_map_iff in Hd. destruct Hd as (x & <- & Hx).
      apply in_map_iff in Hx. destruct Hx as (d' & <- & Hd'). destruct Ho as [_ Hr]. rewrite Forall_forall in Hr. pose proof (Hr d' Hd'). rewrite Hpl. pose proof (Hno (Z.to_nat (it_order d')) ltac:(lia)). lia. }
  pose proof (sub_tensor_spec cfg shape st Ho Hls) as S1. pose proof (sub_tensor_spec t (perm shape) st Hot ltac:(lia)) as S2.
  destruct (sub_tensor cfg shape st) as [p s]. destruct (sub_tensor t (perm shape) st) as [p' s']. destruct S1 as (L1 & L2 & A & _). destruct S2 as (L3 & L4 & B & _).
  cbn [fst snd].
  assert (Hperm : forall l a, (a < length shape)%nat -> nth a (perm l) 0 = nth (nth a no 0%nat) l 0).
  { intros l a Ha. unfold perm. rewrite (nth_map_lt _ _ _ _ _ _ 0%nat) by lia. reflexivity. }
  assert (Hkey : forall a, (a < length shape)%nat -> nth a p' 0 = nth a (perm p) 0 /\ nth a s' 0 = nth a (perm s) 0).
  { intros a Ha. rewrite !Hperm by exact Ha.
    assert (exists i d, nth_error cfg i = Some d /\ Z.to_nat (it_order d) = nth a no 0%nat) as (i & d & Hi & Ei).
    { destruct Ho as [Hn Hr].
      assert (Hin : In (Z.of_nat (nth a no 0%nat)) (map it_order cfg)).
      { apply (NoDup_length_incl Hn (l' := map Z.of_nat (seq 0 (length shape)))).
        - rewrite !map_length, seq_length. lia.
        - intros x Hx. apply in_map_iff in Hx. destruct Hx as (d & <- & Hd). rewrite Forall_forall in Hr. specialize (Hr d Hd).
          apply in_map_iff. exists (Z.to_nat (it_order d)). rewrite in_seq. lia.
        - apply in_map. apply in_seq. pose proof (Hno a Ha). lia. }
      apply in_map_iff in Hin. destruct Hin as (d & Hd & Hin). apply In_nth_error in Hin. destruct Hin as (i & Hi). exists i, d. split; [exact Hi|]. rewrite Hd. lia. }
    assert (Hil : (i < length st)%nat) by (rewrite Hls; apply nth_error_Some; congruence).
    destruct (nth_error st i) as [[q k]|] eqn:Es; [|apply nth_error_None in Es; lia].
    assert (Hod : (it_order d <? 0) = false).
    { destruct Ho as [_ Hr]. rewrite Forall_forall in Hr. pose proof (Hr d (nth_error_In _ _ Hi)). lia. }
    set (d2 := mkIdim (Z.of_nat (nth (Z.to_nat (it_order d)) no 0%nat)) (it_count d) (it_first_inc d) (it_inc d) (it_last_inc d) (it_first_size d) (it_size d) (it_last_size d)).
    assert (Hi2 : nth_error t i = Some d2).
    { unfold t, transpose_order. rewrite (map_nth_error _ _ _ Hi). rewrite Hod. reflexivity. }
    assert (Ea : Z.to_nat (it_order d2) = a).
    { unfold d2. cbn [it_order]. rewrite Nat2Z.id, Ei. apply Hinv. exact Ha. }
    destruct (A i d q k Hi Es) as [A1 A2]. destruct (B i d2 q k Hi2 Es) as [B1 B2]. rewrite Ea in B1, B2. rewrite Ei in A1, A2.
    split; [congruence|]. rewrite B2, A2. rewrite Hperm by exact Ha. reflexivity. }
  f_equal; apply nth_ext with (d := 0) (d' := 0); try (unfold perm; rewrite map_length; lia); intros a Ha; apply Hkey; lia.
Qed.

(** With a cyclic permutation of three axes the tiles of the transposed configuration are those of other axes: the transposed tensor
    has shape 6x8x4, its first axis (the second of the original) must be cut into pieces of 3, but the tile is 2x3x4 large for a
    tensor cut into tiles of 2x3x4. *)
Theorem transpose_order_refuted :
  let cfg := tile_cfg [4; 6; 8] [2; 3; 4] [0; 1; 2]%nat 0 in
  let st := iter_reset cfg in
  let perm l := map (fun a => nth a l 0) [1; 2; 0]%nat in
  perm (snd (sub_tensor cfg [4; 6; 8] st)) = [3; 4; 2]
  /\ snd (sub_tensor (transpose_order [1; 2; 0]%nat cfg) (perm [4; 6; 8]) st) = [4; 2; 3].
Proof. vm_compute. auto. Qed.

(** C67: dropping an axis of an unskewed tiling in the order of the axes gives the tiling of the remaining axes. *)
Theorem drop_axis_tiles : forall axis cfg,
  Forall (fun d => it_first_inc d = it_inc d) cfg -> (axis < length cfg)%nat ->
  let l := firstn axis cfg ++ skipn (S axis) cfg in
  map it_order (drop_axis axis cfg) = map Z.of_nat (seq 0 (length cfg - 1))
  /\ forall i d, nth_error l i = Some d -> nth_error (drop_axis axis cfg) i
     = Some (mkIdim (Z.of_nat i) (it_count d) (it_first_inc d) (it_inc d) (it_last_inc d) (it_first_size d) (it_size d) (it_last_size d)).
Proof.
  intros axis cfg HF Hax l. unfold drop_axis. fold l.
  assert (Hl : length l = (length cfg - 1)%nat) by (unfold l; rewrite app_length, firstn_length, skipn_length; lia).
  assert (HFl : Forall (fun d => it_first_inc d = it_inc d) l).
  { rewrite Forall_forall in HF. unfold l. apply Forall_app. split; apply Forall_forall; intros d Hd; apply HF.
    - rewrite <- (firstn_skipn axis cfg). apply in_or_app. left. exact Hd.
    - rewrite <- (firstn_skipn (S axis) cfg). apply in_or_app. right. exact Hd. }
  split.
  - rewrite <- Hl. rewrite map_map. generalize 0%nat. clear. induction l as [|d l IH]; intros s; cbn [length seq combine map]; [reflexivity|]. rewrite IH. reflexivity.
  - intros i d Hd.
    assert (Hc : nth_error (combine (seq 0 (length l)) l) i = Some (i, d)).
    { enough (forall s, nth_error (combine (seq s (length l)) l) i = Some ((s + i)%nat, d)) as H by exact (H 0%nat). clear - Hd. revert i Hd.
      induction l as [|x l IH]; intros [|i] Hd s; cbn [length seq combine nth_error] in *; try discriminate.
      - injection Hd as ->. rewrite Nat.add_0_r. reflexivity.
      - rewrite (IH i Hd (S s)). f_equal. f_equal. lia. }
    rewrite (map_nth_error _ _ _ Hc). rewrite Forall_forall in HFl. rewrite (HFl d (nth_error_In _ _ Hd)). reflexivity.
Qed.

(** With a skewed first axis the two increments are exchanged: the second tile starts at 4 instead of 3 and the tiles overlap. *)
Theorem drop_axis_refuted :
  let cfg := tile_cfg [10; 6] [4; 3] [0; 1]%nat 1 in
  let d := nth 0 cfg (mkIdim 0 0 0 0 0 0 0 0) in let e := nth 0 (drop_axis 1 cfg) (mkIdim 0 0 0 0 0 0 0 0) in
  map (fun k => (tile_start d k, tile_len d 10 k)) [0; 1; 2] = [(0, 3); (3, 4); (7, 3)]
  /\ map (fun k => (tile_start e k, tile_len e 10 k)) [0; 1; 2] = [(0, 3); (4, 4); (7, 3)].
Proof. vm_compute. auto. Qed.

(** Non-trivial case: a 5x7 tensor in tiles of 2x3, columns first, skewed by one: the tiles of the sweep, the end of the sweep, and the
    update indices. *)
Example iter_run_ex :
  let shape := [5; 7] in let cfg := tile_cfg shape [2; 3] [1; 0]%nat 1 in
  let bufs := repeat (mkBdim 0 0 0 0) 2 in
  total_count cfg = 9
  /\ map (fun n => sub_tensor cfg shape (fst (iter_run cfg bufs 1 n))) (seq 0 9)
     = [([0; 0], [2; 2]); ([0; 2], [2; 3]); ([0; 5], [2; 2]); ([2; 0], [2; 2]); ([2; 2], [2; 3]); ([2; 5], [2; 2]); ([4; 0], [1; 2]); ([4; 2], [1; 3]); ([4; 5], [1; 2])]
  /\ fst (iter_run cfg bufs 1 9) = iter_reset cfg
  /\ map (fun n => update_idx cfg (map snd (fst (iter_run cfg bufs 1 n)))) (seq 0 9) = [0; 1; 0; 0; 1; 0; 2; 3; 2]
  /\ map (fun n => snd (inc_run cfg [7; 1] n)) (seq 0 9) = [0; 2; 5; 14; 16; 19; 28; 30; 33].
Proof. vm_compute. repeat split. Qed.

Example iter_run_hyp : is_order (length [5; 7]) [1; 0]%nat /\ (forall a, (a < 2)%nat -> 1 <= nth a [2; 3] 0 <= nth a [5; 7] 0 /\ nth a [5; 7] 0 + 2 * nth a [2; 3] 0 < 2 ^ 31)
  /\ (forall a, In a [1; 0]%nat -> 0 <= 1 < nth a [2; 3] 0).
Proof.
  split; [|split].
  - split; [repeat constructor; cbn; intuition discriminate|]. split; [reflexivity|]. repeat constructor.
  - intros [|[|a]] Ha; cbn [nth]; lia.
  - intros a [<-|[<-|[]]]; cbn [nth]; lia.
Qed.

(** The offsets of a 5x7x1 tensor in tiles of 2x3x1, in the order of the axes. *)
Example iter_offset_ex :
  let shape := [5; 7; 1] in let stride := [7; 1; 1] in let cfg := tile_cfg shape [2; 3; 1] (seq 0 3) 0 in
  let '(bufs, bsize) := buffer_init cfg shape stride in
  map (fun n => snd (iter_run cfg bufs bsize n)) (seq 0 10) = [0; 14; 28; 3; 17; 31; 6; 20; 34; 0] /\ nested shape stride.
Proof. vm_compute. repeat split; congruence. Qed.
