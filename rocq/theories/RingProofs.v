(** Buffers for a few tiles (C81). *)
From Coq Require Import ZArith List Lia Bool.
From Verif Require Import Base Tensor TensorProofs Ops3 Iter IterProofs IterTheorems Ring.
Import ListNotations.
Open Scope Z_scope.

(** * Specification *)

(** Where tile number [n] of the endless sequence of tiles of one dimension starts, if the passes over the dimension follow each other
    without a gap: the start within the pass after all elements of the passes before. *)
Definition stream_start (d : idim) (n : Z) : Z :=
  (n / it_count d) * (tile_start d (it_count d - 1) + it_last_size d) + tile_start d (n mod it_count d).

(** The size of tile number [n]. *)
Definition stream_len (d : idim) (n : Z) : Z := plain_len d (n mod it_count d).

(** A ring of [B] elements is large enough for [N] tiles: two elements of any [N] tiles in sequence have the same place only if they are
    the same element of the stream. *)
Definition ring_fits (d : idim) (N B : Z) : Prop :=
  0 < B /\ forall k i j x y, 0 <= k -> k <= i < k + N -> k <= j < k + N -> 0 <= x < stream_len d i -> 0 <= y < stream_len d j ->
    (stream_start d i + x) mod B = (stream_start d j + y) mod B -> stream_start d i + x = stream_start d j + y.

(** * Next with position increments *)

Lemma set_at_length {A} k (v : A) l : length (set_at k v l) = length l.
Proof. revert k. induction l as [|x l IH]; intros [|k]; cbn [set_at length]; auto. Qed.

Lemma next_pos_length cfg : forall st inc, length (snd (fst (iter_next_pos cfg st inc))) = length inc.
Proof.
  induction cfg as [|d cfg IH]; intros [|k st] inc; cbn [iter_next_pos]; try reflexivity. destruct (it_order d <? 0).
  - specialize (IH st inc). destruct (iter_next_pos cfg st inc) as [[a b] c]. exact IH.
  - destruct (k =? it_count d - 1).
    + specialize (IH st (set_at (Z.to_nat (it_order d)) (it_last_inc d) inc)). destruct (iter_next_pos cfg st _) as [[a b] c]. cbn [fst snd] in *. rewrite IH. apply set_at_length.
    + destruct (k =? 0); cbn [fst snd]; apply set_at_length.
Qed.

(** The tile indices and the end are those of Next(). *)
Lemma next_pos_tile cfg : forall idx inc, cfg <> [] -> Forall (fun d => 0 <= it_order d) cfg -> idx_ok cfg idx ->
  fst (fst (iter_next_pos cfg idx inc)) = next_tile cfg idx /\ snd (iter_next_pos cfg idx inc) = (tile_no cfg idx =? total_count cfg - 1).
Proof.
  induction cfg as [|d cfg IH]; intros idx inc Hne HF Hok; [congruence|]. clear Hne. destruct idx as [|k idx]; [contradiction|]. destruct Hok as [Hk Hok]. inversion HF as [|? ? Ho HF']; subst.
  cbn [iter_next_pos next_tile]. destruct (it_order d <? 0) eqn:Eo; [lia|]. pose proof (tile_no_range _ _ Hok) as Hrg. cbn [tile_no total_count fold_right]. fold (total_count cfg).
  destruct (k =? it_count d - 1) eqn:E.
  - destruct cfg as [|d' cfg'].
    + destruct idx; [|contradiction]. cbn [iter_next_pos fst snd tile_no total_count fold_right next_tile]. split; [reflexivity|]. symmetry. apply Z.eqb_eq. lia.
    + specialize (IH idx (set_at (Z.to_nat (it_order d)) (it_last_inc d) inc) ltac:(discriminate) HF' Hok).
      destruct (iter_next_pos (d' :: cfg') idx _) as [[st o] done]. cbn [fst snd] in *. destruct IH as (E1 & E3).
      split; [rewrite E1; reflexivity|]. remember (d' :: cfg') as cfg. rewrite E3. destruct (tile_no cfg idx =? total_count cfg - 1) eqn:E5; nia.
  - destruct (k =? 0) eqn:E2; cbn [fst snd]; (split; [reflexivity|]); symmetry; apply Z.eqb_neq; nia.
Qed.

(** The increment of an axis that is not iterated by [cfg] stays; one that is can only become one of its increments. *)
Lemma next_pos_other cfg : forall st inc a, ~ In (Z.of_nat a) (map it_order cfg) -> Forall (fun d => 0 <= it_order d) cfg -> nth a (snd (fst (iter_next_pos cfg st inc))) 0 = nth a inc 0.
Proof.
  induction cfg as [|d cfg IH]; intros [|k st] inc a Ha HF; cbn [iter_next_pos]; try reflexivity. inversion HF as [|? ? Ho HF']; subst. cbn [map In] in Ha.
  destruct (it_order d <? 0) eqn:Eo; [lia|]. assert (Hne : a <> Z.to_nat (it_order d)) by (intros ->; apply Ha; left; lia).
  destruct (k =? it_count d - 1).
  - specialize (IH st (set_at (Z.to_nat (it_order d)) (it_last_inc d) inc) a ltac:(tauto) HF'). destruct (iter_next_pos cfg st _) as [[x y] z]. cbn [fst snd] in *. rewrite IH. now apply nth_set_at_neq.
  - destruct (k =? 0); cbn [fst snd]; now apply nth_set_at_neq.
Qed.

(** The increments lead from the start of a tile to that of the next, on every axis. *)
Lemma next_pos_inc cfg : forall idx inc r, length inc = r -> orders_ok r cfg -> Forall inc_ok cfg -> idx_ok cfg idx ->
  (forall d, In d cfg -> nth (Z.to_nat (it_order d)) inc 0 = 0) ->
  forall i d, nth_error cfg i = Some d ->
    nth (Z.to_nat (it_order d)) (snd (fst (iter_next_pos cfg idx inc))) 0 = tile_start d (nth i (next_tile cfg idx) 0) - tile_start d (nth i idx 0).
Proof.
  induction cfg as [|d cfg IH]; intros idx inc r Hl [HN HO] HF Hok Hz i d1 Hi; [destruct i; discriminate|].
  destruct idx as [|k idx]; [contradiction|]. destruct Hok as [Hk Hok]. inversion HF as [|? ? (Hc & Ho & Hlast) HF']; subst. inversion HO as [|? ? Hr HO']; subst.
  cbn [map] in HN. inversion HN as [|? ? HN1 HN2]; subst. cbn [iter_next_pos next_tile]. destruct (it_order d <? 0) eqn:Eo; [lia|].
  assert (HP : Forall (fun d => 0 <= it_order d) cfg) by (eapply Forall_impl; [|exact HO']; cbn beta; intros; lia).
  assert (Hoth : forall d2, In d2 cfg -> Z.to_nat (it_order d2) <> Z.to_nat (it_order d)).
  { intros d2 H2 E. apply HN1. rewrite Forall_forall in HP. specialize (HP d2 H2). cbn beta in HP. replace (it_order d) with (it_order d2) by lia. now apply in_map. }
  assert (Hs : k < it_count d - 1 -> tile_start d (k + 1) - tile_start d k = if k =? 0 then it_first_inc d else it_inc d).
  { intros Hk1. unfold tile_start. destruct (k + 1 =? 0) eqn:E1; [lia|]. destruct (k =? 0) eqn:E2; [assert (k = 0) by lia; subst k|]; lia. }
  destruct (k =? it_count d - 1) eqn:E.
  - set (inc1 := set_at (Z.to_nat (it_order d)) (it_last_inc d) inc). specialize (IH idx inc1 (length inc) ltac:(apply set_at_length) ltac:(split; assumption) HF' Hok).
    pose proof (next_pos_other cfg idx inc1 (Z.to_nat (it_order d))) as HOt. destruct (iter_next_pos cfg idx inc1) as [[x y] z]. cbn [fst snd] in *.
    destruct i as [|i].
    + cbn [nth_error] in Hi. inversion Hi; subst d1. cbn [nth]. rewrite HOt; [|rewrite Z2Nat.id by lia; exact HN1|exact HP]. unfold inc1. rewrite nth_set_at_eq by lia. rewrite Hlast. assert (k = it_count d - 1) by lia. subst k. change (tile_start d 0) with 0. lia.
    + cbn [nth_error] in Hi. cbn [nth]. apply IH; [|exact Hi]. intros d2 H2. unfold inc1. rewrite nth_set_at_neq by (apply Hoth; exact H2). apply Hz. now right.
  - assert (EE : (if k =? 0 then (k + 1 :: idx, set_at (Z.to_nat (it_order d)) (it_first_inc d) inc, false) else (k + 1 :: idx, set_at (Z.to_nat (it_order d)) (it_inc d) inc, false))
       = (k + 1 :: idx, set_at (Z.to_nat (it_order d)) (if k =? 0 then it_first_inc d else it_inc d) inc, false)) by (destruct (k =? 0); reflexivity).
    rewrite EE. cbn [fst snd]. destruct i as [|i].
    + cbn [nth_error] in Hi. inversion Hi; subst d1. cbn [nth]. rewrite nth_set_at_eq by lia. rewrite Hs by lia. reflexivity.
    + cbn [nth_error] in Hi. cbn [nth]. rewrite nth_set_at_neq. { rewrite Hz; [lia|right; now apply nth_error_In in Hi]. } apply Hoth. now apply nth_error_In in Hi.
Qed.

Lemma nth_zero r a : nth a (repeat 0 r) 0 = 0.
Proof. revert a. induction r as [|r IH]; intros [|a]; cbn [repeat nth]; auto. Qed.

Lemma nth_add : forall (a b : list Z) i, length a = length b -> nth i (map (fun p => fst p + snd p) (combine a b)) 0 = nth i a 0 + nth i b 0.
Proof. induction a as [|x a IH]; intros [|y b] [|i] E; cbn [combine map nth fst snd length] in *; try discriminate; auto. Qed.

Lemma pos_run_length cfg r n : length (snd (pos_run cfg r n)) = r.
Proof.
  induction n as [|n IH]; cbn [pos_run]; [apply repeat_length|]. destruct (pos_run cfg r n) as [st pos]. cbn [snd] in IH.
  pose proof (next_pos_length cfg st (repeat 0 r)) as H. destruct (iter_next_pos cfg st (repeat 0 r)) as [[a b] c]. cbn [fst snd] in *. rewrite map_length, combine_length, H, repeat_length, IH. lia.
Qed.

(** C81: the increments of the position, added up, are the starts of the tiles that Next() visits. *)
Theorem pos_increments cfg r bufs bsize : cfg <> [] -> orders_ok r cfg -> Forall inc_ok cfg -> length bufs = length cfg ->
  forall n, let '(idx, pos) := pos_run cfg r n in
    idx_ok cfg idx /\ fst (iter_run cfg bufs bsize n) = at_tile cfg idx
    /\ (forall i d, nth_error cfg i = Some d -> nth (Z.to_nat (it_order d)) pos 0 = tile_start d (nth i idx 0))
    /\ snd (iter_next_pos cfg idx (repeat 0 r)) = (tile_no cfg idx =? total_count cfg - 1).
Proof.
  intros Hne HO HF Hl. assert (Hc : counts_ok cfg) by (eapply Forall_impl; [|exact HF]; intros d Hd; exact (proj1 Hd)).
  assert (HP : Forall (fun d => 0 <= it_order d) cfg) by (eapply Forall_impl; [|exact HF]; intros d Hd; exact (proj1 (proj2 Hd))).
  assert (Z0 : forall i, nth i (map (fun _ : idim => 0) cfg) 0 = 0). { clear. intros i. revert i. induction cfg as [|d cfg IH]; intros [|i]; cbn [map nth]; auto. }
  induction n as [|n IH].
  - cbn [pos_run iter_run fst]. split; [apply zero_ok; exact Hc|]. split; [symmetry; apply at_zero|]. split.
    + intros i d Hi. rewrite nth_zero, Z0. reflexivity.
    + apply next_pos_tile; auto. apply zero_ok. exact Hc.
  - pose proof (pos_run_length cfg r n) as HL. cbn [pos_run iter_run]. destruct (pos_run cfg r n) as [st pos]. destruct (iter_run cfg bufs bsize n) as [s o]. cbn [fst snd] in IH, HL. destruct IH as (I1 & -> & I2 & _).
    destruct (next_pos_tile cfg st (repeat 0 r) Hne HP I1) as (N1 & N2). pose proof (next_pos_inc cfg st (repeat 0 r) r (repeat_length _ _) HO HF I1 ltac:(intros; apply nth_zero)) as N3.
    pose proof (next_pos_length cfg st (repeat 0 r)) as N4. rewrite repeat_length in N4.
    pose proof (iter_next_tile cfg bufs bsize st o Hl I1) as HN.
    destruct (iter_next_pos cfg st (repeat 0 r)) as [[st' inc] dn]. destruct (iter_next cfg bufs bsize (at_tile cfg st) o) as [[s' o'] dn']. cbn [fst snd] in *. subst st'.
    destruct HN as (-> & _). assert (I3 : idx_ok cfg (next_tile cfg st)) by (apply next_tile_ok; assumption).
    split; [exact I3|]. split; [reflexivity|]. split.
    + intros i d Hi. rewrite nth_add by congruence. rewrite (I2 i d Hi), (N3 i d Hi). lia.
    + now apply next_pos_tile.
Qed.

(** * Positions in a ring *)

Lemma stream_next d n : 1 <= it_count d -> 0 <= n ->
  (n + 1) mod it_count d = (if n mod it_count d =? it_count d - 1 then 0 else n mod it_count d + 1)
  /\ stream_start d (n + 1) - stream_start d n =
     (if n mod it_count d =? it_count d - 1 then it_last_size d else if n mod it_count d =? 0 then it_first_inc d else it_inc d).
Proof.
  intros Hc Hn. unfold stream_start. set (c := it_count d) in *. pose proof (Z.div_mod n c ltac:(lia)) as Hd. pose proof (Z.mod_pos_bound n c ltac:(lia)) as Hm.
  set (q := n / c) in *. set (m := n mod c) in *. destruct (m =? c - 1) eqn:E.
  - assert (E1 : (n + 1) mod c = 0) by (symmetry; apply (Z.mod_unique_pos _ _ (q + 1)); lia).
    assert (E2 : (n + 1) / c = q + 1) by (symmetry; apply (Z.div_unique_pos _ _ _ 0); lia).
    rewrite E1, E2. split; [reflexivity|]. replace m with (c - 1) by lia. change (tile_start d 0) with 0. lia.
  - assert (E1 : (n + 1) mod c = m + 1) by (symmetry; apply (Z.mod_unique_pos _ _ q); lia).
    assert (E2 : (n + 1) / c = q) by (symmetry; apply (Z.div_unique_pos _ _ _ (m + 1)); lia).
    rewrite E1, E2. split; [reflexivity|]. unfold tile_start. destruct (m + 1 =? 0) eqn:E3; [lia|]. destruct (m =? 0) eqn:E4; [replace m with 0 by lia|]; lia.
Qed.

Lemma next_pos_zero cfg : forall st inc a, nth a inc 0 = 0 -> nth a (snd (fst (iter_next_pos (map shrink_zero cfg) st inc))) 0 = 0.
Proof.
  assert (HS : forall inc a o, nth a inc 0 = 0 -> nth a (set_at o 0 inc) 0 = 0).
  { induction inc as [|x inc IH]; intros [|a] [|o] H; cbn [set_at nth] in *; auto. }
  induction cfg as [|d cfg IH]; intros [|k st] inc a Ha; cbn [map iter_next_pos]; try exact Ha. destruct (it_order (shrink_zero d) <? 0).
  - specialize (IH st inc a Ha). destruct (iter_next_pos (map shrink_zero cfg) st inc) as [[x y] z]. exact IH.
  - destruct (k =? it_count (shrink_zero d) - 1).
    + cbn [shrink_zero it_last_inc it_order]. specialize (IH st (set_at (Z.to_nat (it_order d)) 0 inc) a (HS _ _ _ Ha)). destruct (iter_next_pos (map shrink_zero cfg) st _) as [[x y] z]. exact IH.
    + destruct (k =? 0); cbn [fst snd shrink_zero it_first_inc it_inc]; now apply HS.
Qed.

Lemma shrink_idx_ok cyc cfg idx : idx_ok (shrink_cfg cyc cfg) idx <-> idx_ok cfg idx.
Proof.
  assert (H : forall l i, idx_ok (map shrink_zero l) i <-> idx_ok l i). { induction l as [|d l IH]; intros [|k i]; cbn [map idx_ok]; try tauto. rewrite (IH i). reflexivity. }
  destruct cfg as [|d cfg], idx as [|k idx]; cbn [shrink_cfg idx_ok]; try tauto. rewrite (H cfg idx). destruct cyc; reflexivity.
Qed.

Lemma shrink_next cyc cfg idx : next_tile (shrink_cfg cyc cfg) idx = next_tile cfg idx.
Proof.
  assert (H : forall l i, next_tile (map shrink_zero l) i = next_tile l i). { induction l as [|d l IH]; intros [|k i]; cbn [map next_tile]; try reflexivity. rewrite IH. reflexivity. }
  destruct cfg as [|d cfg], idx as [|k idx]; cbn [shrink_cfg next_tile]; try reflexivity. rewrite H. destruct cyc; reflexivity.
Qed.

Lemma map_shrink_order cfg : map it_order (map shrink_zero cfg) = map it_order cfg.
Proof. rewrite map_map. reflexivity. Qed.

(** C81: in a cyclic buffer the increments add up to the stream of the first dimension, while no other axis moves. *)
Theorem ring_positions d cfg r : orders_ok r (d :: cfg) -> counts_ok (d :: cfg) -> 0 <= it_last_size d < 2 ^ 31 ->
  forall n, let '(idx, pos) := pos_run (shrink_cfg true (d :: cfg)) r n in
    idx_ok (d :: cfg) idx /\ idx = fst (pos_run (d :: cfg) r n) /\ nth 0 idx 0 = Z.of_nat n mod it_count d
    /\ nth (Z.to_nat (it_order d)) pos 0 = stream_start d (Z.of_nat n)
    /\ forall a, a <> Z.to_nat (it_order d) -> nth a pos 0 = 0.
Proof.
  intros [HN HO] Hc Hls. inversion Hc as [|? ? Hc1 Hc2]; subst. inversion HO as [|? ? Ho1 Ho2]; subst. cbn [map] in HN. inversion HN as [|? ? HN1 HN2]; subst.
  assert (HP : Forall (fun d => 0 <= it_order d) (d :: cfg)) by (eapply Forall_impl; [|exact HO]; cbn beta; intros; lia).
  assert (HP2 : Forall (fun d => 0 <= it_order d) (shrink_cfg true (d :: cfg))).
  { cbn [shrink_cfg]. constructor; [exact (proj1 Ho1)|]. apply Forall_map. inversion HP; assumption. }
  induction n as [|n IH].
  - cbn [pos_run fst]. assert (Z0 : map (fun _ : idim => 0) (shrink_cfg true (d :: cfg)) = map (fun _ => 0) (d :: cfg)) by (cbn [shrink_cfg map]; rewrite map_map; reflexivity).
    rewrite Z0. split; [apply zero_ok; exact Hc|]. split; [reflexivity|]. split; [cbn [map nth]; now rewrite Z.mod_0_l by lia|].
    split; [|intros; apply nth_zero]. rewrite nth_zero. unfold stream_start. change (Z.of_nat 0) with 0. rewrite Z.div_0_l, Z.mod_0_l by lia. reflexivity.
  - pose proof (pos_run_length (shrink_cfg true (d :: cfg)) r n) as HL. change (pos_run (shrink_cfg true (d :: cfg)) r (S n)) with
      (let '(st, pos) := pos_run (shrink_cfg true (d :: cfg)) r n in let '(st', inc, _) := iter_next_pos (shrink_cfg true (d :: cfg)) st (repeat 0 r) in (st', map (fun p => fst p + snd p) (combine pos inc))).
    change (pos_run (d :: cfg) r (S n)) with
      (let '(st, pos) := pos_run (d :: cfg) r n in let '(st', inc, _) := iter_next_pos (d :: cfg) st (repeat 0 r) in (st', map (fun p => fst p + snd p) (combine pos inc))).
    destruct (pos_run (shrink_cfg true (d :: cfg)) r n) as [st pos]. destruct (pos_run (d :: cfg) r n) as [st0 pos0]. cbn [fst snd] in IH, HL. destruct IH as (I1 & -> & I2 & I3 & I4).
    destruct (next_pos_tile (d :: cfg) st0 (repeat 0 r) ltac:(discriminate) HP I1) as (N1 & _).
    destruct (next_pos_tile (shrink_cfg true (d :: cfg)) st0 (repeat 0 r) ltac:(discriminate) HP2 ltac:(apply shrink_idx_ok; exact I1)) as (M1 & _). rewrite shrink_next in M1.
    pose proof (next_pos_length (shrink_cfg true (d :: cfg)) st0 (repeat 0 r)) as N4. rewrite repeat_length in N4.
    destruct (stream_next d (Z.of_nat n) Hc1 ltac:(lia)) as (S1 & S2). destruct st0 as [|k st0]; [contradiction|]. cbn [nth] in I2. rewrite <- I2 in S1, S2. replace (Z.of_nat (S n)) with (Z.of_nat n + 1) by lia.
    assert (HO1 : (Z.to_nat (it_order d) < r)%nat) by lia.
    assert (HI : nth (Z.to_nat (it_order d)) (snd (fst (iter_next_pos (shrink_cfg true (d :: cfg)) (k :: st0) (repeat 0 r)))) 0
                 = (if k =? it_count d - 1 then it_last_size d else if k =? 0 then it_first_inc d else it_inc d)
              /\ forall a, a <> Z.to_nat (it_order d) -> nth a (snd (fst (iter_next_pos (shrink_cfg true (d :: cfg)) (k :: st0) (repeat 0 r)))) 0 = 0).
    { cbn [shrink_cfg iter_next_pos]. cbn [shrink_head it_order it_count it_last_inc it_first_inc it_inc]. destruct (it_order d <? 0) eqn:Eo; [lia|].
      rewrite w32_id by lia. destruct (k =? it_count d - 1) eqn:E.
      - set (inc1 := set_at (Z.to_nat (it_order d)) (it_last_size d) (repeat 0 r)).
        pose proof (next_pos_other (map shrink_zero cfg) st0 inc1 (Z.to_nat (it_order d))) as Ho. pose proof (next_pos_zero cfg st0 inc1) as Hz.
        destruct (iter_next_pos (map shrink_zero cfg) st0 inc1) as [[x y] z]. cbn [fst snd] in *. split.
        + rewrite Ho. { unfold inc1. apply nth_set_at_eq. rewrite repeat_length. lia. } { rewrite map_shrink_order, Z2Nat.id by lia. exact HN1. }
          apply Forall_map. inversion HP; assumption.
        + intros a Ha. apply Hz. unfold inc1. rewrite nth_set_at_neq by exact Ha. apply nth_zero.
      - destruct (k =? 0); cbn [fst snd]; (split; [apply nth_set_at_eq; rewrite repeat_length; lia|intros a Ha; rewrite nth_set_at_neq by exact Ha; apply nth_zero]). }
    destruct HI as (H1 & H2).
    destruct (iter_next_pos (shrink_cfg true (d :: cfg)) (k :: st0) (repeat 0 r)) as [[st' inc] dn]. destruct (iter_next_pos (d :: cfg) (k :: st0) (repeat 0 r)) as [[st2 inc2] dn2]. cbn [fst snd] in *. subst st' st2.
    split; [apply next_tile_ok; assumption|]. split; [reflexivity|]. split.
    { rewrite S1. cbn [next_tile]. destruct (k =? it_count d - 1); reflexivity. }
    split. { rewrite nth_add by congruence. rewrite I3, H1. lia. }
    intros a Ha. rewrite nth_add by congruence. rewrite (I4 a Ha), (H2 a Ha). reflexivity.
Qed.

(** * The ring is large enough *)

Record ring_ok (d : idim) : Prop := {
  ro_count : 1 <= it_count d;
  ro_inc : 0 <= it_first_inc d /\ 0 <= it_inc d;
  ro_size : 0 < it_first_size d /\ 0 < it_size d /\ 0 <= it_last_size d /\ (it_count d = 1 -> 0 < it_last_size d);
  ro_two : it_count d = 2 -> it_first_inc d <= it_first_size d;
  ro_more : 3 <= it_count d -> it_first_inc d <= Z.max (it_first_size d) (it_inc d)
            /\ it_last_size d + it_first_inc d + it_size d <= dim_max d + Z.max (it_first_size d) (it_inc d) + it_inc d }.

Lemma dim_max_len d k : 1 <= it_count d -> 0 <= k < it_count d -> plain_len d k <= dim_max d.
Proof.
  intros Hc Hk. unfold plain_len, dim_max. cbv zeta. destruct (k =? it_count d - 1) eqn:E1; destruct (1 <? it_count d) eqn:E2; destruct (2 <? it_count d) eqn:E3; destruct (k =? 0) eqn:E4; lia.
Qed.

Definition ring_math (d : idim) (N : Z) : Z :=
  if 1 <? N then
    if it_count d =? 1 then dim_max d * N
    else if it_count d =? 2 then it_last_size d + it_first_size d + (N - 2) * it_inc d
    else dim_max d + Z.max (it_first_size d) (it_inc d) + (N - 2) * it_inc d
  else dim_max d.

Lemma ring_math_le d N align : ring_ok d -> 1 <= N -> N * (dim_max d + it_first_size d + it_inc d) < 2 ^ 32 -> ring_math d N <= ring_len d N align.
Proof.
  intros [R1 R2 R3 R4 R5] HN Hb. assert (Hm : 0 <= dim_max d). { unfold dim_max. cbv zeta. destruct (1 <? it_count d); destruct (2 <? it_count d); lia. }
  assert (Hls : it_last_size d <= dim_max d). { unfold dim_max. cbv zeta. destruct (1 <? it_count d); destruct (2 <? it_count d); lia. }
  assert (Hi1 : it_inc d <= N * it_inc d) by nia. assert (H2 : 0 <= N * dim_max d) by nia. assert (H3 : 0 <= N * it_first_size d) by nia.
  assert (H4 : dim_max d <= N * dim_max d) by nia. assert (H5 : it_first_size d <= N * it_first_size d) by nia.
  assert (Hb2 : N * dim_max d + N * it_first_size d + N * it_inc d < 2 ^ 32) by lia. clear Hb.
  unfold ring_math, ring_len. cbv zeta. rewrite (u32_id (it_inc d)) by lia. destruct (1 <? N) eqn:E1; [|lia].
  destruct (it_count d =? 1); [rewrite (u32_id (dim_max d * N)) by lia; lia|].
  replace ((N - 2) * it_inc d) with (N * it_inc d - 2 * it_inc d) by lia.
  assert (2 * it_inc d <= N * it_inc d) by nia.
  destruct (it_count d =? 2).
  - rewrite (u32_id (it_last_size d + it_first_size d + _)) by lia. lia.
  - rewrite (u32_id (dim_max d + _ + _)) by lia. lia.
Qed.

(** The tiles [k], ..., [k + N - 1] take no more than [ring_math] elements of the stream. *)
Lemma ring_window d N k j : ring_ok d -> 1 <= N -> it_count d = 1 \/ N <= it_count d -> 0 <= k -> k <= j < k + N ->
  0 <= stream_start d j - stream_start d k /\ stream_start d j + stream_len d j - stream_start d k <= ring_math d N.
Proof.
  intros HR HN Hc Hk Hj. pose proof HR as [R1 R2 R3 R4 R5]. unfold stream_start, stream_len.
  set (c := it_count d) in *. pose proof (Z.div_mod k c ltac:(lia)) as Dk. pose proof (Z.mod_pos_bound k c ltac:(lia)) as Mk.
  set (a := k mod c) in *. set (q := k / c) in *. set (i := j - k).
  assert (Hm : forall b, 0 <= b < c -> plain_len d b <= dim_max d) by (intros b Hb; now apply dim_max_len).
  destruct (Z.eq_dec c 1) as [E1|E1].
  { assert (Ej : j mod c = 0) by (rewrite E1; apply Z.mod_1_r). assert (Ej2 : j / c = j) by (rewrite E1; apply Z.div_1_r). rewrite Ej, Ej2. replace a with 0 by lia. assert (q = k) by nia.
    change (tile_start d 0) with 0. rewrite E1. change (tile_start d (1 - 1)) with 0. pose proof (Hm 0 ltac:(lia)) as Hm0.
    assert (Ed : dim_max d = it_last_size d) by (unfold dim_max; fold c; rewrite E1; reflexivity).
    assert (Hi : j * it_last_size d - q * it_last_size d = i * it_last_size d) by (subst i; nia). assert (0 <= i * it_last_size d) by (apply Z.mul_nonneg_nonneg; lia).
    split; [lia|]. unfold ring_math. fold c. rewrite E1. cbn [Z.eqb Pos.eqb]. destruct (1 <? N) eqn:EN; [|assert (i = 0) by lia; nia].
    assert (i * it_last_size d <= (N - 1) * it_last_size d) by (apply Z.mul_le_mono_nonneg_r; lia). lia. }
  assert (HNc : N <= c) by lia. assert (Hi : 0 <= i < N) by (subst i; lia).
  assert (Hiinc : i * it_inc d <= (N - 1) * it_inc d) by (apply Z.mul_le_mono_nonneg_r; lia). assert (Hiinc0 : 0 <= i * it_inc d) by (apply Z.mul_nonneg_nonneg; lia).
  destruct (Z_lt_dec (a + i) c) as [Hw|Hw].
  - assert (Ej : j mod c = a + i) by (symmetry; apply (Z.mod_unique_pos _ _ q); subst i; lia).
    assert (Ej2 : j / c = q) by (symmetry; apply (Z.div_unique_pos _ _ _ (a + i)); subst i; lia).
    rewrite Ej, Ej2. pose proof (Hm (a + i) ltac:(lia)) as Hm1.
    clear Ej Ej2 Dk Hj Hk. clearbody a i q.
    assert (Hd : 0 <= tile_start d (a + i) - tile_start d a /\ (i = 0 \/ tile_start d (a + i) - tile_start d a = i * it_inc d \/ (a = 0 /\ 1 <= i /\ tile_start d (a + i) - tile_start d a = it_first_inc d + (i - 1) * it_inc d))).
    { unfold tile_start. destruct (a =? 0) eqn:Ea; destruct (a + i =? 0) eqn:Eai; try lia.
      + assert (a = 0) by lia. assert (1 <= i) by lia. assert (0 <= (i - 1) * it_inc d) by (apply Z.mul_nonneg_nonneg; lia). replace (a + i - 1) with (i - 1) by lia. split; [lia|]. right; right. lia. }
    destruct Hd as (Hd0 & Hd). split; [lia|]. unfold ring_math. fold c. destruct (c =? 1) eqn:Ec1; [lia|].
    destruct (1 <? N) eqn:EN.
    + destruct (c =? 2) eqn:Ec2.
      * assert (N = 2) by lia. subst N. assert (Hi2 : i = 0 \/ i = 1) by lia. destruct Hi2 as [Hi2|Hi2].
        { rewrite Hi2 in *. replace (a + 0) with a in * by lia. unfold plain_len. fold c. destruct (a =? c - 1) eqn:Ez1; [lia|]. destruct (a =? 0) eqn:Ez2; lia. }
        assert (a = 0) by lia. specialize (R4 ltac:(lia)). unfold plain_len. fold c. destruct (a + i =? c - 1) eqn:El; [|lia]. rewrite Hi2 in *. destruct Hd as [Hd|[Hd|Hd]]; [lia| |lia].
        unfold tile_start in Hd |- *. destruct (a + 1 =? 0) eqn:E3; [lia|]. destruct (a =? 0) eqn:E4; lia.
      * specialize (R5 ltac:(lia)). destruct R5 as (R5 & R6). destruct Hd as [Hd|[Hd|Hd]].
        { rewrite Hd in *. replace (a + 0) with a in * by lia. assert (0 <= (N - 2) * it_inc d) by (apply Z.mul_nonneg_nonneg; lia). lia. }
        { lia. } { lia. }
    + assert (i = 0) by lia. replace (a + i) with a in * by lia. lia.
  - set (b := a + i - c). assert (Hb : 0 <= b < a) by (subst b; lia).
    assert (Ej : j mod c = b) by (symmetry; apply (Z.mod_unique_pos _ _ (q + 1)); subst i b; lia).
    assert (Ej2 : j / c = q + 1) by (symmetry; apply (Z.div_unique_pos _ _ _ b); subst i b; lia).
    rewrite Ej, Ej2. pose proof (Hm b ltac:(lia)) as Hm1.
    assert (Ht : tile_start d (c - 1) - tile_start d a = (i - 1 - b) * it_inc d).
    { unfold tile_start. destruct (c - 1 =? 0) eqn:E2; [lia|]. destruct (a =? 0) eqn:E3; [lia|]. subst b. lia. }
    assert (Hib : 0 <= (i - 1 - b) * it_inc d) by (apply Z.mul_nonneg_nonneg; subst b; lia).
    assert (HtB : tile_start d b = if b =? 0 then 0 else it_first_inc d + (b - 1) * it_inc d) by reflexivity.
    assert (Hb1 : 1 <= b -> 0 <= (b - 1) * it_inc d) by (intros; apply Z.mul_nonneg_nonneg; lia).
    assert (HpB : plain_len d b = if b =? 0 then it_first_size d else it_size d). { unfold plain_len. fold c. destruct (b =? c - 1) eqn:E2; [lia|reflexivity]. }
    assert (EE : (q + 1) * (tile_start d (c - 1) + it_last_size d) + tile_start d b - (q * (tile_start d (c - 1) + it_last_size d) + tile_start d a)
               = (i - 1 - b) * it_inc d + it_last_size d + tile_start d b) by lia.
    assert (Hbd : b = a + i - c) by reflexivity. clear Ej Ej2 Dk Hj Hk. clearbody b a i q.
    split; [rewrite EE, HtB; destruct (b =? 0) eqn:Ez; lia|].
    assert (EF : (q + 1) * (tile_start d (c - 1) + it_last_size d) + tile_start d b + plain_len d b - (q * (tile_start d (c - 1) + it_last_size d) + tile_start d a)
               = (i - 1 - b) * it_inc d + it_last_size d + tile_start d b + plain_len d b) by lia.
    rewrite EF, HtB, HpB. unfold ring_math. fold c. destruct (c =? 1) eqn:Ec1; [lia|]. destruct (1 <? N) eqn:EN; [|lia].
    assert (Hls : it_last_size d <= dim_max d). { specialize (Hm (c - 1) ltac:(lia)). unfold plain_len in Hm. fold c in Hm. rewrite Z.eqb_refl in Hm. exact Hm. }
    destruct (c =? 2) eqn:Ec2.
    + assert (N = 2) by lia. subst N. assert (i = 1 /\ b = 0) as (-> & Hb0) by lia. rewrite Hb0. cbn [Z.eqb]. lia.
    + specialize (R5 ltac:(lia)). destruct R5 as (R5 & R6). destruct (b =? 0) eqn:Eb; [replace b with 0 by lia; lia|]. lia.
Qed.

Lemma stream_len_pos d N : ring_ok d -> 1 <= N -> it_count d = 1 \/ N <= it_count d -> 0 < ring_math d N.
Proof.
  intros [R1 R2 R3 R4 R5] HN Hc. assert (Hm : 0 < dim_max d). { unfold dim_max. cbv zeta. destruct (1 <? it_count d) eqn:E1; destruct (2 <? it_count d); lia. }
  unfold ring_math. destruct (1 <? N) eqn:E; [|lia]. assert (0 <= (N - 2) * it_inc d) by (apply Z.mul_nonneg_nonneg; lia).
  destruct (it_count d =? 1); [nia|]. destruct (it_count d =? 2); lia.
Qed.

Lemma small_multiple B t v : B * t = v -> - B < v < B -> v = 0.
Proof. intros E H. assert (t = 0) by nia. subst t. lia. Qed.

Lemma ring_fits_ok d N align : ring_ok d -> 1 <= N -> it_count d = 1 \/ N <= it_count d -> N * (dim_max d + it_first_size d + it_inc d) < 2 ^ 32 ->
  ring_fits d N (ring_len d N align).
Proof.
  intros HR HN Hc Hb. pose proof (ring_math_le d N align HR HN Hb) as HL. pose proof (stream_len_pos d N HR HN Hc) as HP. split; [lia|].
  assert (HH : forall k i j x y, 0 <= k -> k <= i < k + N -> i <= j < k + N -> 0 <= x < stream_len d i -> 0 <= y < stream_len d j ->
    (stream_start d i + x) mod ring_len d N align = (stream_start d j + y) mod ring_len d N align -> stream_start d i + x = stream_start d j + y).
  { intros k i j x y Hk Hi Hj Hx Hy E. destruct (ring_window d N i j HR HN Hc ltac:(lia) ltac:(lia)) as (W1 & W2). pose proof (ring_window d N i i HR HN Hc ltac:(lia) ltac:(lia)) as (W3 & W4).
    set (B := ring_len d N align) in *. pose proof (Z.div_mod (stream_start d i + x) B ltac:(lia)) as D1. pose proof (Z.div_mod (stream_start d j + y) B ltac:(lia)) as D2. rewrite E in D1.
    assert (Eq : B * ((stream_start d i + x) / B - (stream_start d j + y) / B) = stream_start d i + x - (stream_start d j + y)) by lia.
    assert (-B < stream_start d i + x - (stream_start d j + y) < B) by lia. pose proof (small_multiple _ _ _ Eq ltac:(lia)). lia. }
  intros k i j x y Hk Hi Hj Hx Hy E. destruct (Z_le_dec i j).
  - apply (HH k i j x y); auto; lia.
  - symmetry. apply (HH k j i y x); auto; lia.
Qed.

(** C81: a ring for [N] tiles holds any [N] tiles of a tiled dimension that follow each other. *)
Theorem ring_tiles o D T skew N align : 1 <= T <= D -> 0 <= skew < T -> D + T + T < 2 ^ 31 -> 1 <= N -> N * T < 2 ^ 30 ->
  let d := tile_dim o D T skew in
  it_count d = 1 \/ N <= it_count d -> ring_fits d N (ring_len d N align).
Proof.
  intros HT Hs Hb HN HNT d Hc. destruct (tile_dim_val o D T skew HT ltac:(lia) Hb) as (E & Hn1 & Hn & Hnb). fold d in E. set (n := ceil_div (D + skew) T) in *.
  pose proof (Z.mod_pos_bound (D + skew - 1) T ltac:(lia)) as Hm. set (ls := (D + skew - 1) mod T) in *. clearbody d. subst d. cbn [it_count] in Hc. clearbody n ls.
  apply ring_fits_ok; cbn [it_count it_first_size it_inc]; [|lia|exact Hc|].
  - constructor; cbn [it_count it_first_inc it_inc it_first_size it_size it_last_size]; try lia. intros H3. unfold dim_max. cbn [it_count it_first_inc it_inc it_first_size it_size it_last_size]. cbv zeta. destruct (1 <? n) eqn:E1; [|lia]. destruct (2 <? n) eqn:E2; lia.
  - assert (Hd : dim_max (mkIdim o n (T - skew) T (T * (1 - n) + skew) (T - skew) T (ls + 1)) <= T). { unfold dim_max. cbn [it_count it_first_size it_size it_last_size]. cbv zeta. destruct (1 <? n); destruct (2 <? n); lia. }
    set (mm := dim_max _) in *. clearbody mm. assert (N * (mm + (T - skew) + T) <= N * (T + T + T)) by (apply Z.mul_le_mono_nonneg_l; lia). lia.
Qed.

(** The ring is no larger than that for a tiled dimension without skew, unless the alignment needs more. *)
Theorem ring_tiles_exact o D T N align : 1 <= T <= D -> D + T + T < 2 ^ 31 -> 1 <= N -> N * T < 2 ^ 30 -> 1 <= align <= T ->
  let d := tile_dim o D T 0 in
  2 < it_count d -> ring_len d N align = N * T.
Proof.
  intros HT Hb HN HNT Ha d Hc. destruct (tile_dim_val o D T 0 HT ltac:(lia) Hb) as (E & Hn1 & Hn & Hnb). fold d in E. set (n := ceil_div (D + 0) T) in *.
  pose proof (Z.mod_pos_bound (D + 0 - 1) T ltac:(lia)) as Hm. set (ls := (D + 0 - 1) mod T) in *. clearbody d. subst d. cbn [it_count] in Hc. clearbody n ls.
  assert (align * N <= T * N) by (apply Z.mul_le_mono_nonneg_r; lia). assert (0 <= align * N) by (apply Z.mul_nonneg_nonneg; lia).
  unfold ring_len, dim_max. cbn [it_count it_first_inc it_inc it_first_size it_size it_last_size]. cbv zeta.
  rewrite (u32_id T) by lia. replace (T - T) with 0 by lia. rewrite (u32_id 0) by lia. rewrite (u32_id (align * N)) by lia. rewrite (u32_id (align * N + 0)) by lia.
  destruct (1 <? n) eqn:E1; [|lia]. destruct (2 <? n) eqn:E2; [|lia]. destruct (n =? 1) eqn:E3; [lia|]. destruct (n =? 2) eqn:E4; [lia|].
  replace (Z.max (Z.max (ls + 1) (T - 0)) T) with T by lia. replace (Z.max (T - 0) T) with T by lia.
  destruct (1 <? N) eqn:E5; [|assert (N = 1) by lia; subst N; lia]. rewrite u32_id by lia. lia.
Qed.

Lemma kernel_ring_ok o Do T skew D K S P : 1 <= T <= Do -> 0 <= skew < T -> Do + T + T < 2 ^ 31 ->
  1 <= S -> 1 <= K -> 1 <= D -> 0 <= P <= (T - skew) * S -> P < (T - skew - 1) * S + K -> (Do + 2 * T) * S + K + D < 2 ^ 31 ->
  let out := tile_dim o Do T skew in let d := kernel_dim out D K S P in
  tile_start out (it_count out - 1) * S - P <= D -> S <= K \/ it_count out <> 2 ->
  ring_ok d /\ it_count d = it_count out /\ dim_max d <= D + T * S + K /\ it_first_size d <= D /\ it_inc d = T * S /\ 0 <= it_last_size d <= D.
Proof.
  intros HT Hs Hb HS HK HD HP HP2 Hbig out d Hlast HKS. destruct (tile_dim_val o Do T skew HT ltac:(lia) Hb) as (E & Hn1 & Hn & Hnb). fold out in E.
  set (n := ceil_div (Do + skew) T) in *. assert (Ec : it_count out = n) by (rewrite E; reflexivity).
  assert (V := kernel_dim_val o Do T skew D K S P HT Hs Hb HS HK HD HP ltac:(lia) Hbig). cbv zeta in V. fold n out in V. fold d in V. rewrite Ec in *. specialize (V Hlast).
  assert (Ht : 1 < n -> tile_start out (n - 1) * S = (T - skew) * S + (n - 2) * (T * S)).
  { intros H1. rewrite E. unfold tile_start. cbn [it_first_inc it_inc]. destruct (n - 1 =? 0) eqn:E0; [lia|]. replace (n - 1 - 1) with (n - 2) by lia. lia. }
  assert (HTS : (T - 1) * S = T * S - S) by lia. assert (HTS2 : (T - skew - 1) * S = (T - skew) * S - S) by lia. assert (HTS3 : (T - skew) * S <= T * S) by (apply Z.mul_le_mono_nonneg_r; lia).
  rewrite HTS, HTS2 in V. rewrite HTS2 in HP2. clear HTS HTS2.
  assert (HTT : 1 * S <= T * S) by (apply Z.mul_le_mono_nonneg_r; lia). set (ts := T * S) in *. set (fi := (T - skew) * S) in *. clearbody out. clear E Hnb Hn.
  assert (Hn2 : 1 < n -> 0 <= (n - 2) * ts) by (intros; apply Z.mul_nonneg_nonneg; lia). assert (Hn3 : 3 <= n -> 1 * ts <= (n - 2) * ts) by (intros; apply Z.mul_le_mono_nonneg_r; lia). assert (Hn4 : n = 2 -> (n - 2) * ts = 0) by (intros ->; lia).
  set (nt := (n - 2) * ts) in *. clearbody d n ts fi nt. subst d. cbn [it_count].
  assert (Hls : 0 <= D + (if 1 <? n then - (fi - P + nt) else 0) <= D /\ (n = 1 -> D + (if 1 <? n then - (fi - P + nt) else 0) = D)). { destruct (1 <? n) eqn:E1; [specialize (Ht ltac:(lia)); specialize (Hn2 ltac:(lia))|]; lia. }
  assert (Hls2 : 1 < n -> D + (if 1 <? n then - (fi - P + nt) else 0) = D - (fi - P + nt)). { intros H1. destruct (1 <? n) eqn:E1; lia. }
  set (ls := D + (if 1 <? n then - (fi - P + nt) else 0)) in *. clearbody ls. clear Hbig Hb.
  split; [|split; [reflexivity|split; [|split; [cbn [it_first_size]; lia|split; [reflexivity|cbn [it_last_size]; lia]]]]].
  - constructor; cbn [it_count it_first_inc it_inc it_first_size it_size it_last_size]; try lia.
    intros H3. specialize (Hls2 ltac:(lia)). specialize (Hn3 H3). unfold dim_max. cbn [it_count it_first_inc it_inc it_first_size it_size it_last_size]. cbv zeta. destruct (1 <? n) eqn:E1; [|lia]. destruct (2 <? n) eqn:E2; [|lia]. clear Ht Hlast HKS Hls. lia.
  - unfold dim_max. cbn [it_count it_first_size it_size it_last_size]. cbv zeta. destruct (1 <? n); destruct (2 <? n); lia.
Qed.

(** C81: the same for the input of a convolution-like kernel, whose tiles overlap, unless the stride exceeds the kernel and there are two tiles. *)
Theorem ring_kernel o Do T skew D K S P N align : 1 <= T <= Do -> 0 <= skew < T -> Do + T + T < 2 ^ 31 ->
  1 <= S -> 1 <= K -> 1 <= D -> 0 <= P <= (T - skew) * S -> P < (T - skew - 1) * S + K -> (Do + 2 * T) * S + K + D < 2 ^ 31 ->
  1 <= N -> N * (D + T * S + K) < 2 ^ 31 ->
  let out := tile_dim o Do T skew in let d := kernel_dim out D K S P in
  tile_start out (it_count out - 1) * S - P <= D -> S <= K \/ it_count out <> 2 -> it_count out = 1 \/ N <= it_count out ->
  ring_fits d N (ring_len d N align).
Proof.
  intros HT Hs Hb HS HK HD HP HP2 Hbig HN HNb out d Hlast HKS Hc.
  destruct (kernel_ring_ok o Do T skew D K S P HT Hs Hb HS HK HD HP HP2 Hbig Hlast HKS) as (R & Rc & Rm & Rf & Ri & _). fold out in Rc. fold out d in R, Rc, Rm, Rf, Ri.
  apply ring_fits_ok; [exact R|exact HN|rewrite Rc; exact Hc|]. rewrite Ri. set (mm := dim_max d) in *. set (fs := it_first_size d) in *. clearbody mm fs.
  assert (N * (mm + fs + T * S) <= N * (2 * (D + T * S + K))) by (apply Z.mul_le_mono_nonneg_l; lia). lia.
Qed.

(** * Writer and reader of the same ring *)

Lemma stream_contiguous d n : 1 <= it_count d -> it_first_inc d = it_first_size d -> it_inc d = it_size d -> 0 <= n ->
  stream_start d (n + 1) = stream_start d n + stream_len d n.
Proof.
  intros Hc H1 H2 Hn. destruct (stream_next d n Hc Hn) as (_ & E). unfold stream_len, plain_len. rewrite <- H1, <- H2. lia.
Qed.

Lemma stream_zero d : 1 <= it_count d -> stream_start d 0 = 0.
Proof. intros H. unfold stream_start. rewrite Z.div_0_l, Z.mod_0_l by lia. reflexivity. Qed.

Lemma writer_mono d : 1 <= it_count d -> it_first_inc d = it_first_size d -> it_inc d = it_size d -> (forall n, 0 <= n -> 0 <= stream_len d n) ->
  forall v u, 0 <= v -> v < u -> stream_start d v + stream_len d v <= stream_start d u.
Proof.
  intros Hc H1 H2 Hl v u Hv Hu. assert (Hp : 0 <= u - v - 1) by lia. replace u with (v + 1 + (u - v - 1)) by lia. revert Hp. generalize (u - v - 1) as t. clear u Hu. intros t Ht. pattern t. apply natlike_ind; [| |exact Ht]; clear t Ht.
  - rewrite Z.add_0_r, stream_contiguous by assumption. lia.
  - intros t Ht IH. unfold Z.succ. replace (v + 1 + (t + 1)) with (v + 1 + t + 1) by lia. rewrite stream_contiguous by (assumption || lia). specialize (Hl (v + 1 + t) ltac:(lia)). lia.
Qed.

Lemma writer_covers d : 1 <= it_count d -> it_first_inc d = it_first_size d -> it_inc d = it_size d -> forall r p, 0 <= r -> 0 <= p < stream_start d r + stream_len d r ->
  exists v, 0 <= v <= r /\ stream_start d v <= p < stream_start d v + stream_len d v.
Proof.
  intros Hc H1 H2 r p Hr. revert p. pattern r. apply natlike_ind; [| |exact Hr]; clear r Hr.
  - intros p Hp. rewrite stream_zero in Hp by exact Hc. exists 0. rewrite stream_zero by exact Hc. lia.
  - intros r Hr IH p Hp. unfold Z.succ in *. rewrite (stream_contiguous d r) in Hp by assumption. destruct (Z_lt_dec p (stream_start d r + stream_len d r)) as [Hx|Hx].
    + destruct (IH p ltac:(lia)) as (v & Hv & Hv2). exists v. lia.
    + exists (r + 1). rewrite (stream_contiguous d r) by assumption. lia.
Qed.

(** The writer, which skips the elements that the tile before has brought, ends every tile where the reader's ends. *)
Theorem ring_ends o Do T skew D K S P : 1 <= T <= Do -> 0 <= skew < T -> Do + T + T < 2 ^ 31 ->
  1 <= S <= K -> 1 <= D -> 0 <= P <= (T - skew) * S -> P < (T - skew - 1) * S + K -> (Do + 2 * T) * S + K + D < 2 ^ 31 ->
  let out := tile_dim o Do T skew in let inp := kernel_dim out D K S P in let wr := remove_overlap_dim inp in
  tile_start out (it_count out - 1) * S - P <= D -> 1 < it_count out -> (T - skew - 1) * S + K - P <= D -> (tile_start out (it_count out - 1) - 1) * S - P + K <= D ->
  it_count wr = it_count out /\ it_first_inc wr = it_first_size wr /\ it_inc wr = it_size wr /\ (forall n, 0 <= n -> 0 <= stream_len wr n)
  /\ forall n, 0 <= n -> stream_start inp n <= stream_start wr n /\ stream_start wr n + stream_len wr n = stream_start inp n + stream_len inp n.
Proof.
  intros HT Hs Hb HSK HD HP HP2 Hbig out inp wr Hlast Hc1 Hfirst Hend.
  destruct (tile_dim_val o Do T skew HT ltac:(lia) Hb) as (E & Hn1 & Hn & Hnb). fold out in E.
  set (n := ceil_div (Do + skew) T) in *. assert (Ec : it_count out = n) by (rewrite E; reflexivity).
  assert (V := kernel_dim_val o Do T skew D K S P HT Hs Hb ltac:(lia) ltac:(lia) HD HP ltac:(lia) Hbig). cbv zeta in V. fold n out in V. fold inp in V. rewrite Ec in *. specialize (V Hlast).
  assert (Ht : tile_start out (n - 1) = (T - skew) + (n - 2) * T).
  { rewrite E. unfold tile_start. cbn [it_first_inc it_inc]. destruct (n - 1 =? 0) eqn:E0; [lia|]. replace (n - 1 - 1) with (n - 2) by lia. lia. }
  rewrite Ht in Hlast, Hend. clear Ht. destruct (1 <? n) eqn:E1; [|lia].
  assert (HTS : (T - 1) * S = T * S - S) by lia. assert (HTS2 : (T - skew - 1) * S = (T - skew) * S - S) by lia.
  assert (HTS3 : (T - skew + (n - 2) * T) * S = (T - skew) * S + (n - 2) * (T * S)) by lia. assert (HTS4 : (T - skew + (n - 2) * T - 1) * S = (T - skew) * S + (n - 2) * (T * S) - S) by lia.
  rewrite HTS, HTS2 in V. rewrite HTS2 in HP2, Hfirst. rewrite HTS3 in Hlast. rewrite HTS4 in Hend. clear HTS HTS2 HTS3 HTS4.
  assert (HT2 : 0 <= T * S <= Do * S) by (split; [apply Z.mul_nonneg_nonneg|apply Z.mul_le_mono_nonneg_r]; lia). assert (HT3 : (Do + 2 * T) * S = Do * S + 2 * (T * S)) by lia. rewrite HT3 in Hbig. clear HT3.
  assert (HT4 : (T - skew) * S <= T * S) by (apply Z.mul_le_mono_nonneg_r; lia).
  assert (Hn2 : 0 <= (n - 2) * (T * S)) by (apply Z.mul_nonneg_nonneg; lia).
  set (ts := T * S) in *. set (ds := Do * S) in *. set (fi := (T - skew) * S) in *. set (nt := (n - 2) * ts) in *.
  assert (W : wr = mkIdim o n (fi - S + K - P) ts (- (fi - P + nt) - (K - S)) (fi - S + K - P) ts (D + - (fi - P + nt) - (K - S))).
  { unfold wr. rewrite V. unfold remove_overlap_dim. cbn [it_count it_order it_first_inc it_inc it_last_inc it_first_size it_size it_last_size]. rewrite E1.
    rewrite Z.min_l by lia. rewrite (w32_id (ts - S + K - ts)) by lia. replace (ts - S + K - ts) with (K - S) by lia. rewrite (w32_id (fi - S + K - P)) by lia. rewrite (w32_id (- (fi - P + nt) - (K - S))) by lia. rewrite (u32_id ts) by lia.
    rewrite (u32_id (D + - (fi - P + nt) - (K - S))) by lia. reflexivity. }
  rewrite W, V. clear W V. clearbody wr inp out. cbn [it_count it_first_inc it_first_size it_inc it_size]. rewrite Z.min_l by lia.
  split; [reflexivity|]. split; [reflexivity|]. split; [reflexivity|]. split.
  - intros m Hm. unfold stream_len, plain_len. cbn [it_count it_first_size it_size it_last_size]. destruct (_ =? _); [lia|]. destruct (_ =? _); lia.
  - intros m Hm. unfold stream_start, stream_len, plain_len. cbn [it_count it_first_size it_size it_last_size]. unfold tile_start. cbn [it_first_inc it_inc].
    pose proof (Z.mod_pos_bound m n ltac:(lia)) as Hmm. set (a := m mod n) in *. set (q := m / n). clearbody a q. destruct (n - 1 =? 0) eqn:E0; [lia|]. replace (n - 1 - 1) with (n - 2) by lia. fold nt.
    replace (fi - S + K - P + nt + (D + - (fi - P + nt) - (K - S))) with D by lia. replace (fi - P + nt + (D + - (fi - P + nt))) with D by lia.
    set (qd := q * D). destruct (a =? n - 1) eqn:Ea; destruct (a =? 0) eqn:Eb; [lia| | |]; [|lia|]; set (at_ := (a - 1) * ts) in *; [assert (at_ = nt) by (subst at_ nt; replace (a - 1) with (n - 2) by lia; reflexivity)|]; clearbody at_ nt qd; lia.
Qed.

(** C81: a reader that uses tile [r] of a ring for [N] tiles, while the writer has written up to tile [w], less than [N] tiles ahead, finds every
    element: it was written by a tile not after [r], and nothing was written to its place after. *)
Theorem ring_handover o Do T skew D K S P N align : 1 <= T <= Do -> 0 <= skew < T -> Do + T + T < 2 ^ 31 ->
  1 <= S <= K -> 1 <= D -> 0 <= P <= (T - skew) * S -> P < (T - skew - 1) * S + K -> (Do + 2 * T) * S + K + D < 2 ^ 31 ->
  1 <= N -> N * (D + T * S + K) < 2 ^ 31 ->
  let out := tile_dim o Do T skew in let inp := kernel_dim out D K S P in let wr := remove_overlap_dim inp in let B := ring_len inp N align in
  tile_start out (it_count out - 1) * S - P <= D -> 1 < it_count out -> N <= it_count out ->
  (T - skew - 1) * S + K - P <= D -> (tile_start out (it_count out - 1) - 1) * S - P + K <= D ->
  forall r w p, 0 <= r <= w -> w < r + N -> stream_start inp r <= p < stream_start inp r + stream_len inp r ->
  exists v, 0 <= v <= r /\ stream_start wr v <= p < stream_start wr v + stream_len wr v
    /\ forall u q, v < u <= w -> stream_start wr u <= q < stream_start wr u + stream_len wr u -> q mod B <> p mod B.
Proof.
  intros HT Hs Hb HSK HD HP HP2 Hbig HN HNb out inp wr B Hlast Hc1 HNc Hfirst Hend r w p Hr Hw Hp.
  destruct (ring_ends o Do T skew D K S P HT Hs Hb HSK HD HP HP2 Hbig Hlast Hc1 Hfirst Hend) as (Wc & W1 & W2 & W3 & W4). fold out in Wc. fold out inp wr in Wc, W1, W2, W3, W4.
  destruct (ring_kernel o Do T skew D K S P N align HT Hs Hb ltac:(lia) ltac:(lia) HD HP HP2 Hbig HN HNb Hlast ltac:(left; lia) ltac:(right; exact HNc)) as (HB & HF). fold out inp in HF, HB. fold B in HF, HB.
  destruct (kernel_ring_ok o Do T skew D K S P HT Hs Hb ltac:(lia) ltac:(lia) HD HP HP2 Hbig Hlast ltac:(left; lia)) as (RO & Rc & _). fold out in Rc. fold out inp in RO, Rc.
  clearbody B inp wr. assert (Wc1 : 1 <= it_count wr) by lia.
  assert (Hp0 : 0 <= p).
  { assert (H0 : 0 <= stream_start inp r); [|lia]. unfold stream_start. pose proof (Z.mod_pos_bound r (it_count inp) ltac:(lia)) as Hm. pose proof (Z.div_pos r (it_count inp) ltac:(lia) ltac:(lia)) as Hd. destruct RO as [R1 R2 R3 R4 R5].
    assert (HT0 : forall k, 0 <= k -> 0 <= tile_start inp k). { intros k Hk. unfold tile_start. destruct (k =? 0) eqn:Ek; [lia|]. assert (0 <= (k - 1) * it_inc inp) by (apply Z.mul_nonneg_nonneg; lia). lia. }
    pose proof (HT0 (it_count inp - 1) ltac:(lia)). pose proof (HT0 (r mod it_count inp) ltac:(lia)). assert (0 <= r / it_count inp * (tile_start inp (it_count inp - 1) + it_last_size inp)) by (apply Z.mul_nonneg_nonneg; lia). lia. }
  destruct (W4 r ltac:(lia)) as (_ & Er). destruct (writer_covers wr Wc1 W1 W2 r p ltac:(lia) ltac:(lia)) as (v & Hv & Hv2). exists v. split; [lia|]. split; [exact Hv2|].
  intros u q Hu Hq E. pose proof (writer_mono wr Wc1 W1 W2 W3 v u ltac:(lia) ltac:(lia)) as Hvu. destruct (W4 u ltac:(lia)) as (Su & Eu).
  destruct (Z_le_dec u r) as [Hur|Hur].
  - assert (Hqr : q < stream_start inp r + stream_len inp r). { destruct (Z.eq_dec u r) as [->|Hne]; [lia|]. pose proof (writer_mono wr Wc1 W1 W2 W3 u r ltac:(lia) ltac:(lia)). pose proof (W3 r ltac:(lia)). lia. }
    specialize (HF r r r (q - stream_start inp r) (p - stream_start inp r) ltac:(lia) ltac:(lia) ltac:(lia) ltac:(lia) ltac:(lia)).
    replace (stream_start inp r + (q - stream_start inp r)) with q in HF by lia. replace (stream_start inp r + (p - stream_start inp r)) with p in HF by lia. specialize (HF E). lia.
  - specialize (HF r u r (q - stream_start inp u) (p - stream_start inp r) ltac:(lia) ltac:(lia) ltac:(lia) ltac:(lia) ltac:(lia)).
    replace (stream_start inp u + (q - stream_start inp u)) with q in HF by lia. replace (stream_start inp r + (p - stream_start inp r)) with p in HF by lia. specialize (HF E). lia.
Qed.

(** * The dimensions of the buffer *)

Lemma ceil_rnd_le x a : 1 <= a -> 0 <= x -> x <= ceil_rnd x a < x + a.
Proof. intros Ha Hx. unfold ceil_rnd, ceil_div. nia. Qed.

Lemma shrink_step_length N cyc al dims id : length (shrink_step N cyc al dims id) = length dims.
Proof. destruct id as [i d]. unfold shrink_step. destruct (it_order d <? 0); [reflexivity|]. cbv zeta. destruct cyc; rewrite ?set_at_length; reflexivity. Qed.

Lemma shrink_fold_length N cyc al l : forall dims, length (fold_left (shrink_step N cyc al) l dims) = length dims.
Proof. induction l as [|id l IH]; intros dims; cbn [fold_left]; [reflexivity|]. rewrite IH. apply shrink_step_length. Qed.

(** An axis other than 0, or any in the cyclic case, changes only in the step of its own iteration dimension. *)
Lemma shrink_fold_other N cyc al l a : forall dims, cyc = true \/ a <> O -> ~ In (Z.of_nat a) (map (fun id => it_order (snd id)) l) ->
  Forall (fun id => 0 <= it_order (snd id)) l -> nth a (fold_left (shrink_step N cyc al) l dims) 0 = nth a dims 0.
Proof.
  induction l as [|[i d] l IH]; intros dims Ha Hn HF; cbn [fold_left]; [reflexivity|]. inversion HF as [|? ? H1 H2]; subst. cbn [map In snd] in Hn, H1.
  rewrite IH; [|exact Ha|tauto|exact H2]. unfold shrink_step. destruct (it_order d <? 0) eqn:E; [lia|]. cbv zeta. assert (a <> Z.to_nat (it_order d)) by (intros ->; apply Hn; left; lia).
  destruct cyc; [now rewrite nth_set_at_neq by assumption|]. rewrite nth_set_at_neq by (destruct Ha; congruence). now apply nth_set_at_neq.
Qed.

Lemma shrink_fold_at N cyc al l : forall dims i d, In (i, d) l -> cyc = true \/ it_order d <> 0 -> NoDup (map (fun id => it_order (snd id)) l) ->
  Forall (fun id => 0 <= it_order (snd id) < Z.of_nat (length dims)) l ->
  nth (Z.to_nat (it_order d)) (fold_left (shrink_step N cyc al) l dims) 0
  = if cyc && Nat.eqb i 0 then ring_len d N (nth (Z.to_nat (it_order d)) al 0) else uwrap 32 (ceil_rnd (dim_max d) (nth (Z.to_nat (it_order d)) al 0)).
Proof.
  induction l as [|[j e] l IH]; intros dims i d Hin Hc HN HF; [contradiction|]. cbn [fold_left]. inversion HF as [|? ? H1 H2]; subst. cbn [map snd] in HN, H1. inversion HN as [|? ? HN1 HN2]; subst.
  destruct Hin as [Hin|Hin].
  - inversion Hin; subst j e. rewrite shrink_fold_other.
    + unfold shrink_step. destruct (it_order d <? 0) eqn:E; [lia|]. cbv zeta. destruct cyc; [rewrite nth_set_at_eq by lia; reflexivity|].
      rewrite nth_set_at_neq by (destruct Hc; [discriminate|lia]). rewrite nth_set_at_eq by lia. reflexivity.
    + destruct Hc; [now left|right; lia].
    + rewrite Z2Nat.id by lia. exact HN1.
    + eapply Forall_impl; [|exact H2]. cbn beta. intros; lia.
  - apply IH; auto. rewrite shrink_step_length. exact H2.
Qed.

Lemma combine_seq_orders cfg : forall s, map (fun id : nat * idim => it_order (snd id)) (combine (seq s (length cfg)) cfg) = map it_order cfg.
Proof. induction cfg as [|d cfg IH]; intros s; cbn [length seq combine map snd]; [reflexivity|]. now rewrite IH. Qed.

Lemma combine_seq_Forall (P : idim -> Prop) cfg : forall s, Forall P cfg -> Forall (fun id : nat * idim => P (snd id)) (combine (seq s (length cfg)) cfg).
Proof. induction cfg as [|d cfg IH]; intros s H; cbn [length seq combine]; [constructor|]. inversion H; subst. constructor; [assumption|now apply IH]. Qed.

Lemma combine_seq_In (cfg : list idim) : forall s i d, nth_error cfg i = Some d -> In ((s + i)%nat, d) (combine (seq s (length cfg)) cfg).
Proof.
  induction cfg as [|e cfg IH]; intros s [|i] d H; cbn [nth_error] in H; try discriminate; cbn [length seq combine In].
  - inversion H; subst. left. f_equal. lia.
  - right. specialize (IH (S s) i d H). now replace (s + S i)%nat with (S s + i)%nat by lia.
Qed.

Lemma combine_seq_split (l1 : list idim) d l2 : forall s, combine (seq s (length (l1 ++ d :: l2))) (l1 ++ d :: l2)
  = combine (seq s (length l1)) l1 ++ ((s + length l1)%nat, d) :: combine (seq (S (s + length l1)) (length l2)) l2.
Proof.
  induction l1 as [|x l1 IH]; intros s; cbn [length seq combine app]; [rewrite Nat.add_0_r; reflexivity|].
  rewrite IH. replace (s + S (length l1))%nat with (S s + length l1)%nat by lia. reflexivity.
Qed.

(** C81: a cyclic buffer has the ring on the axis of the first dimension, and on each other axis room for its largest tile. *)
Theorem ring_dims N al d cfg shape : orders_ok (length shape) (d :: cfg) -> counts_ok (d :: cfg) ->
  (forall e, In e cfg -> 0 <= dim_max e /\ 1 <= nth (Z.to_nat (it_order e)) al 0 /\ dim_max e + nth (Z.to_nat (it_order e)) al 0 < 2 ^ 32) ->
  let dims := shrink_dims N true al (d :: cfg) shape in
  length dims = length shape /\ nth (Z.to_nat (it_order d)) dims 0 = ring_len d N (nth (Z.to_nat (it_order d)) al 0)
  /\ forall e, In e cfg -> (forall k, 0 <= k < it_count e -> plain_len e k <= nth (Z.to_nat (it_order e)) dims 0)
       /\ nth (Z.to_nat (it_order e)) dims 0 < dim_max e + nth (Z.to_nat (it_order e)) al 0.
Proof.
  intros [HN HO] Hc Hb dims. unfold dims, shrink_dims. split; [apply shrink_fold_length|].
  assert (HN2 : NoDup (map (fun id : nat * idim => it_order (snd id)) (combine (seq 0 (length (d :: cfg))) (d :: cfg)))) by (rewrite combine_seq_orders; exact HN).
  assert (HF : Forall (fun id : nat * idim => 0 <= it_order (snd id) < Z.of_nat (length shape)) (combine (seq 0 (length (d :: cfg))) (d :: cfg))) by (apply (combine_seq_Forall (fun d => 0 <= it_order d < Z.of_nat (length shape))); exact HO).
  split.
  - rewrite (shrink_fold_at N true al _ shape 0 d) by (auto; now left). reflexivity.
  - intros e He. apply In_nth_error in He as Hi. destruct Hi as (i & Hi). destruct (Hb e He) as (B1 & B2 & B3).
    rewrite (shrink_fold_at N true al _ shape (S i) e); [|apply (combine_seq_In (d :: cfg) 0 (S i) e); exact Hi|now left|exact HN2|exact HF]. cbn [andb Nat.eqb].
    pose proof (ceil_rnd_le _ _ B2 B1) as Hr. rewrite u32_id by lia. split; [|lia]. intros k Hk. apply Z.le_trans with (dim_max e); [|lia].
    apply dim_max_len; [|exact Hk]. inversion Hc; subst. match goal with H : Forall _ cfg |- _ => rewrite Forall_forall in H; exact (H e He) end.
Qed.

Lemma shrink_fold_zero N al l : forall dims, ~ In 0 (map (fun id => it_order (snd id)) l) -> Forall (fun id => 0 <= it_order (snd id)) l -> dims <> [] ->
  1 <= N -> 0 <= nth 0 dims 0 -> nth 0 dims 0 * N ^ Z.of_nat (length l) < 2 ^ 32 ->
  nth 0 (fold_left (shrink_step N false al) l dims) 0 = nth 0 dims 0 * N ^ Z.of_nat (length l).
Proof.
  induction l as [|[i d] l IH]; intros dims Hn HF Hd HN H0 Hb; cbn [fold_left]; [cbn [length]; change (N ^ Z.of_nat 0) with 1; lia|].
  inversion HF as [|? ? H1 H2]; subst. cbn [map In snd] in Hn, H1. cbn [length] in Hb |- *. rewrite Nat2Z.inj_succ, Z.pow_succ_r in Hb |- * by lia.
  assert (HP : 1 <= N ^ Z.of_nat (length l)) by (pose proof (Z.pow_pos_nonneg N (Z.of_nat (length l)) ltac:(lia) ltac:(lia)); lia).
  assert (E0 : nth 0 (shrink_step N false al dims (i, d)) 0 = nth 0 dims 0 * N).
  { unfold shrink_step. destruct (it_order d <? 0) eqn:E; [lia|]. cbv zeta. rewrite nth_set_at_eq by (rewrite set_at_length; destruct dims; [congruence|cbn [length]; lia]).
    rewrite nth_set_at_neq by lia. apply u32_id. split; [apply Z.mul_nonneg_nonneg; lia|]. replace (nth 0 dims 0 * (N * N ^ Z.of_nat (length l))) with (nth 0 dims 0 * N * N ^ Z.of_nat (length l)) in Hb by lia.
    assert (0 <= nth 0 dims 0 * N) by (apply Z.mul_nonneg_nonneg; lia). assert (nth 0 dims 0 * N * 1 <= nth 0 dims 0 * N * N ^ Z.of_nat (length l)) by (apply Z.mul_le_mono_nonneg_l; lia). lia. }
  rewrite IH; rewrite ?E0.
  - lia.
  - tauto.
  - exact H2.
  - intros E. apply (f_equal (@length Z)) in E. rewrite shrink_step_length in E. destruct dims; [congruence|discriminate].
  - exact HN.
  - apply Z.mul_nonneg_nonneg; lia.
  - lia.
Qed.

(** A buffer that is not cyclic has room for the largest tile on each axis, and on axis 0 for at least [N] of them: the number of tiles is multiplied
    in once for each iteration dimension from that of axis 0 on. *)
Theorem plain_dims N al cfg shape : orders_ok (length shape) cfg -> counts_ok cfg -> 1 <= N ->
  forall i d, nth_error cfg i = Some d ->
  let a := nth (Z.to_nat (it_order d)) al 0 in
  0 <= dim_max d -> 1 <= a -> (dim_max d + a) * N ^ Z.of_nat (length cfg - i) < 2 ^ 32 ->
  let sz := nth (Z.to_nat (it_order d)) (shrink_dims N false al cfg shape) 0 in
  (it_order d = 0 -> sz = ceil_rnd (dim_max d) a * N ^ Z.of_nat (length cfg - i)) /\ (it_order d <> 0 -> sz = ceil_rnd (dim_max d) a)
  /\ forall k, 0 <= k < it_count d -> plain_len d k * (if it_order d =? 0 then N else 1) <= sz.
Proof.
  intros [HN HO] Hc HN1 i d Hi a Hm Ha Hb sz. pose proof (ceil_rnd_le _ _ Ha Hm) as Hr.
  assert (Hil : (i < length cfg)%nat) by (apply nth_error_Some; congruence).
  assert (HP : 1 <= N ^ Z.of_nat (length cfg - i)) by (pose proof (Z.pow_pos_nonneg N (Z.of_nat (length cfg - i)) ltac:(lia) ltac:(lia)); lia).
  assert (HP2 : N <= N ^ Z.of_nat (length cfg - i)).
  { replace (Z.of_nat (length cfg - i)) with (Z.succ (Z.of_nat (length cfg - i - 1))) by lia. rewrite Z.pow_succ_r by lia. pose proof (Z.pow_pos_nonneg N (Z.of_nat (length cfg - i - 1)) ltac:(lia) ltac:(lia)). nia. }
  assert (Hb2 : ceil_rnd (dim_max d) a * N ^ Z.of_nat (length cfg - i) <= (dim_max d + a) * N ^ Z.of_nat (length cfg - i)) by (apply Z.mul_le_mono_nonneg_r; lia).
  assert (Hb3 : ceil_rnd (dim_max d) a * 1 <= ceil_rnd (dim_max d) a * N ^ Z.of_nat (length cfg - i)) by (apply Z.mul_le_mono_nonneg_l; lia).
  assert (HN2 : NoDup (map (fun id : nat * idim => it_order (snd id)) (combine (seq 0 (length cfg)) cfg))) by (rewrite combine_seq_orders; exact HN).
  assert (HF : Forall (fun id : nat * idim => 0 <= it_order (snd id) < Z.of_nat (length shape)) (combine (seq 0 (length cfg)) cfg)) by (apply (combine_seq_Forall (fun d => 0 <= it_order d < Z.of_nat (length shape))); exact HO).
  assert (Hd : In d cfg) by (eapply nth_error_In; exact Hi).
  assert (Hord : 0 <= it_order d < Z.of_nat (length shape)) by (rewrite Forall_forall in HO; exact (HO d Hd)).
  assert (Hcd : 1 <= it_count d) by (unfold counts_ok in Hc; rewrite Forall_forall in Hc; exact (Hc d Hd)).
  assert (S1 : it_order d <> 0 -> sz = ceil_rnd (dim_max d) a).
  { intros H0. unfold sz, shrink_dims. rewrite (shrink_fold_at N false al _ shape i d); [|apply (combine_seq_In cfg 0 i d); exact Hi|now right|exact HN2|exact HF]. cbn [andb]. apply u32_id. lia. }
  assert (S0 : it_order d = 0 -> sz = ceil_rnd (dim_max d) a * N ^ Z.of_nat (length cfg - i)).
  { intros H0. unfold sz, shrink_dims. destruct (nth_error_split cfg i Hi) as (l1 & l2 & E & El).
    assert (E2 : combine (seq 0 (length cfg)) cfg = combine (seq 0 (length l1)) l1 ++ (i, d) :: combine (seq (S i) (length l2)) l2).
    { rewrite E, <- El. apply (combine_seq_split l1 d l2 0). }
    rewrite E2 in *. rewrite map_app in HN2. cbn [map snd] in HN2. apply NoDup_remove_2 in HN2 as HR. rewrite H0 in HR. rewrite Forall_app in HF. destruct HF as (_ & HF). inversion HF as [|? ? _ HF2]; subst.
    assert (Elen : (length (l1 ++ d :: l2) - length l1 = S (length l2))%nat) by (rewrite app_length; cbn [length]; lia).
    rewrite fold_left_app. cbn [fold_left]. set (dm := fold_left _ (combine (seq 0 (length l1)) l1) shape). assert (Ldm : length dm = length shape) by apply shrink_fold_length.
    assert (E0 : nth 0 (shrink_step N false al dm (length l1, d)) 0 = ceil_rnd (dim_max d) a * N).
    { unfold shrink_step. destruct (it_order d <? 0) eqn:E; [lia|]. cbv zeta. rewrite H0. cbn [andb]. change (Z.to_nat 0) with 0%nat. rewrite nth_set_at_eq by (rewrite set_at_length; lia). rewrite nth_set_at_eq by lia.
      assert (Ea : nth 0 al 0 = a) by (unfold a; rewrite H0; reflexivity). rewrite Ea. rewrite (u32_id (ceil_rnd (dim_max d) a)) by lia. apply u32_id.
      assert (0 <= ceil_rnd (dim_max d) a * N <= ceil_rnd (dim_max d) a * N ^ Z.of_nat (length (l1 ++ d :: l2) - length l1)) by (split; [apply Z.mul_nonneg_nonneg|apply Z.mul_le_mono_nonneg_l]; lia). lia. }
    rewrite H0. change (Z.to_nat 0) with 0%nat. rewrite shrink_fold_zero.
    - rewrite E0, combine_length, seq_length, Nat.min_id, Elen, Nat2Z.inj_succ, Z.pow_succ_r by lia. lia.
    - intros Hin. apply HR. apply in_or_app. now right.
    - eapply Forall_impl; [|exact HF2]. cbn beta. intros; lia.
    - intros E. apply (f_equal (@length Z)) in E. rewrite shrink_step_length, Ldm in E. cbn [length] in E. lia.
    - exact HN1.
    - rewrite E0. apply Z.mul_nonneg_nonneg; lia.
    - rewrite E0, combine_length, seq_length, Nat.min_id. rewrite Elen, Nat2Z.inj_succ, Z.pow_succ_r in Hb2, Hb by lia. lia. }
  split; [exact S0|]. split; [exact S1|]. intros k Hk. pose proof (dim_max_len d k Hcd Hk) as Hp.
  destruct (it_order d =? 0) eqn:Eo.
  - rewrite S0 by lia. apply Z.le_trans with (ceil_rnd (dim_max d) a * N); [apply Z.mul_le_mono_nonneg_r; lia|apply Z.mul_le_mono_nonneg_l; lia].
  - rewrite S1 by lia. lia.
Qed.

(** * Refuted *)

(** Two tiles of a pooling with a stride larger than its kernel do not fit into a ring for two tiles: elements of two tiles share a place. *)
Theorem ring_stride_refuted : exists d x y, d = kernel_dim (tile_dim 0 4 2 0) 7 1 2 0 /\ it_count d = 2
  /\ 0 <= x < stream_len d 0 /\ 0 <= y < stream_len d 1 /\ (stream_start d 0 + x) mod ring_len d 2 1 = (stream_start d 1 + y) mod ring_len d 2 1
  /\ stream_start d 0 + x <> stream_start d 1 + y.
Proof. exists (kernel_dim (tile_dim 0 4 2 0) 7 1 2 0), 0, 2. vm_compute. repeat split; try discriminate; reflexivity. Qed.

(** The overlap of such tiles is negative: the ring may become as long as the range of uint32_t allows. *)
Theorem ring_overlap_refuted : exists d, d = kernel_dim (tile_dim 0 4 2 0) 13 1 4 0 /\ dim_max d = 5 /\ ring_len d 2 1 = 2 ^ 32 - 1.
Proof. exists (kernel_dim (tile_dim 0 4 2 0) 13 1 4 0). vm_compute. repeat split. Qed.

(** A ring for more tiles than the dimension has is too short, if the tiles overlap. *)
Theorem ring_many_refuted : exists d, d = kernel_dim (tile_dim 0 2 1 0) 4 3 1 0 /\ it_count d = 2 /\ ring_len d 5 1 = 9
  /\ (stream_start d 0 + 0) mod 9 = (stream_start d 4 + 1) mod 9 /\ 1 < stream_len d 4 /\ 0 < stream_len d 0.
Proof. exists (kernel_dim (tile_dim 0 2 1 0) 4 3 1 0). vm_compute. repeat split. Qed.

(** A buffer for two tiles of four iterated dimensions that is not cyclic is reported eight times larger than two tiles. *)
Theorem plain_dims_refuted : exists cfg, cfg = tile_cfg [8; 8; 8; 8] [4; 4; 4; 4] [0; 1; 2; 3]%nat 0
  /\ shrink_size 1 false [1; 1; 1; 1] cfg [8; 8; 8; 8] = 256 /\ shrink_size 2 false [1; 1; 1; 1] cfg [8; 8; 8; 8] = 16 * 256.
Proof. exists (tile_cfg [8; 8; 8; 8] [4; 4; 4; 4] [0; 1; 2; 3]%nat 0). vm_compute. repeat split. Qed.

(** * Examples *)

(** A convolution with a kernel of 3 and padding of 1 over 20 rows in tiles of 6: a ring for two tiles. *)
Example ring_example : let d := kernel_dim (tile_dim 0 20 6 0) 20 3 1 1 in
  it_count d = 4 /\ map (plain_len d) [0; 1; 2; 3] = [7; 8; 8; 3] /\ ring_len d 2 1 = 15 /\ map (stream_start d) [0; 1; 2; 3; 4; 5] = [0; 5; 11; 17; 20; 25]
  /\ map (stream_start (remove_overlap_dim d)) [0; 1; 2; 3; 4; 5] = [0; 7; 13; 19; 20; 27].
Proof. vm_compute. repeat split. Qed.
Example ring_example_ok : ring_fits (kernel_dim (tile_dim 0 20 6 0) 20 3 1 1) 2 15.
Proof. apply (ring_kernel 0 20 6 0 20 3 1 1 2 1); try lia; [vm_compute; discriminate|right; vm_compute; discriminate]. Qed.
Example ring_example_tiles : ring_fits (tile_dim 0 20 6 2) 3 (ring_len (tile_dim 0 20 6 2) 3 4).
Proof. apply ring_tiles; try lia. right. vm_compute. discriminate. Qed.
Example ring_example_run : pos_run (shrink_cfg true (tile_cfg [8; 6] [3; 4] [0; 1]%nat 0)) 2 4 = ([1; 1], [11; 0]) /\ pos_run (tile_cfg [8; 6] [3; 4] [0; 1]%nat 0) 2 4 = ([1; 1], [3; 4]).
Proof. split; reflexivity. Qed.
Example ring_example_dims : shrink_dims 2 true [1; 4] (tile_cfg [8; 6] [3; 5] [0; 1]%nat 0) [8; 6] = [6; 8] /\ shrink_dims 2 false [1; 4] (tile_cfg [8; 6] [3; 5] [1; 0]%nat 0) [8; 6] = [6; 8].
Proof. split; reflexivity. Qed.
Example ring_example_handover : forall p, 5 <= p < 13 -> exists v, 0 <= v <= 1 /\ stream_start (remove_overlap_dim (kernel_dim (tile_dim 0 20 6 0) 20 3 1 1)) v <= p.
Proof.
  intros p Hp. destruct (ring_handover 0 20 6 0 20 3 1 1 2 1) with (r := 1) (w := 2) (p := p) as (v & Hv & Hv2 & _); try lia; try (vm_compute; discriminate).
  - vm_compute. reflexivity.
  - change (stream_start _ 1) with 5. change (stream_len _ 1) with 8. lia.
  - exists v. split; [exact Hv|apply Hv2].
Qed.
