(** Adjusting iterator configurations (C82). *)
From Coq Require Import ZArith List Lia Bool.
From Verif Require Import Base Tensor TensorProofs Ops3 Iter IterProofs IterTheorems Ring RingProofs IterAdj.
Import ListNotations.
Open Scope Z_scope.

(** * Padding *)

(** C82: ApplyPrePadding moves all tiles but the first by the padding; the walk over the tiles still returns to the start. *)
Theorem prepad_starts pad d : inc_ok d -> 0 <= pad -> -(2 ^ 31) <= it_last_inc d - pad -> -(2 ^ 31) <= it_first_inc d -> it_first_inc d + pad < 2 ^ 31 -> it_last_inc d < 2 ^ 31 ->
  let e := prepad_dim pad d in
  inc_ok e /\ it_count e = it_count d /\ (forall k, plain_len e k = plain_len d k)
  /\ forall k, 0 <= k < it_count d -> tile_start e k = if k =? 0 then 0 else tile_start d k + pad.
Proof.
  intros (Hc & Ho & Hl) Hp H1 H2 H3 H4 e. unfold e, prepad_dim. destruct (0 <=? it_order d) eqn:E1; [|lia]. cbn [andb]. destruct (1 <? it_count d) eqn:E2.
  - rewrite !w32_id by lia. split.
    + unfold inc_ok. cbn [it_count it_order it_last_inc]. split; [exact Hc|]. split; [exact Ho|]. rewrite Hl. unfold tile_start. cbn [it_first_inc it_inc]. destruct (it_count d - 1 =? 0) eqn:E; lia.
    + split; [reflexivity|]. split; [reflexivity|]. intros k Hk. unfold tile_start. cbn [it_first_inc it_inc]. destruct (k =? 0); lia.
  - split; [split; [exact Hc|split; assumption]|]. split; [reflexivity|]. split; [reflexivity|]. intros k Hk. replace k with 0 by lia. reflexivity.
Qed.

(** With its own padding, the tiles of the input of a convolution-like kernel start, in the padded tensor, at those of the output times the stride. *)
Theorem prepad_kernel o Do T skew D K S P : 0 <= o -> 1 <= T <= Do -> 0 <= skew < T -> Do + T + T < 2 ^ 31 ->
  1 <= S -> 1 <= K -> 1 <= D -> 0 <= P <= (T - skew) * S -> P <= (T - skew - 1) * S + K -> (Do + 2 * T) * S + K + D < 2 ^ 31 ->
  let out := tile_dim o Do T skew in
  tile_start out (it_count out - 1) * S - P <= D -> 1 < it_count out ->
  forall k, 0 <= k < it_count out -> tile_start (prepad_dim P (kernel_dim out D K S P)) k = tile_start out k * S.
Proof.
  intros Ho HT Hs Hb HS HK HD HP HP2 Hbig out Hlast Hc k Hk. destruct (tile_dim_val o Do T skew HT ltac:(lia) Hb) as (E & Hn1 & Hn & Hnb). fold out in E.
  set (n := ceil_div (Do + skew) T) in *. assert (Ec : it_count out = n) by (rewrite E; reflexivity).
  assert (V := kernel_dim_val o Do T skew D K S P HT Hs Hb HS HK HD HP HP2 Hbig). cbv zeta in V. fold n out in V. rewrite Ec in *. specialize (V Hlast). rewrite V.
  assert (HT2 : 0 <= T * S <= Do * S) by (split; [apply Z.mul_nonneg_nonneg|apply Z.mul_le_mono_nonneg_r]; lia). assert (HT4 : (T - skew) * S <= T * S) by (apply Z.mul_le_mono_nonneg_r; lia).
  unfold prepad_dim. cbn [it_order it_count it_first_inc it_inc it_last_inc it_first_size it_size it_last_size]. destruct (0 <=? o) eqn:E1; [|lia]. destruct (1 <? n) eqn:E2; [|lia]. cbn [andb].
  rewrite (w32_id ((T - skew) * S - P + P)) by lia. rewrite E. unfold tile_start. cbn [it_first_inc it_inc]. destruct (k =? 0); lia.
Qed.

(** * Alignment *)

Lemma ceil_rnd_u_spec x a : 1 <= a -> 0 <= x -> x + a < 2 ^ 32 -> x <= ceil_rnd_u x a < x + a /\ ceil_rnd_u x a mod a = 0.
Proof.
  intros Ha Hx Hb. unfold ceil_rnd_u, ceil_div_u. rewrite (u32_id x) by lia. rewrite (u32_id (x + a - 1)) by lia.
  pose proof (Z.div_mod (x + a - 1) a ltac:(lia)) as E. pose proof (Z.mod_pos_bound (x + a - 1) a ltac:(lia)) as Hm. set (q := (x + a - 1) / a) in *. set (r := (x + a - 1) mod a) in *. clearbody q r.
  rewrite u32_id by lia. split; [lia|]. rewrite Z.mul_comm. apply Z.mod_mul. lia.
Qed.

(** C82: with several tiles, every size becomes the next multiple of the alignment and the starts remain. *)
Theorem align_sizes al d : 0 <= it_order d -> 1 < it_count d -> 1 <= al -> (forall k, 0 <= plain_len d k /\ plain_len d k + al < 2 ^ 32) ->
  let e := align_dim al d in
  it_count e = it_count d /\ forall k, 0 <= k < it_count d ->
    tile_start e k = tile_start d k /\ plain_len e k mod al = 0 /\ plain_len d k <= plain_len e k < plain_len d k + al.
Proof.
  intros Ho Hc Ha Hb e. unfold e, align_dim. destruct (0 <=? it_order d) eqn:E1; [|lia]. destruct (1 <? it_count d) eqn:E2; [|lia]. cbn [andb]. split; [reflexivity|].
  intros k Hk. split; [reflexivity|]. specialize (Hb k). unfold plain_len in *. cbn [it_count it_first_size it_size it_last_size]. destruct (k =? it_count d - 1); [|destruct (k =? 0)];
    match goal with |- context [ceil_rnd_u ?x al] => pose proof (ceil_rnd_u_spec x al Ha ltac:(lia) ltac:(lia)) end; tauto.
Qed.

(** A dimension of one tile is not aligned. *)
Theorem align_single_refuted : exists d, d = tile_dim 0 5 5 0 /\ it_count d = 1 /\ plain_len (align_dim 4 d) 0 = 5.
Proof. exists (tile_dim 0 5 5 0). vm_compute. repeat split. Qed.

(** * Granularity *)

Lemma ceil_div_u_val x den : 1 <= den -> 0 <= x -> x + den <= 2 ^ 32 -> ceil_div_u x den = ceil_div x den.
Proof. intros H1 H2 H3. unfold ceil_div_u, ceil_div. rewrite (u32_id x) by lia. rewrite u32_id by lia. reflexivity. Qed.

Lemma ceil_div_mult q den : 1 <= den -> ceil_div (q * den) den = q.
Proof. intros H. unfold ceil_div. symmetry. apply (Z.div_unique_pos _ _ _ (den - 1)); lia. Qed.

Lemma ceil_div_add x q den : 1 <= den -> ceil_div (x + q * den) den = ceil_div x den + q.
Proof. intros H. unfold ceil_div. replace (x + q * den + den - 1) with (x + den - 1 + q * den) by lia. apply Z.div_add. lia. Qed.

Lemma ceil_div_s_mult q den : 1 <= den -> 0 <= q -> q * den + den <= 2 ^ 31 -> ceil_div_s (q * den) den = q.
Proof. intros H1 H2 H3. unfold ceil_div_s. assert (0 <= q * den) by (apply Z.mul_nonneg_nonneg; lia). rewrite w32_id by lia. rewrite Z.quot_div_nonneg by lia. symmetry. apply (Z.div_unique_pos _ _ _ (den - 1)); lia. Qed.

Lemma ceil_div_bounds x den : 1 <= den -> (ceil_div x den - 1) * den < x <= ceil_div x den * den.
Proof. intros H. unfold ceil_div. pose proof (Z.div_mod (x + den - 1) den ltac:(lia)). pose proof (Z.mod_pos_bound (x + den - 1) den ltac:(lia)). lia. Qed.

Lemma ceil_div_unique x den q : 1 <= den -> (q - 1) * den < x <= q * den -> ceil_div x den = q.
Proof. intros H1 H2. unfold ceil_div. symmetry. apply (Z.div_unique_pos _ _ _ (x + den - 1 - q * den)); lia. Qed.

(** C82: for tiles of whole new units, converting the tiling is tiling the converted tensor: the same number of tiles, starts and sizes; and in
    bytes every tile starts where it did. *)
Theorem gran_tiling o D T skew old new t s : 1 <= T <= D -> 0 <= skew < T -> 1 <= old -> 1 <= new -> T * old = t * new -> skew * old = s * new -> (D + T + T) * old + 2 * new < 2 ^ 31 -> D + T + T < 2 ^ 31 ->
  let d := tile_dim o D T skew in let e := gran_dim o old new d in let f := tile_dim o (gran_shape old new D) t s in
  it_count e = it_count f /\ (forall k, 0 <= k < it_count e -> tile_start e k = tile_start f k /\ plain_len e k = plain_len f k)
  /\ forall k, 0 <= k < it_count e -> tile_start e k * new = tile_start d k * old.
Proof.
  intros HT Hs Hold Hnew Et Es Hb Hb2 d e f.
  assert (Ht1 : 1 <= t) by nia. assert (Hst : 0 <= s < t) by nia.
  assert (HDo : (D + T + T) * old = D * old + 2 * (t * new)) by lia. rewrite HDo in Hb. clear HDo.
  assert (HD0 : T * old <= D * old) by (apply Z.mul_le_mono_nonneg_r; lia).
  assert (Htn : t <= t * new) by nia.
  assert (EG : gran_shape old new D = ceil_div (D * old) new) by (unfold gran_shape; apply ceil_div_u_val; lia).
  pose proof (ceil_div_bounds (D * old) new Hnew) as HB. set (D' := ceil_div (D * old) new) in *.
  assert (HD'0 : t <= D') by nia. assert (HD'1 : D' <= D' * new) by nia. assert (HD'2 : D' * new < D * old + new) by lia.
  assert (Hb3 : D' + t + t < 2 ^ 31) by lia.
  destruct (tile_dim_val o D T skew HT ltac:(lia) Hb2) as (Ed & Hn1 & Hn & Hnb). fold d in Ed.
  destruct (tile_dim_val o D' t s ltac:(lia) ltac:(lia) Hb3) as (Ef & Hm1 & Hm & Hmb). unfold f. rewrite EG, Ef. clear f Ef.
  set (n := ceil_div (D + skew) T) in *. set (n' := ceil_div (D' + s) t) in *.
  assert (En : n' = n).
  { apply ceil_div_unique; [exact Ht1|]. assert (H1 : (n - 1) * T * old < (D + skew) * old) by (apply Zmult_lt_compat_r; lia). assert (H2 : (D + skew) * old <= n * T * old) by (apply Z.mul_le_mono_nonneg_r; lia).
    assert (H3 : (n - 1) * T * old = (n - 1) * t * new) by (rewrite <- Z.mul_assoc, Et; lia). assert (H4 : n * T * old = n * t * new) by (rewrite <- Z.mul_assoc, Et; lia). rewrite H3 in H1. rewrite H4 in H2.
    assert (H5 : (D + skew) * old = D * old + s * new) by lia. rewrite H5 in H1, H2. set (A := (n - 1) * t) in *. set (B := n * t) in *. clearbody A B D'. clear - H1 H2 HB Hnew.
    split; [assert (A * new < (D' + s) * new) by lia; nia|]. assert ((D' + s - 1) * new < B * new) by lia. nia. }
  assert (Hl : (D + skew - 1) mod T = D + skew - 1 - (n - 1) * T) by (symmetry; apply (Z.mod_unique_pos _ _ (n - 1)); lia).
  assert (Hl' : (D' + s - 1) mod t = D' + s - 1 - (n - 1) * t) by (rewrite En in Hm; symmetry; apply (Z.mod_unique_pos _ _ (n - 1)); lia).
  rewrite En, Hl'. rewrite Hl in Ed. unfold e. rewrite Ed. unfold gran_dim. cbn [it_order it_count it_first_inc it_inc it_last_inc it_first_size it_size it_last_size]. rewrite Z.eqb_refl.
  assert (Efi : (T - skew) * old = (t - s) * new) by lia. rewrite Efi, Et.
  assert (Hts : 0 <= (t - s) * new <= t * new) by (split; [apply Z.mul_nonneg_nonneg|apply Z.mul_le_mono_nonneg_r]; lia).
  rewrite (ceil_div_s_mult (t - s)) by lia. rewrite (ceil_div_s_mult t) by lia. rewrite !ceil_div_u_val by lia || idtac.
  rewrite (ceil_div_mult (t - s)), (ceil_div_mult t) by lia.
  assert (Ell : (D + skew - 1 - (n - 1) * T + 1) * old = D * old + (s - (n - 1) * t) * new) by (replace ((s - (n - 1) * t) * new) with (s * new - (n - 1) * (t * new)) by lia; rewrite <- Et, <- Es; lia).
  assert (Hlr : 0 <= (D + skew - 1 - (n - 1) * T + 1) * old <= T * old) by (split; [apply Z.mul_nonneg_nonneg|apply Z.mul_le_mono_nonneg_r]; lia).
  rewrite (ceil_div_u_val ((D + skew - 1 - (n - 1) * T + 1) * old)) by lia. rewrite Ell, ceil_div_add by lia. fold D'.
  split; [reflexivity|]. split.
  - intros k Hk. split; [reflexivity|]. unfold plain_len. cbn [it_count it_first_size it_size it_last_size]. destruct (k =? n - 1); [lia|reflexivity].
  - intros k Hk. unfold tile_start. cbn [it_first_inc it_inc]. destruct (k =? 0); [reflexivity|]. replace ((t - s + (k - 1) * t) * new) with ((t - s) * new + (k - 1) * (t * new)) by lia. rewrite <- Efi, <- Et. lia.
Qed.

(** The rows keep their places in bytes. *)
Theorem gran_strides old new inner q k : 1 <= old -> 1 <= new -> 1 <= inner -> inner * old = q * new -> 0 <= k -> k * inner * old + new < 2 ^ 31 -> inner * old + new < 2 ^ 31 ->
  gran_stride old new inner (k * inner) * new = k * inner * old.
Proof.
  intros H1 H2 H3 E Hk Hb Hb2. unfold gran_stride. rewrite Z.quot_mul by lia. assert (Hio : 0 <= inner * old) by (apply Z.mul_nonneg_nonneg; lia). rewrite ceil_div_u_val by lia. rewrite E, ceil_div_mult by lia.
  assert (E2 : k * inner * old = k * q * new) by (rewrite <- Z.mul_assoc, E; lia). assert (0 <= q) by nia. assert (0 <= k * q) by (apply Z.mul_nonneg_nonneg; lia). assert (k * q <= k * q * new) by nia.
  rewrite w32_id by lia. lia.
Qed.

(** The increment from the last tile to the first is negative and its division truncates upwards once more: a walk over the tiles with
    the increments of Next does not return to the start. *)
Theorem gran_return_refuted : exists d, d = gran_dim 0 1 4 (tile_dim 0 12 4 0) /\ it_count d = 3 /\ tile_start d 2 = 2 /\ it_last_inc d = -1 /\ pos_run [d] 1 3 = ([0], [1]).
Proof. exists (gran_dim 0 1 4 (tile_dim 0 12 4 0)). vm_compute. repeat split. Qed.

(** * Overridden increments *)

(** C82: OverrideIncrements with a new tile size cuts the dimension into tiles of that size and a rest. *)
Theorem override_cuts v D d : 1 <= v < 2 ^ 31 -> 1 <= it_count d -> 0 <= it_order d -> (it_count d - 1) * v <= D < 2 ^ 31 -> v * it_count d < 2 ^ 31 ->
  let e := override_incs v D d in
  inc_ok e /\ it_count e = it_count d /\ cuts D (it_count e) (tile_start e) (plain_len e) /\ (forall k, 0 <= k < it_count e -> tile_start e k = k * v)
  /\ (D <= it_count d * v -> forall k, 0 <= k < it_count e -> plain_len e k <= v).
Proof.
  intros Hv Hc Ho HD Hb e. set (c := it_count d) in *. assert (EL : 1 <? c = true -> v * (2 - c) - v = - ((c - 1) * v)) by lia.
  assert (E : e = mkIdim (it_order d) c v v (- ((c - 1) * v)) v v (D - (c - 1) * v)).
  { unfold e, override_incs. fold c. destruct (v =? -1) eqn:E1; [lia|]. rewrite (u32_id v) by lia. destruct (1 <? c) eqn:E2.
    - assert (0 <= (c - 1) * v) by (apply Z.mul_nonneg_nonneg; lia). rewrite (w32_id (v * (2 - c))) by lia. rewrite (w32_id (v * (2 - c) - v)) by lia. rewrite u32_id by lia. f_equal; lia.
    - assert (c = 1) by lia. replace ((c - 1) * v) with 0 by nia. rewrite Z.add_0_r, u32_id by lia. f_equal; lia. }
  rewrite E. unfold inc_ok, cuts. cbn [it_count it_order it_last_inc].
  assert (TS : forall k, 0 <= k < c -> tile_start (mkIdim (it_order d) c v v (- ((c - 1) * v)) v v (D - (c - 1) * v)) k = k * v).
  { intros k Hk. unfold tile_start. cbn [it_first_inc it_inc]. destruct (k =? 0) eqn:Ek; [replace k with 0 by lia; lia|lia]. }
  assert (PL : forall k, plain_len (mkIdim (it_order d) c v v (- ((c - 1) * v)) v v (D - (c - 1) * v)) k = if k =? c - 1 then D - (c - 1) * v else v).
  { intros k. unfold plain_len. cbn [it_count it_first_size it_size it_last_size]. destruct (k =? c - 1); [reflexivity|]. destruct (k =? 0); reflexivity. }
  split; [|split; [reflexivity|split; [|split; [exact TS|]]]].
  - split; [exact Hc|]. split; [exact Ho|]. rewrite TS by lia. reflexivity.
  - split; [rewrite TS by lia; lia|]. split; [|split].
    + intros k H0 H1. rewrite !TS by lia. rewrite PL. destruct (k =? c - 1) eqn:Ek; lia.
    + rewrite TS by lia. rewrite PL, Z.eqb_refl. lia.
    + intros k Hk. rewrite PL. destruct (k =? c - 1); lia.
  - intros HDc k Hk. rewrite PL. destruct (k =? c - 1); lia.
Qed.

(** The dimension of the tensor is taken by the number of the iteration dimension: with another iteration order the last tile is wrong. *)
Theorem override_order_refuted : exists cfg d, cfg = tile_cfg [4; 10] [4; 5] [1; 0]%nat 0 /\ nth_error (override_cfg [5; -1] [4; 10] cfg) 0 = Some d
  /\ it_order d = 1 /\ it_count d = 2 /\ plain_len d 1 = 2 ^ 32 - 1.
Proof. exists (tile_cfg [4; 10] [4; 5] [1; 0]%nat 0). eexists. split; [reflexivity|]. split; [reflexivity|]. vm_compute. repeat split. Qed.

(** * More iteration dimensions *)

Lemma extend_ok n cfg : forall idx, idx_ok cfg idx -> idx_ok (extend_cfg n cfg) (idx ++ repeat 0 n).
Proof.
  unfold extend_cfg. induction cfg as [|d cfg IH]; intros [|k idx] H; cbn [idx_ok app] in *; try contradiction.
  - clear. induction n as [|n IH]; cbn [repeat idx_ok it_count]; [exact I|]. split; [lia|exact IH].
  - destruct H. split; auto.
Qed.

Lemma extend_count n cfg : total_count (extend_cfg n cfg) = total_count cfg.
Proof.
  unfold extend_cfg. induction cfg as [|d cfg IH]; cbn [app].
  - induction n as [|n IH]; cbn [repeat total_count fold_right]; [reflexivity|]. unfold total_count in IH. rewrite IH. cbn [it_count fold_right]. lia.
  - unfold total_count in *. cbn [fold_right]. now rewrite IH.
Qed.

Lemma extend_no n cfg : forall idx, length idx = length cfg -> tile_no (extend_cfg n cfg) (idx ++ repeat 0 n) = tile_no cfg idx.
Proof.
  unfold extend_cfg. induction cfg as [|d cfg IH]; intros [|k idx] H; cbn [length app tile_no] in *; try discriminate.
  - clear. induction n as [|n IH]; cbn [repeat tile_no it_count]; [reflexivity|]. rewrite IH. reflexivity.
  - rewrite IH by lia. reflexivity.
Qed.

Lemma extend_next n cfg : forall idx, length idx = length cfg -> next_tile (extend_cfg n cfg) (idx ++ repeat 0 n) = next_tile cfg idx ++ repeat 0 n.
Proof.
  unfold extend_cfg. induction cfg as [|d cfg IH]; intros [|k idx] H; cbn [length app next_tile] in *; try discriminate.
  - clear. induction n as [|n IH]; cbn [repeat next_tile it_count]; [reflexivity|]. cbn [Z.eqb Z.sub Z.add Z.opp Pos.eqb]. cbn. now rewrite IH.
  - destruct (k =? it_count d - 1); [rewrite IH by lia|]; reflexivity.
Qed.

(** C82: a configuration put into one of more dimensions goes, with Next, over the same tiles and ends with the same. *)
Theorem extend_same n cfg bufs bufs' bsize bsize' idx offs offs' : idx_ok cfg idx -> length idx = length cfg -> length bufs = length cfg -> length bufs' = (length cfg + n)%nat ->
  let r := iter_next cfg bufs bsize (at_tile cfg idx) offs in let r' := iter_next (extend_cfg n cfg) bufs' bsize' (at_tile (extend_cfg n cfg) (idx ++ repeat 0 n)) offs' in
  fst (fst r) = at_tile cfg (next_tile cfg idx) /\ fst (fst r') = at_tile (extend_cfg n cfg) (next_tile cfg idx ++ repeat 0 n) /\ snd r' = snd r.
Proof.
  intros Hok Hl Hb Hb'. pose proof (iter_next_tile cfg bufs bsize idx offs Hb Hok) as H1.
  assert (Hb2 : length bufs' = length (extend_cfg n cfg)) by (unfold extend_cfg; rewrite app_length, repeat_length; exact Hb').
  pose proof (iter_next_tile (extend_cfg n cfg) bufs' bsize' (idx ++ repeat 0 n) offs' Hb2 (extend_ok n cfg idx Hok)) as H2. cbv zeta.
  destruct (iter_next cfg bufs bsize (at_tile cfg idx) offs) as [[a b] c]. destruct (iter_next (extend_cfg n cfg) bufs' bsize' (at_tile (extend_cfg n cfg) (idx ++ repeat 0 n)) offs') as [[a' b'] c']. cbn [fst snd] in *.
  destruct H1 as (-> & _ & _ & ->). destruct H2 as (-> & _ & _ & ->). rewrite extend_next, extend_no, extend_count by exact Hl. auto.
Qed.

(** But the variants of Next that return increments never report the end. *)
Theorem extend_done_refuted n cfg : (0 < n)%nat -> forall st inc strides,
  snd (iter_next_pos (extend_cfg n cfg) st inc) = false /\ snd (iter_next_inc (extend_cfg n cfg) strides st) = false.
Proof.
  intros Hn. unfold extend_cfg. induction cfg as [|d cfg IH]; intros st inc strides; cbn [app].
  - clear - Hn. destruct n as [|n]; [lia|]. clear Hn. revert st. induction n as [|n IH]; intros [|k st].
    + split; reflexivity.
    + split; reflexivity.
    + split; reflexivity.
    + specialize (IH st). change (repeat (mkIdim (-1) 1 0 0 0 0 0 0) (S (S n))) with (mkIdim (-1) 1 0 0 0 0 0 0 :: repeat (mkIdim (-1) 1 0 0 0 0 0 0) (S n)).
      set (l := repeat (mkIdim (-1) 1 0 0 0 0 0 0) (S n)) in *. clearbody l. destruct IH as (I1 & I2). cbn [iter_next_pos iter_next_inc it_order]. change (-1 <? 0) with true. cbv iota.
      destruct (iter_next_pos l st inc) as [[a b] c]. destruct (iter_next_inc l strides st) as [[a' b'] c']. cbn [snd] in *. destruct l; split; (assumption || reflexivity).
  - destruct st as [|k st]; [split; reflexivity|]. cbn [iter_next_pos iter_next_inc].
    assert (Hne : exists x l, cfg ++ repeat (mkIdim (-1) 1 0 0 0 0 0 0) n = x :: l). { destruct (cfg ++ repeat (mkIdim (-1) 1 0 0 0 0 0 0) n) as [|x l] eqn:E; [|eauto]. apply app_eq_nil in E. destruct E as (_ & E). destruct n; [lia|discriminate]. }
    destruct Hne as (x & l & E). rewrite E in *. destruct (it_order d <? 0).
    + destruct (IH st inc strides) as (I1 & I2). destruct (iter_next_pos (x :: l) st inc) as [[a b] c]. destruct (iter_next_inc (x :: l) strides st) as [[a' b'] c']. split; assumption.
    + destruct (k =? it_count d - 1).
      * destruct (IH st (set_at (Z.to_nat (it_order d)) (it_last_inc d) inc) strides) as (I1 & I2). destruct (iter_next_pos (x :: l) st _) as [[a b] c]. destruct (iter_next_inc (x :: l) strides st) as [[a' b'] c']. split; assumption.
      * destruct (k =? 0); split; reflexivity.
Qed.

(** * Examples *)
Example adj_example_prepad : let d := kernel_dim (tile_dim 0 20 6 0) 20 3 1 1 in map (tile_start d) [0; 1; 2; 3] = [0; 5; 11; 17] /\ map (tile_start (prepad_dim 1 d)) [0; 1; 2; 3] = [0; 6; 12; 18].
Proof. split; reflexivity. Qed.
Example adj_example_align : let d := tile_dim 0 20 6 0 in map (plain_len d) [0; 1; 2; 3] = [6; 6; 6; 2] /\ map (plain_len (align_dim 4 d)) [0; 1; 2; 3] = [8; 8; 8; 4].
Proof. split; reflexivity. Qed.
Example adj_example_gran : let e := gran_dim 3 1 4 (tile_dim 3 22 8 4) in it_count e = 4 /\ map (tile_start e) [0; 1; 2; 3] = [0; 1; 3; 5] /\ map (plain_len e) [0; 1; 2; 3] = [1; 2; 2; 1].
Proof. vm_compute. repeat split. Qed.
Example adj_example_gran_ok : it_count (gran_dim 3 1 4 (tile_dim 3 22 8 4)) = it_count (tile_dim 3 (gran_shape 1 4 22) 2 1).
Proof. apply (gran_tiling 3 22 8 4 1 4 2 1); lia. Qed.
Example adj_example_stride : gran_stride 1 4 8 24 * 4 = 24 * 1.
Proof. apply (gran_strides 1 4 8 2 3); lia. Qed.
Example adj_example_override : let e := override_incs 4 10 (mkIdim 4 3 9 9 (-18) 9 9 9) in map (tile_start e) [0; 1; 2] = [0; 4; 8] /\ map (plain_len e) [0; 1; 2] = [4; 4; 2].
Proof. split; reflexivity. Qed.
