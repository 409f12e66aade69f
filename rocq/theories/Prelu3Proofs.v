(** The MLI 3.0 PReLU operator (C61). *)
From Coq Require Import ZArith QArith List Lia Bool.
From Verif Require Import Base FxMath FxMathProofs Tensor TensorProofs MovProofs PermuteProofs ArgMax QSpec Quant QuantProofs QuantCastProofs DotProdProofs PoolKernels Eltwise EltwiseProofs Relu ReluProofs ConvTheorems.
Import ListNotations.
Open Scope Z_scope.

(** [x * 2^-k] rounded to an integer (k >= 0), or [x * 2^-k] exactly (k < 0), plus an offset, saturated to [n] bits. *)
Definition scaled_exact (rm : rmode) (n v k off : Z) : Z := sat n (scale_rnd rm v k + off).

(** The exact result for the difference [d] of the element and the input bias. *)
Definition prelu3_exact (rm : rmode) (no d off ps pk ns nk : Z) : Z :=
  if 0 <=? d then scaled_exact rm no (d * ps) pk off else scaled_exact rm no (d * ns) nk off.

Lemma scaled_value_exact rm n v k off : 1 <= n <= 32 -> Z.abs v <= 2 ^ 46 -> in_bits 32 off ->
  cast_narrow rm 64 n (add_fx 64 (asr_rnd_fx rm 64 v (Z.max (-63) (Z.min k 63))) off) 0 = scaled_exact rm n v k off.
Proof.
  intros Hn Hv Ho. unfold scaled_exact. rewrite ib32 in Ho. change (2 ^ 46) with 70368744177664 in Hv.
  assert (Bv : in_bits 64 v) by (apply ib64; lia).
  set (kc := Z.max (-63) (Z.min k 63)).
  assert (E : exists r, asr_rnd_fx rm 64 v kc = sat 64 r /\ (r = scale_rnd rm v k \/ (2 ^ 63 <= r /\ 2 ^ 63 <= scale_rnd rm v k) \/ (r <= - 2 ^ 63 /\ scale_rnd rm v k <= - 2 ^ 63))).
  { unfold scale_rnd. destruct (Z.leb_spec 0 k).
    - exists (rnd rm v k). split; [|auto]. rewrite asr_rnd_fx_spec; [|lia|auto|apply small_rnd_safe; [lia|change (2 ^ (64 - 2)) with 4611686018427387904; lia|lia]].
      unfold rshift_spec. destruct (Z.leb_spec 0 kc); [|unfold kc in *; lia].
      assert (R : rnd rm v kc = rnd rm v k).
      { destruct (Z_le_gt_dec k 63); [f_equal; unfold kc; lia|]. replace kc with 63 by (unfold kc; lia).
        pose proof (pow2_le 62 (k - 1) ltac:(lia) ltac:(lia)). change (2 ^ 62) with 4611686018427387904 in *.
        rewrite (rnd_big rm v 63), (rnd_big rm v k); lia. }
      rewrite R. symmetry. apply sat_id. apply ib64. pose proof (rnd_nearest rm v k ltac:(lia)) as N. pose proof (pow2_gt0 k ltac:(lia)).
      set (r := rnd rm v k) in *. assert (- 2 ^ k <= 2 * (v - r * 2 ^ k) <= 2 ^ k) by (destruct rm; unfold nearest, nearest_up, nearest_even in N; lia). nia.
    - exists (v * 2 ^ (- kc)). destruct (asr_rnd_fx_total rm 64 v kc ltac:(lia) Bv) as (_ & _ & T). split; [apply T; unfold kc; lia|].
      destruct (Z_le_gt_dec (-63) k); [left; do 2 f_equal; unfold kc; lia|].
      destruct (Z.eq_dec v 0) as [->|]; [left; reflexivity|]. right. replace kc with (-63) by (unfold kc; lia).
      pose proof (pow2_le 63 (- k) ltac:(lia) ltac:(lia)). change (- (-63)) with 63. pose proof (pow2_gt0 63 ltac:(lia)). set (w := 2 ^ 63) in *. set (u := 2 ^ (- k)) in *. nia. }
  destruct E as (r & -> & D). rewrite (add_fx_spec 64) by (try apply sat_in_bits; try apply ib64; lia).
  rewrite cast_narrow_spec by (try apply sat_in_bits; lia).
  change (asr_rnd_fx rm 64 (sat 64 (sat 64 r + off)) 0) with (sat 64 (sat 64 r + off)).
  set (t := scale_rnd rm v k) in *. clearbody t.
  assert (Sn : - 2147483648 <= smin n <= 0 /\ 0 <= smax n <= 2147483647).
  { unfold smin, smax. pose proof (pow2_le (n - 1) 31 ltac:(lia) ltac:(lia)). pose proof (pow2_gt0 (n - 1) ltac:(lia)). change (2 ^ 31) with 2147483648 in *. lia. }
  change (2 ^ 63) with 9223372036854775808 in D.
  unfold sat, clamp. change (smin 64) with (-9223372036854775808). change (smax 64) with 9223372036854775807. lia.
Qed.

(** The difference from the input bias must fit the 32-bit type in which the kernel computes it. *)
Theorem prelu3_value rm no x bi bo ps pk ns nk : 1 <= no <= 32 -> in_bits 32 x -> in_bits 32 bi -> in_bits 32 (x - bi) -> in_bits no bo -> in_bits 16 ps -> in_bits 16 ns ->
  (if wrap 32 (x - bi) >=? 0 then scale_value rm no x bi bo ps pk else scale_value rm no x bi bo ns nk) = prelu3_exact rm no (x - bi) bo ps pk ns nk.
Proof.
  intros Hn Hx Hb Hd Ho Hp Hns. rewrite wrap_id by (auto; lia). unfold prelu3_exact. rewrite Z.geb_leb. unfold scale_value.
  assert (D : sub_fx 32 x bi = x - bi) by (rewrite sub_fx_spec by (auto; lia); apply sat_id; auto). rewrite D.
  assert (Bo : in_bits 32 bo) by (apply (in_bits_mono no 32); auto; lia).
  rewrite ib32 in Hd. rewrite ib16 in Hp, Hns. destruct (0 <=? x - bi); apply scaled_value_exact; auto; change (2 ^ 46) with 70368744177664; nia.
Qed.

(** Parameters: the six buffers hold an entry for every position on the axis (one entry without an axis). *)
Definition prelu3_params_ok (no : Z) (p : prelu3_params) (cnt : Z) : Prop :=
  (forall k, 0 <= k < cnt -> allocated (p3_bias_in p) k /\ allocated (p3_bias_out p) k /\ allocated (p3_posscale p) k /\ allocated (p3_negscale p) k
     /\ allocated (p3_posshift p) k /\ allocated (p3_negshift p) k)
  /\ mem_bits 32 (p3_bias_in p) /\ mem_bits no (p3_bias_out p) /\ mem_bits 16 (p3_posscale p) /\ mem_bits 16 (p3_negscale p).

(** The index of the parameters of an element. *)
Definition prelu3_index (axis : Z) (c : list Z) : Z := if axis <? 0 then 0 else nth (Z.to_nat axis) c 0.

(** C61. [tout] is any tensor of the input's shape whose elements are distinct cells; no element's difference from its
    bias overflows. *)
Theorem prelu3_correct rm no p axis tin tout mi m :
  1 <= no <= 32 -> axis < Z.of_nat (length (t_shape tin)) ->
  prelu3_params_ok no p (if axis <? 0 then 1 else nth (Z.to_nat axis) (t_shape tin) 0) -> mem_bits 32 mi ->
  (forall c, valid (t_shape tin) c -> allocated mi (t_data tin + addr (t_stride tin) c) /\ allocated m (t_data tout + addr (t_stride tout) c)) ->
  (forall c c', valid (t_shape tin) c -> valid (t_shape tin) c' -> addr (t_stride tout) c = addr (t_stride tout) c' -> c = c') ->
  (forall c, valid (t_shape tin) c -> in_bits 32 (rd mi (t_data tin + addr (t_stride tin) c) - rd (p3_bias_in p) (prelu3_index axis c))) ->
  exists m', prelu3 rm 32 no p axis tin tout mi m = Some m'
    /\ (forall c, valid (t_shape tin) c ->
         let k := prelu3_index axis c in
         m' (t_data tout + addr (t_stride tout) c) = Some (prelu3_exact rm no (rd mi (t_data tin + addr (t_stride tin) c) - rd (p3_bias_in p) k) (rd (p3_bias_out p) k)
           (rd (p3_posscale p) k) (rd (p3_posshift p) k) (rd (p3_negscale p) k) (rd (p3_negshift p) k)))
    /\ (forall a, (forall c, valid (t_shape tin) c -> a <> t_data tout + addr (t_stride tout) c) -> m' a = m a).
Proof.
  intros Hn Hax (PA & P1 & P2 & P3 & P4) Hmi Hal Hinj Hd.
  destruct (foldM_store (fun c => t_data tout + addr (t_stride tout) c)
    (fun c => let k := prelu3_index axis c in
      prelu3_exact rm no (rd mi (t_data tin + addr (t_stride tin) c) - rd (p3_bias_in p) k) (rd (p3_bias_out p) k)
           (rd (p3_posscale p) k) (rd (p3_posshift p) k) (rd (p3_negscale p) k) (rd (p3_negshift p) k))
    (fun c m =>
    let k := if axis <? 0 then 0 else nth (Z.to_nat axis) c 0 in
    do bi <- load (p3_bias_in p) k;
    do bo <- load (p3_bias_out p) k;
    do x <- load mi (t_data tin + addr (t_stride tin) c);
    let pos := wrap 32 (x - bi) >=? 0 in
    do sc <- load (if pos then p3_posscale p else p3_negscale p) k;
    do sh <- load (if pos then p3_posshift p else p3_negshift p) k;
    store m (t_data tout + addr (t_stride tout) c) (scale_value rm no x bi bo sc sh)) (coords (t_shape tin)) m) as (m' & E & V & F).
  - intros c m' Hc. apply in_coords in Hc. fold (prelu3_index axis c). cbv zeta. set (k := prelu3_index axis c) in *.
    assert (Hk : 0 <= k < (if axis <? 0 then 1 else nth (Z.to_nat axis) (t_shape tin) 0)).
    { unfold k, prelu3_index. destruct (Z.ltb_spec axis 0); [lia|]. apply (valid_split (Z.to_nat axis)); [exact Hc|lia]. }
    destruct (PA k Hk) as (A1 & A2 & A3 & A4 & A5 & A6). destruct (Hal c Hc) as [A7 _].
    rewrite (rd_load (p3_bias_in p)), (rd_load (p3_bias_out p)), (rd_load mi) by auto. cbn [bind].
    assert (Bx : in_bits 32 (rd mi (t_data tin + addr (t_stride tin) c))) by (apply rd_bits; auto; lia).
    assert (Bb : in_bits 32 (rd (p3_bias_in p) k)) by (apply rd_bits; auto; lia).
    rewrite <- (prelu3_value rm no _ _ _ _ _ _ _ Hn Bx Bb (Hd c Hc)) by (apply rd_bits; auto; lia).
    destruct (wrap 32 _ >=? 0).
    + rewrite (rd_load (p3_posscale p)), (rd_load (p3_posshift p)) by auto. reflexivity.
    + rewrite (rd_load (p3_negscale p)), (rd_load (p3_negshift p)) by auto. reflexivity.
  - intros c Hc. apply in_coords in Hc. now apply Hal.
  - intros c c' Hc Hc' E. apply in_coords in Hc, Hc'. rewrite (Hinj c c'); auto. lia.
  - exists m'. split; [exact E|]. split.
    + intros c Hc. cbv zeta. apply V. now apply in_coords.
    + intros a Ha. apply F. intros c Hc. apply in_coords in Hc. intros X. apply (Ha c Hc). auto.
Qed.

(** If the difference overflows 32 bits, the sign test sees the wrapped value: 2^31 - 1 with the bias -1 counts as negative. *)
Theorem prelu3_overflow_refuted : exists rm x bi bo ps pk ns nk, in_bits 32 x /\ in_bits 32 bi
  /\ prelu3_exact rm 8 (x - bi) bo ps pk ns nk = 127
  /\ (if wrap 32 (x - bi) >=? 0 then scale_value rm 8 x bi bo ps pk else scale_value rm 8 x bi bo ns nk) = -128.
Proof.
  exists RM_UP, 2147483647, (-1), 0, 1, 0, (-1), 0. split; [apply ib32; lia|]. split; [apply ib32; lia|]. split; vm_compute; reflexivity.
Qed.

(** * Non-vacuity: shape [2; 2], parameters along the last axis *)

Definition p3_ex : prelu3_params := mkPrelu3 (list_mem [10; -20]) (list_mem [1; -1]) (list_mem [3; 5]) (list_mem [-2; 7]) (list_mem [1; 0]) (list_mem [2; 3]).
Definition p3_t : tensor := mkTensor 0 4 1 [2; 2] [2; 1] false (-1) 0.
Definition p3_in : mem := list_mem [110; -40; -90; 1000].
Definition p3_out : mem := list_mem [0; 0; 0; 0].

Example p3_hyps : prelu3_params_ok 8 p3_ex 2 /\ mem_bits 32 p3_in
  /\ (forall c, valid (t_shape p3_t) c -> allocated p3_in (t_data p3_t + addr (t_stride p3_t) c) /\ allocated p3_out (t_data p3_t + addr (t_stride p3_t) c)).
Proof.
  split; [|split].
  - split; [|split; [|split; [|split]]; apply list_bits; reflexivity]. intros k Hk. assert (k = 0 \/ k = 1) as [-> | ->] by lia; repeat split; discriminate.
  - apply list_bits; reflexivity.
  - intros [|x [|y [|]]] V; cbn in V; try tauto. assert (x = 0 \/ x = 1) as [-> | ->] by lia; assert (y = 0 \/ y = 1) as [-> | ->] by lia; split; discriminate.
Qed.

(** (110 - 10) * 3 / 2 + 1 = 151 is saturated; (-40 + 20) * 7 / 8 - 1 = -18.5; (-90 - 10) * -2 / 4 + 1 = 51; 1020 * 5 is saturated. *)
Example p3_run : (do m <- prelu3 RM_UP 32 8 p3_ex 1 p3_t p3_t p3_in p3_out; Some (map (rd m) (zrange 0 4))) = Some [127; -18; 51; 127].
Proof. reflexivity. Qed.
