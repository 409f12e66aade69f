(** The inverse square root of the L2 normalization kernels. *)
From Coq Require Import ZArith QArith List Lia Bool Zdiv.
From Verif Require Import Base FxMath FxMathProofs Tensor TensorProofs ArgMax ArgMaxProofs MovProofs PermuteProofs Quant QuantProofs QSpec QuantCastProofs
  PoolKernels DotProdProofs ConvTheorems Eltwise EltwiseProofs EltwiseSa8Proofs Relu ReluProofs Lut LutProofs Softmax SoftmaxProofs L2.
Import ListNotations.
Open Scope Z_scope.

(** * The table *)

(** [l] holds the same entries and format as [l0], e.g. the result of mli_krn_l2_normalize_create_lut (see [create_lut_correct]). *)
Definition lut_same (l l0 : lut) : Prop :=
  (forall i, 0 <= i < l_len l0 -> l_data l i = l_data l0 i) /\ l_len l = l_len l0 /\ l_fi l = l_fi l0 /\ l_fo l = l_fo l0 /\ l_off l = l_off l0.

Lemma lut_same_tab l l0 i : lut_same l l0 -> 0 <= i < l_len l0 -> tab l i = tab l0 i.
Proof. intros (H & _) Hi. unfold tab, rd. now rewrite H. Qed.

Lemma lut_same_ok l l0 : lut_same l l0 -> lut_ok l0 -> lut_ok l.
Proof. intros (H & Hl & Hfi & Hfo & Ho) (A & B & C & D). unfold lut_ok. rewrite Hl, Hfi, Ho. repeat split; try tauto; try lia. intros i Hi. rewrite H by exact Hi. now apply D. Qed.

Lemma lut_same_smooth l l0 : lut_same l l0 -> lut_smooth l0 -> lut_smooth l.
Proof. intros Hs S i Hi Hi'. assert (L : l_len l = l_len l0) by apply Hs. rewrite L in Hi'. rewrite !(lut_same_tab l l0) by (auto; lia). now apply S. Qed.

Lemma lut_same_interp rm l l0 s x : lut_same l l0 -> 2 <= l_len l0 -> interp rm l s x = interp rm l0 s x.
Proof.
  intros Hs Hl. assert (E : idx_of l s x = idx_of l0 s x) by (unfold idx_of; destruct Hs as (_ & -> & _ & _ & ->); reflexivity).
  unfold interp. rewrite E. rewrite !(lut_same_tab l l0) by (auto; unfold idx_of; lia). reflexivity.
Qed.

(** The value of the table for the mantissa [c]. *)
Definition isqrt (rm : rmode) (c : Z) : Z := interp rm invsqrt_lut 8 c.

Lemma isqrt_elem rm l c : lut_same l invsqrt_lut -> in_bits 16 c -> lut_elem_interp rm LIN_FX (LOUT_FX 16) l 8 c = Some (isqrt rm c).
Proof.
  intros Hs Hc. destruct library_tables_ok as (_ & _ & _ & O & S). pose proof (lut_same_ok _ _ Hs O) as O'. pose proof (lut_same_smooth _ _ Hs S) as S'.
  unfold lut_elem_interp. cbn [lut_in_frac lut_input]. assert (Efi : l_fi l = 0) by (destruct Hs as (_ & _ & -> & _); reflexivity).
  assert (Hc32 : in_bits 32 c) by (apply (in_bits_mono 16 32); auto; lia).
  change (wrap 8 8) with 8. rewrite lut_interp_eq; auto; [|lia]. rewrite Efi. cbn [bind]. change (Z.min (8 - 0) 15) with 8. change (pre_of (8 - 0)) with 0.
  change (2 ^ 0) with 1. rewrite Z.div_1_r, (lut_same_interp rm l invsqrt_lut) by (auto; vm_compute; discriminate).
  fold (isqrt rm c). assert (B : in_bits 16 (isqrt rm c)) by (apply interp_bits; auto; lia).
  rewrite lut_output_fx; [|now right|exact B]. change (16 - 16) with 0. now rewrite rnd_0, sat_id.
Qed.

(** A cubic [L^2 * c], with [L] and [c] linear, is bounded on an interval by its Bernstein coefficients. *)
Lemma bernstein_le n f A B L C H : 0 < n -> 0 <= f <= n -> n * L = A * (n - f) + B * f ->
  A * A * C <= H -> A * A * (C + n) + 2 * (A * B * C) <= 3 * H -> 2 * (A * B * (C + n)) + B * B * C <= 3 * H -> B * B * (C + n) <= H ->
  L * L * (C + f) <= H.
Proof.
  intros Hn Hf HL H0 H1 H2 H3. set (w := n - f) in *. assert (Hw : 0 <= w) by (unfold w; lia).
  assert (P3 : 0 < n * n * n) by (repeat apply Z.mul_pos_pos; lia). apply (Z.mul_le_mono_pos_l _ _ (n * n * n) P3).
  replace (n * n * n * (L * L * (C + f))) with ((n * L) * (n * L) * (C * w + (C + n) * f)) by (unfold w; ring). rewrite HL.
  replace (n * n * n * H) with (w * w * w * H + w * w * f * (3 * H) + w * f * f * (3 * H) + f * f * f * H) by (unfold w; ring).
  replace ((A * w + B * f) * (A * w + B * f) * (C * w + (C + n) * f))
    with (w * w * w * (A * A * C) + w * w * f * (A * A * (C + n) + 2 * (A * B * C)) + w * f * f * (2 * (A * B * (C + n)) + B * B * C) + f * f * f * (B * B * (C + n))) by ring.
  assert (0 <= w * w * w /\ 0 <= w * w * f /\ 0 <= w * f * f /\ 0 <= f * f * f) as (W1 & W2 & W3 & W4) by (repeat split; repeat apply Z.mul_nonneg_nonneg; lia).
  repeat apply Z.add_le_mono; apply Z.mul_le_mono_nonneg_l; assumption.
Qed.

Lemma bernstein_ge n f A B L C H : 0 < n -> 0 <= f <= n -> n * L = A * (n - f) + B * f ->
  H <= A * A * C -> 3 * H <= A * A * (C + n) + 2 * (A * B * C) -> 3 * H <= 2 * (A * B * (C + n)) + B * B * C -> H <= B * B * (C + n) ->
  H <= L * L * (C + f).
Proof.
  intros Hn Hf HL H0 H1 H2 H3. set (w := n - f) in *. assert (Hw : 0 <= w) by (unfold w; lia).
  assert (P3 : 0 < n * n * n) by (repeat apply Z.mul_pos_pos; lia). apply (Z.mul_le_mono_pos_l _ _ (n * n * n) P3).
  replace (n * n * n * (L * L * (C + f))) with ((n * L) * (n * L) * (C * w + (C + n) * f)) by (unfold w; ring). rewrite HL.
  replace (n * n * n * H) with (w * w * w * H + w * w * f * (3 * H) + w * f * f * (3 * H) + f * f * f * H) by (unfold w; ring).
  replace ((A * w + B * f) * (A * w + B * f) * (C * w + (C + n) * f))
    with (w * w * w * (A * A * C) + w * w * f * (A * A * (C + n) + 2 * (A * B * C)) + w * f * f * (2 * (A * B * (C + n)) + B * B * C) + f * f * f * (B * B * (C + n))) by ring.
  assert (0 <= w * w * w /\ 0 <= w * w * f /\ 0 <= w * f * f /\ 0 <= f * f * f) as (W1 & W2 & W3 & W4) by (repeat split; repeat apply Z.mul_nonneg_nonneg; lia).
  repeat apply Z.add_le_mono; apply Z.mul_le_mono_nonneg_l; assumption.
Qed.

(** The coefficients on one half of a segment of the table; [A] and [B] are 256 times the interpolated values at its ends. *)
Definition half_chk (A B C : Z) : bool :=
  let up A B := let H := 4097 * 2 ^ 46 in (A * A * C <=? H) && (A * A * (C + 128) + 2 * (A * B * C) <=? 3 * H)
    && (2 * (A * B * (C + 128)) + B * B * C <=? 3 * H) && (B * B * (C + 128) <=? H) in
  let lo A B := let H := 4095 * 2 ^ 46 in (H <=? A * A * C) && (3 * H <=? A * A * (C + 128) + 2 * (A * B * C))
    && (3 * H <=? 2 * (A * B * (C + 128)) + B * B * C) && (H <=? B * B * (C + 128)) in
  (128 <? A) && (128 <? B) && up (A + 128) (B + 128) && lo (A - 128) (B - 128).

Definition seg_chk (i : Z) : bool :=
  let t := tab invsqrt_lut i in let t' := tab invsqrt_lut (i + 1) in
  (0 <? t') && (t' <=? t) && (t <=? 23170)
  && half_chk (256 * t) (128 * (t + t')) (256 * (i + 32)) && half_chk (128 * (t + t')) (256 * t') (256 * (i + 32) + 128).

Lemma half_ok A B C f L v : half_chk A B C = true -> 0 <= f <= 128 -> 128 * L = A * (128 - f) + B * f -> Z.abs (256 * v - L) <= 128 ->
  4095 * 2 ^ 30 <= v * v * (C + f) <= 4097 * 2 ^ 30 \/ C + f < 0.
Proof.
  intros Hc Hf HL Hv. destruct (Z.lt_ge_cases (C + f) 0) as [Hn|Hn]; [now right|left]. unfold half_chk in Hc. cbv zeta in Hc. rewrite !andb_true_iff, !Z.leb_le, !Z.ltb_lt in Hc.
  destruct Hc as (((HA & HB) & ((U1 & U2) & U3) & U4) & ((L1 & L2) & L3) & L4).
  assert (HL0 : 128 < L).
  { clear -HA HB Hf HL. pose proof (Z.mul_le_mono_nonneg_r 129 A (128 - f) ltac:(lia) ltac:(lia)). pose proof (Z.mul_le_mono_nonneg_r 129 B f ltac:(lia) ltac:(lia)). lia. }
  pose proof (bernstein_le 128 f (A + 128) (B + 128) (L + 128) C _ eq_refl Hf ltac:(clear -HL; lia) U1 U2 U3 U4) as Up.
  pose proof (bernstein_ge 128 f (A - 128) (B - 128) (L - 128) C _ eq_refl Hf ltac:(clear -HL; lia) L1 L2 L3 L4) as Lo.
  clear U1 U2 U3 U4 L1 L2 L3 L4 HL. set (c := C + f) in *. clearbody c.
  assert (S1 : (256 * v) * (256 * v) * c <= (L + 128) * (L + 128) * c) by (apply Z.mul_le_mono_nonneg_r; [lia|apply Z.mul_le_mono_nonneg; lia]).
  assert (S2 : (L - 128) * (L - 128) * c <= (256 * v) * (256 * v) * c) by (apply Z.mul_le_mono_nonneg_r; [lia|apply Z.mul_le_mono_nonneg; lia]).
  replace (256 * v * (256 * v) * c) with (2 ^ 16 * (v * v * c)) in S1, S2 by ring. set (X := v * v * c) in *. clearbody X. lia.
Qed.

Lemma segs_all : forallb seg_chk (zrange 0 96) = true.
Proof. vm_compute. reflexivity. Qed.

Lemma isqrt_spec rm c : 8192 <= c <= 32767 -> let v := isqrt rm c in 0 < v <= 23170 /\ 4095 * 2 ^ 30 <= v * v * c <= 4097 * 2 ^ 30.
Proof.
  intros Hc v. pose proof (Z.div_mod c 256 ltac:(lia)) as Ec. pose proof (Z.mod_pos_bound c 256 ltac:(lia)) as Hf.
  assert (Ei : idx_of invsqrt_lut 8 c = c / 256 - 32).
  { unfold idx_of. change (2 ^ 8) with 256. change (l_off invsqrt_lut) with (-32). change (l_len invsqrt_lut - 2) with 95. lia. }
  assert (Hi : 0 <= c / 256 - 32 < 96) by lia.
  pose proof segs_all as A. rewrite forallb_forall in A. specialize (A (c / 256 - 32) ltac:(apply in_zrange; lia)).
  destruct library_tables_ok as (_ & _ & _ & O & _). pose proof (interp_between rm invsqrt_lut 8 c O ltac:(lia)) as Bt. cbv zeta in Bt.
  change (interp rm invsqrt_lut 8 c) with v in Bt. rewrite Ei in Bt.
  assert (Ev : exists r, v = tab invsqrt_lut (c / 256 - 32) - r /\ 2 * Z.abs (r * 256 - (tab invsqrt_lut (c / 256 - 32) - tab invsqrt_lut (c / 256 - 32 + 1)) * (c mod 256)) <= 256).
  { eexists. split; [unfold v, isqrt, interp; rewrite Ei; reflexivity|]. change (2 ^ 8) with 256. exact (rnd_err rm _ 8 ltac:(lia)). }
  destruct Ev as (r & Ev & Er). unfold seg_chk in A. cbv zeta in A.
  set (t := tab invsqrt_lut (c / 256 - 32)) in *. set (t' := tab invsqrt_lut (c / 256 - 32 + 1)) in *. clearbody t t'.
  set (j := c / 256) in *. set (f := c mod 256) in *. clearbody v. clearbody j f. replace (256 * (j - 32 + 32)) with (256 * j) in A by ring.
  rewrite !andb_true_iff, Z.ltb_lt, !Z.leb_le in A. destruct A as ((((T0 & T1) & T2) & H1) & H2). split; [lia|].
  destruct (Z.le_gt_cases f 128) as [F|F].
  - destruct (half_ok _ _ _ f (256 * t - (t - t') * f) v H1 ltac:(lia) ltac:(ring) ltac:(lia)) as [G|G]; [|lia]. replace c with (256 * j + f) by lia. exact G.
  - destruct (half_ok _ _ _ (f - 128) (256 * t - (t - t') * f) v H2 ltac:(lia) ltac:(ring) ltac:(lia)) as [G|G]; [|lia]. replace c with (256 * j + 128 + (f - 128)) by lia. exact G.
Qed.

(** * The factor of a slice *)

(** [h] is half of the normalization shift plus 7. *)
Lemma l2_factor rm S : 1 <= S < 2 ^ 61 ->
  let c := fst (l2_normalize_sum rm S) in let k := snd (l2_normalize_sum rm S) in let v := isqrt rm c in
  in_bits 16 c /\ 0 < v <= 23170
  /\ exists h, 0 <= h /\ k = 2 * h - 14 /\ 2 ^ (2 * h) <= 2 * S
     /\ (2 ^ 12 - 1) ^ 2 * 2 ^ (28 + 2 * h) <= v * v * S * 2 ^ 24 <= (2 ^ 12 + 1) ^ 2 * 2 ^ (28 + 2 * h).
Proof.
  intros HS c k v. assert (HS64 : in_bits 64 S) by (rewrite ib64; lia).
  destruct (norm_fx_pos 64 S ltac:(lia) HS64 ltac:(lia)) as [N1 N2]. pose proof (norm_fx_range 64 S ltac:(lia) HS64) as [N0 _].
  set (e := norm_fx 64 S) in *. change (64 - 2) with 62 in *. change (64 - 1) with 63 in *.
  assert (Hk : exists h, 0 <= h /\ k = 2 * h - 14 /\ (48 - e = k \/ 48 - e = k - 1)).
  { unfold k, l2_normalize_sum. fold e. cbv zeta. cbn [snd]. change ((8 - 2) * 8) with 48. destruct (Z.odd (48 - e)) eqn:O.
    - apply Z.odd_spec in O. destruct O as (j & Ej). exists (j + 8). lia.
    - pose proof (Z.negb_odd (48 - e)) as O'. rewrite O in O'. symmetry in O'. apply Z.even_spec in O'. destruct O' as (j & Ej). exists (j + 7). lia. }
  destruct Hk as (h & Hh & Ek & Hke).
  (* 2^13 <= S / 2^k < 2^15, scaled by 2^(2h) *)
  set (M := S * 2 ^ 14). set (K := 2 ^ (2 * h)). assert (K0 : 0 < K) by (apply pow2_gt0; lia).
  assert (R : 2 ^ 13 * K <= M < 2 ^ 15 * K).
  { assert (P : 2 ^ e * K = 2 ^ 62 \/ 2 ^ e * K = 2 ^ 63) by (unfold K; rewrite <- Z.pow_add_r by lia; destruct Hke; [left|right]; f_equal; lia).
    pose proof (pow2_gt0 e N0) as E0. unfold M. change (2 ^ 62) with (2 ^ 14 * 2 ^ 48) in *. change (2 ^ 63) with (2 ^ 15 * 2 ^ 48) in *.
    set (E := 2 ^ e) in *. set (T := 2 ^ 48) in *. assert (T0 : 0 < T) by (unfold T; apply pow2_gt0; lia).
    change (2 ^ 13) with 8192. change (2 ^ 14) with 16384 in *. change (2 ^ 15) with 32768 in *. clearbody E T K. split.
    - apply (Z.mul_le_mono_pos_r _ _ E); [lia|]. replace (S * 16384 * E) with (16384 * (S * E)) by ring. replace (8192 * K * E) with (8192 * (E * K)) by ring. lia.
    - apply (Z.mul_lt_mono_pos_r E); [lia|]. replace (S * 16384 * E) with (16384 * (S * E)) by ring. replace (32768 * K * E) with (32768 * (E * K)) by ring. lia. }
  assert (Ec : c = sat 16 (scale_rnd rm S k)).
  { unfold c, l2_normalize_sum. cbv zeta. cbn [fst]. change (cast_narrow rm 64 16 S k = sat 16 (scale_rnd rm S k)). unfold scale_rnd.
    apply cast_narrow_exact; auto; [lia|lia|right; lia]. }
  set (w := scale_rnd rm S k) in *.
  assert (W : 2 * Z.abs (w * K - M) <= K).
  { unfold w, scale_rnd, M, K. destruct (Z.leb_spec 0 k).
    - pose proof (rnd_err rm S k ltac:(lia)) as Re. replace (2 ^ (2 * h)) with (2 ^ k * 2 ^ 14) by (rewrite <- Z.pow_add_r by lia; f_equal; lia).
      set (r := rnd rm S k) in *. replace (r * (2 ^ k * 2 ^ 14) - S * 2 ^ 14) with ((r * 2 ^ k - S) * 2 ^ 14) by ring. rewrite Z.abs_mul, (Z.abs_eq (2 ^ 14)) by lia. lia.
    - replace (S * 2 ^ (- k) * 2 ^ (2 * h)) with (S * 2 ^ 14) by (rewrite <- Z.mul_assoc, <- Z.pow_add_r by lia; do 2 f_equal; lia).
      rewrite Z.sub_diag. cbn [Z.abs]. pose proof (pow2_gt0 (2 * h) ltac:(lia)). lia. }
  change (2 ^ 13) with 8192 in R. change (2 ^ 15) with 32768 in R.
  assert (Wr : 8192 <= w <= 32768).
  { clearbody w K M. split; apply Z.nlt_ge; intros Hn; nia. }
  assert (C : 8192 <= c <= 32767 /\ Z.abs (c * K - M) * 2 ^ 14 <= M).
  { rewrite Ec. unfold sat, clamp, smin, smax. change (2 ^ (16 - 1)) with 32768. change (2 ^ 14) with 16384.
    destruct (Z.eq_dec w 32768) as [Ew|Ew].
    - rewrite Ew in *. split; [lia|]. cbn [Z.max Z.min Z.opp Z.compare Pos.compare]. replace (Z.max (-32768) (Z.min 32768 (32768 - 1))) with 32767 by lia. clearbody K M. lia.
    - replace (Z.max (- (32768)) (Z.min w (32768 - 1))) with w by lia. split; [lia|]. clearbody w K M. lia. }
  destruct C as [Cr Ce]. destruct (isqrt_spec rm c Cr) as [V1 V2]. fold v in V1, V2.
  split; [rewrite ib16; lia|]. split; [exact V1|]. exists h. split; [exact Hh|]. split; [exact Ek|].
  fold K. split. { unfold M in R. change (2 ^ 14) with 16384 in R. clearbody K. lia. }
  rewrite Z.pow_add_r by lia. fold K.
  set (A := v * v) in *. assert (A0 : 0 <= A) by (unfold A; nia).
  assert (Q : A * (c * K) * (2 ^ 14) - A * M <= A * M * 2 ^ 14 <= A * (c * K) * (2 ^ 14) + A * M).
  { assert (Z1 : c * K * 2 ^ 14 - M <= M * 2 ^ 14 <= c * K * 2 ^ 14 + M) by lia. clearbody A M K. split; nia. }
  assert (U : 4095 * 2 ^ 30 * K <= A * (c * K) <= 4097 * 2 ^ 30 * K) by (rewrite Z.mul_assoc; clearbody A K; split; apply Z.mul_le_mono_nonneg_r; lia).
  assert (EM : forall x y, x * y * 2 ^ 24 = x * (y * 2 ^ 14) * 2 ^ 10) by (clear; intros; ring). rewrite EM. fold M.
  set (AM := A * M) in *. set (AC := A * (c * K)) in *. clearbody AM AC K. clear - Q U K0. lia.
Qed.
