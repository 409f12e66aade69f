(** Requantization of SA8 accumulators to the output (property C06). *)
From Coq Require Import ZArith QArith Qabs Qpower List Lia Lqa Bool.
From Verif Require Import Base FxMath FxMathProofs QSpec Quant QuantProofs.
Import ListNotations.
Open Scope Z_scope.

(** [x] limited to [lo, hi]. *)
Definition qclamp (lo hi x : Q) : Q := if Qle_bool x lo then lo else if Qle_bool hi x then hi else x.

(** The real factor from accumulator units to output units. *)
Definition out_factor (i o : qpar) (wscale wfrac : Z) : Q :=
  (real_scale (q_scale i) (q_frac i) * real_scale wscale wfrac / real_scale (q_scale o) (q_frac o))%Q.

(** * The factor *)

(** The ratio of the input and output scales is represented with a relative error of at most 2^-14. *)
Lemma s8_ratio_spec rm i o wdim wzp wsc wfr : qpar_ok i -> qpar_ok o ->
  let p := define_s8_params rm i o wdim wzp wsc wfr in
  let ratio := (real_scale (q_scale i) (q_frac i) / real_scale (q_scale o) (q_frac o))%Q in
  2 ^ 14 <= s8_ratio p <= 32767 /\ within (ratio * (1 # 16384)) (fxval (s8_in_to_out_shift p) (s8_ratio p)) ratio.
Proof.
  intros (Hi & Fi & _) (Ho & Fo & _) p ratio.
  assert (Bi : in_bits 32 (q_scale i)) by (apply ib32; lia).
  destruct (norm_fx_pos 32 _ ltac:(lia) Bi ltac:(lia)) as [A1 A2].
  pose proof (norm_fx_range 32 _ ltac:(lia) Bi) as A3.
  set (a := norm_fx 32 (q_scale i)) in *. change (32 - 2) with 30 in *. change (32 - 1) with 31 in *.
  assert (En : cast_same rm 32 (q_scale i) (0 - a) = q_scale i * 2 ^ a).
  { rewrite cast_same_spec by (auto; lia).
    assert (B : in_bits 32 (q_scale i * 2 ^ a)).
    { apply ib32. change (2^30) with 1073741824 in *. change (2^31) with 2147483648 in *. lia. }
    destruct (Z.eq_dec a 0) as [->|]; [rewrite Z.pow_0_r, Z.mul_1_r; reflexivity|].
    unfold asr_rnd_fx. destruct (Z.ltb_spec (0 - a) 0); [|lia].
    rewrite asl_fx_pos by (auto; lia). replace (- (0 - a)) with a by lia. now apply sat_id. }
  set (u := Z.quot (q_scale i * 2 ^ a) (q_scale o)).
  assert (Ep : s8_ratio p = cast_narrow rm 32 16 u (16 - norm_fx 32 u)
               /\ s8_in_to_out_shift p = q_frac i + (a - q_frac o) - (16 - norm_fx 32 u)).
  { unfold p, define_s8_params, norm_cast_fx. change (32 <? 32) with false. change (32 - 32) with 0. fold a.
    rewrite En. fold u. cbn [s8_ratio s8_in_to_out_shift]. split; [reflexivity|lia]. }
  destruct Ep as [E1 E2].
  assert (Q : u = q_scale i * 2 ^ a / q_scale o) by (unfold u; apply Z.quot_div_nonneg; lia).
  pose proof (Z.div_mod (q_scale i * 2 ^ a) (q_scale o) ltac:(lia)) as D.
  pose proof (Z.mod_pos_bound (q_scale i * 2 ^ a) (q_scale o) ltac:(lia)) as M. rewrite <- Q in D.
  set (N := q_scale i * 2 ^ a) in *. change (2^30) with 1073741824 in *. change (2^31) with 2147483648 in *.
  assert (D1 : u * q_scale o <= N < (u + 1) * q_scale o) by lia.
  assert (R : 32768 <= u < 2147483648) by (clear - D1 A1 Ho; nia).
  assert (Bu : in_bits 32 u) by (apply ib32; lia).
  destruct (norm_to_16 rm u ltac:(lia) Bu) as (F1 & F2 & F3 & _). rewrite <- E1 in F2, F3.
  assert (K : norm_fx 32 u <= 15).
  { destruct (norm_fx_pos 32 u ltac:(lia) Bu ltac:(lia)) as [C1 C2]. change (32 - 1) with 31 in *.
    destruct (Z_le_gt_dec (norm_fx 32 u) 15); [lia|]. exfalso.
    assert (2 ^ 16 <= 2 ^ norm_fx 32 u) by (apply pow2_le; lia).
    change (2^16) with 65536 in *. change (2^31) with 2147483648 in *. nia. }
  set (s := 16 - norm_fx 32 u) in *. specialize (F3 ltac:(lia)). split; [exact F2|].
  set (sc := s8_ratio p) in *. set (so := q_scale o) in *.
  assert (I : Z.abs (sc * 2 ^ s * so - N) * 16384 <= N).
  { change (2 ^ 15) with 32768 in *. apply (ratio_int (sc * 2 ^ s) so N u); lia. }
  apply within_ratio in I; [|lia|lia].
  apply (within_scale _ _ _ (pow2q (q_frac o - q_frac i - a))) in I; [|apply Qlt_le_weak, pow2q_pos].
  assert (HD' : (0 < inject_Z so)%Q) by (change 0%Q with (inject_Z 0); apply inj_lt; lia).
  assert (RR : (inject_Z N / inject_Z so * pow2q (q_frac o - q_frac i - a) == ratio)%Q).
  { unfold ratio, real_scale, fxval, N. fold so. rewrite inject_Z_mult, <- pow2q_nonneg by lia.
    replace (q_frac o - q_frac i - a) with (q_frac o + - q_frac i + - a) by lia. rewrite !pow2q_plus.
    rewrite (pow2q_inv (q_frac o)), (pow2q_inv a).
    pose proof (pow2q_pos (q_frac o)). pose proof (pow2q_pos a). field. repeat split; lra. }
  revert I. apply within_compat.
  - setoid_replace (inject_Z N / inject_Z so / inject_Z 16384 * pow2q (q_frac o - q_frac i - a))%Q
      with (inject_Z N / inject_Z so * pow2q (q_frac o - q_frac i - a) * (1 # 16384))%Q
      by (change (1 # 16384) with (/ inject_Z 16384)%Q; field; lra).
    rewrite RR. reflexivity.
  - unfold fxval. rewrite E2. rewrite inject_Z_mult, <- pow2q_nonneg, <- Qmult_assoc, <- pow2q_plus by lia.
    replace (s + (q_frac o - q_frac i - a)) with (- (q_frac i + (a - q_frac o) - s)) by lia. reflexivity.
  - exact RR.
Qed.

Lemma real_scale_pos s f : 0 < s -> (0 < real_scale s f)%Q.
Proof.
  intros. unfold real_scale, fxval. apply Qmult_lt_0_compat; [|apply pow2q_pos].
  change 0%Q with (inject_Z 0). now apply inj_lt.
Qed.

Lemma fxval_mul a x b y : (fxval (a + b) (x * y) == fxval a x * fxval b y)%Q.
Proof.
  unfold fxval. rewrite inject_Z_mult. replace (- (a + b)) with (- a + - b) by lia. rewrite pow2q_plus. ring.
Qed.

(** Index of the weight scale used for output channel [k]. *)
Definition wsel (wdim k : Z) : Z := if wdim <? 0 then 0 else k.

(** Full accumulator: the multiplier and shift of the output. *)
Lemma adjust_full_spec rm i o wdim wzp wsc wfr k : qpar_ok i -> qpar_ok o -> 0 < wsc (wsel wdim k) <= 32767 ->
  let p := adjust_s8 true (define_s8_params rm i o wdim wzp wsc wfr) k in
  let F := out_factor i o (wsc (wsel wdim k)) (wfr (wsel wdim k)) in
  0 < s8_out_mul p < 2 ^ 30 /\ s8_out_off p = q_zp o
  /\ within (F * (1 # 16384)) (fxval (s8_out_shift p) (s8_out_mul p)) F.
Proof.
  intros Hi Ho Hw p F. destruct (s8_ratio_spec rm i o wdim wzp wsc wfr Hi Ho) as [R1 R2].
  set (p0 := define_s8_params rm i o wdim wzp wsc wfr) in *.
  assert (P0 : s8_w_dim p0 = wdim /\ s8_w_scales p0 = wsc /\ s8_w_shifts p0 = wfr /\ s8_out_off p0 = q_zp o).
  { unfold p0, define_s8_params. destruct (norm_cast_fx rm 32 32 (q_scale i)). auto. }
  destruct P0 as (P1 & P2 & P3 & P4).
  change (2 ^ 14) with 16384 in *. change (2 ^ 30) with 1073741824.
  set (sr := s8_ratio p0) in *. set (w := wsc (wsel wdim k)) in *.
  assert (E : s8_out_mul p = sr * w /\ s8_out_shift p = s8_in_to_out_shift p0 + wfr (wsel wdim k) /\ s8_out_off p = q_zp o).
  { unfold p, adjust_s8. rewrite P1, P2, P3. cbn [s8_out_mul s8_out_shift s8_out_off]. fold (wsel wdim k). fold w. fold sr.
    split; [|split; auto]. apply wrap_id; [lia|]. apply ib32. nia. }
  destruct E as (E1 & E2 & E3). rewrite E1, E2, E3. split; [nia|]. split; [reflexivity|].
  apply (within_scale _ _ _ (real_scale w (wfr (wsel wdim k)))) in R2; [|apply Qlt_le_weak, real_scale_pos; lia].
  pose proof (real_scale_pos (q_scale o) (q_frac o) ltac:(destruct Ho; lia)).
  revert R2. apply within_compat; unfold F, out_factor; fold w.
  - field. lra.
  - rewrite fxval_mul. reflexivity.
  - field. lra.
Qed.

(** * Rounding and clamping *)

Lemma qclamp_cases lo hi x : (lo < hi)%Q ->
  ((x <= lo)%Q /\ qclamp lo hi x = lo) \/ ((hi <= x)%Q /\ qclamp lo hi x = hi) \/ ((lo < x < hi)%Q /\ qclamp lo hi x = x).
Proof.
  intros H. unfold qclamp. destruct (Qle_bool x lo) eqn:E1.
  { left. apply Qle_bool_iff in E1. auto. }
  destruct (Qle_bool hi x) eqn:E2.
  { right; left. apply Qle_bool_iff in E2. auto. }
  right; right. split; [|reflexivity]. split; apply Qnot_le_lt; intros G; apply Qle_bool_iff in G; congruence.
Qed.

(** If an integer [r] is close to [x], or both are beyond 256, and [x] is close to [I] relative to [I], clamping to
    8 bits after adding the zero point gives nearly the same result for [r] and [I]. *)
Lemma clamp_err (e x I : Q) (r zp : Z) : in_bits 8 zp -> (1 # 2 <= e)%Q -> (e <= 3 # 4)%Q ->
  within (Qabs I * (13 # 131072)) x I ->
  (within e x (inject_Z r) \/ (256 <= r /\ (255 + (3 # 4) <= x)%Q) \/ (r <= - 256 /\ (x <= - (255 + (3 # 4)))%Q)) ->
  within (e + (1 # 32)) (inject_Z (sat 8 (r + zp))) (qclamp (- (128)) 127 (I + inject_Z zp)).
Proof.
  intros Hz He1 He2 Hx Hr. apply (proj1 (ib8 _)) in Hz.
  assert (Z1 : (- (128) <= inject_Z zp <= 127)%Q).
  { change (- (128))%Q with (inject_Z (-128)). change 127%Q with (inject_Z 127). rewrite !inj_le. lia. }
  assert (S : sat 8 (r + zp) = Z.max (-128) (Z.min 127 (r + zp))) by reflexivity. 
  unfold within in *. apply Qabs_Qle_condition in Hx. apply Qabs_Qle_condition.
  assert (IX : ((x <= 256 + 1 -> I <= 259) /\ (-(257) <= x -> -(259) <= I) /\ (255 + (3 # 4) <= x -> 255 + (1#2) <= I)
    /\ (x <= -(255 + (3 # 4)) -> I <= -(255 + (1#2))) /\ (257 <= x -> 255 <= I) /\ (x <= -(257) -> I <= -(255)))%Q).
  { destruct (Qlt_le_dec I 0) as [G|G].
    - rewrite (Qabs_neg I) in Hx by lra. repeat split; intros; lra.
    - rewrite (Qabs_pos I) in Hx by lra. repeat split; intros; lra. }
  destruct IX as (I1 & I2 & I3 & I4 & I5 & I6).
  assert (RZ : (inject_Z (r + zp) == inject_Z r + inject_Z zp)%Q) by (rewrite inject_Z_plus; reflexivity).
  destruct (qclamp_cases (- (128)) 127 (I + inject_Z zp) ltac:(reflexivity)) as [[C1 C2]|[[C1 C2]|[C1 C2]]]; rewrite C2; clear C2.
  all: assert (S' : (sat 8 (r + zp) = -128 /\ r + zp <= -128) \/ (sat 8 (r + zp) = 127 /\ 127 <= r + zp) \/
     (sat 8 (r + zp) = r + zp /\ -128 <= r + zp <= 127)) by lia.
  all: destruct S' as [[-> S1]|[[-> S1]|[-> S1]]].
  all: change (inject_Z (-128)) with (- (128))%Q; change (inject_Z 127) with (127)%Q.
  all: try (assert (T1 : (inject_Z (r + zp) <= - (128))%Q) by (change (- (128))%Q with (inject_Z (-128)); apply inj_le; lia)).
  all: try (assert (T2 : (127 <= inject_Z (r + zp))%Q) by (change (127)%Q with (inject_Z 127); apply inj_le; lia)).
  all: try (assert (T3 : (- (128) <= inject_Z (r + zp) <= 127)%Q) by (change (- (128))%Q with (inject_Z (-128)); change (127)%Q with (inject_Z 127); rewrite !inj_le; lia)).
  all: rewrite ?RZ in *.
  all: destruct Hr as [Hr|[[Hr1 Hr2]|[Hr1 Hr2]]]; [apply Qabs_Qle_condition in Hr| |].
  all: try (assert (256 <= inject_Z r)%Q by (change (256)%Q with (inject_Z 256); apply inj_le; lia)).
  all: try (assert (inject_Z r <= -(256))%Q by (change (-(256))%Q with (inject_Z (-256)); apply inj_le; lia)).
  all: try (split; lra).
  all: destruct (Qlt_le_dec I 0) as [G|G];
    [rewrite (Qabs_neg I) in Hx by lra|rewrite (Qabs_pos I) in Hx by lra]; split; lra.
Qed.

Lemma rnd_big rm x k : 1 <= k -> Z.abs x < 2 ^ (k - 1) -> rnd rm x k = 0.
Proof.
  intros Hk Hx. pose proof (rnd_nearest rm x k ltac:(lia)) as N. pose proof (pow2_succ k ltac:(lia)) as P.
  assert (B : - 2 ^ k <= 2 * (x - rnd rm x k * 2 ^ k) <= 2 ^ k).
  { destruct rm; unfold nearest, nearest_up, nearest_even in N; lia. }
  set (r := rnd rm x k) in *. set (q := 2 ^ (k - 1)) in *. rewrite P in B. nia.
Qed.

(** [x * 2^-k] rounded to an integer, for any [k]. *)
Definition scale_rnd (rm : rmode) (x k : Z) : Z := if 0 <=? k then rnd rm x k else x * 2 ^ (- k).

Lemma scale_rnd_within rm x k : within (1 # 2) (fxval k x) (inject_Z (scale_rnd rm x k)).
Proof.
  unfold scale_rnd. destruct (Z.leb_spec 0 k).
  - apply (nearest_within rm); auto. now apply rnd_nearest.
  - unfold within. rewrite fxval_neg by lia.
    setoid_replace (inject_Z (x * 2 ^ (- k)) - inject_Z (x * 2 ^ (- k)))%Q with 0%Q by ring. discriminate.
Qed.

Lemma final_cast rm x sh zp : Z.abs x <= 2 ^ 61 -> in_bits 8 zp ->
  cast_narrow rm 16 8 (add_fx 16 (cast_narrow rm 64 16 x (Z.min sh 63)) zp) 0 = sat 8 (scale_rnd rm x sh + zp).
Proof.
  intros Hx Hz. pose proof (proj1 (ib8 _) Hz) as Hz'.
  assert (Bx : in_bits 64 x) by (apply ib64; change (2 ^ 61) with 2305843009213693952 in Hx; lia).
  assert (E : cast_narrow rm 64 16 x (Z.min sh 63) = sat 16 (scale_rnd rm x sh)).
  { rewrite cast_narrow_exact; auto; try lia.
    2: { left. apply small_rnd_safe; lia. }
    f_equal. unfold scale_rnd. destruct (Z_le_gt_dec sh 63).
    { rewrite Z.min_l by lia. reflexivity. }
    rewrite Z.min_r by lia. destruct (Z.leb_spec 0 sh); [|lia]. change (0 <=? 63) with true. cbv iota.
    rewrite !rnd_big; auto; try lia.
    assert (2 ^ 63 <= 2 ^ (sh - 1)) by (apply pow2_le; lia). change (2 ^ 61) with 2305843009213693952 in Hx. change (2 ^ 63) with 9223372036854775808 in *. lia.
    }
  rewrite E. set (r := scale_rnd rm x sh).
  assert (B16 : in_bits 16 (sat 16 r)) by (apply sat_in_bits; lia).
  rewrite add_fx_spec; auto; [|lia|apply ib16; lia].
  rewrite cast_narrow_spec; [|lia|lia|apply sat_in_bits; lia].
  change (asr_rnd_fx rm 16 (sat 16 (sat 16 r + zp)) 0) with (sat 16 (sat 16 r + zp)).
  unfold sat, clamp. change (smin 16) with (-32768). change (smax 16) with 32767. change (smin 8) with (-128). change (smax 8) with 127.
  lia.
Qed.

Lemma out_factor_pos i o ws wf : qpar_ok i -> qpar_ok o -> 0 < ws -> (0 < out_factor i o ws wf)%Q.
Proof.
  intros (Hi & _) (Ho & _) Hw. unfold out_factor, Qdiv.
  apply Qmult_lt_0_compat; [apply Qmult_lt_0_compat; apply real_scale_pos; lia|].
  apply Qinv_lt_0_compat, real_scale_pos. lia.
Qed.

Lemma within_weaken e e' a b : (e <= e' -> within e a b -> within e' a b)%Q.
Proof. unfold within. intros. lra. Qed.

Lemma within_mul_l e a b (t : Z) : within e a b -> within (Qabs (inject_Z t) * e) (inject_Z t * a) (inject_Z t * b).
Proof.
  unfold within. intros H. setoid_replace (inject_Z t * a - inject_Z t * b)%Q with (inject_Z t * (a - b))%Q by ring.
  rewrite Qabs_Qmult. rewrite !(Qmult_comm (Qabs (inject_Z t))). apply Qmult_le_compat_r; [auto|apply Qabs_nonneg].
Qed.

Lemma factor_err acc M F e e' : (0 <= F)%Q -> (e <= e')%Q -> within (F * e) M F ->
  within (Qabs (inject_Z acc * F) * e') (inject_Z acc * M) (inject_Z acc * F).
Proof.
  intros HF He H. apply (within_mul_l _ _ _ acc) in H. revert H. apply within_weaken.
  rewrite Qabs_Qmult, (Qabs_pos F) by auto. pose proof (Qabs_nonneg (inject_Z acc)).
  rewrite <- Qmult_assoc. rewrite (Qmult_comm (Qabs (inject_Z acc)) (F * e)), (Qmult_comm (Qabs (inject_Z acc)) (F * e')).
  apply Qmult_le_compat_r; auto. rewrite !(Qmult_comm F). apply Qmult_le_compat_r; auto.
Qed.

(** * C06, full accumulator *)

(** The SA8 output is the accumulator times the real factor plus the zero point, clamped to 8 bits, with an error
    below 17/32. *)
Theorem result_cast_s8_full rm i o wdim wzp wsc wfr k acc : qpar_ok i -> qpar_ok o ->
  0 < wsc (wsel wdim k) <= 32767 -> in_bits 32 acc ->
  let p := adjust_s8 true (define_s8_params rm i o wdim wzp wsc wfr) k in
  let F := out_factor i o (wsc (wsel wdim k)) (wfr (wsel wdim k)) in
  within ((1 # 2) + (1 # 32)) (inject_Z (result_cast_s8 rm true acc p))
    (qclamp (- (128)) 127 (inject_Z acc * F + inject_Z (q_zp o))).
Proof.
  intros Hi Ho Hw Ha p F. destruct (adjust_full_spec rm i o wdim wzp wsc wfr k Hi Ho Hw) as (M1 & M2 & M3).
  fold p in M1, M2, M3. fold F in M3. pose proof (proj1 (ib32 _) Ha) as Ha'.
  pose proof (out_factor_pos i o (wsc (wsel wdim k)) (wfr (wsel wdim k)) Hi Ho ltac:(lia)) as HF. fold F in HF.
  change (2 ^ 30) with 1073741824 in M1.
  unfold result_cast_s8. cbv beta iota zeta. rewrite cast_same_spec by (auto; lia). change (asr_rnd_fx rm 32 acc 0) with acc.
  rewrite Z.sub_0_r. rewrite M2. destruct Ho as (Ho1 & Ho2 & Ho3).
  rewrite final_cast; auto.
  2: { change (2 ^ 61) with 2305843009213693952. nia. }
  apply clamp_err with (x := (inject_Z acc * fxval (s8_out_shift p) (s8_out_mul p))%Q); [exact Ho3|discriminate|discriminate| |].
  - apply (factor_err acc _ F (1 # 16384)); [lra|discriminate|exact M3].
  - left. pose proof (scale_rnd_within rm (acc * s8_out_mul p) (s8_out_shift p)) as W. revert W.
    apply within_compat; [apply Qeq_refl| |apply Qeq_refl]. unfold fxval. rewrite inject_Z_mult. ring.
Qed.

(** * C06, reduced accumulator *)

Lemma mul_to_16 rm m : 2 ^ 30 <= m < 2 ^ 31 ->
  let r := asr_rnd_fx rm 32 m 16 in
  2 ^ 14 <= r <= 2 ^ 15 /\ Z.abs (r * 2 ^ 16 - m) * 2 ^ 15 <= m.
Proof.
  intros Hm r. assert (Bm : in_bits 32 m) by (apply ib32; lia).
  assert (G : r = rnd rm m 16 \/ (r = 32767 /\ 2 ^ 31 - 2 ^ 15 <= m)).
  { unfold r. destruct (Z_lt_le_dec m (2 ^ 31 - 2 ^ 15)) as [L|L].
    - left. rewrite asr_rnd_fx_spec; auto; try lia. destruct rm; cbn; auto. right; right. unfold smax. lia.
    - destruct rm; [right|left].
      + split; [|lia]. destruct (asr_rnd_up_over 32 m 16) as [E _]; auto; try lia; try (unfold smax; lia).
      + rewrite asr_rnd_fx_spec; cbn; auto; lia. }
  destruct G as [-> | [-> G]]; [|change (2^14) with 16384; change (2 ^ 15) with 32768; change (2^16) with 65536; change (2^31) with 2147483648 in *; lia].
  pose proof (rnd_nearest rm m 16 ltac:(lia)) as N.
  assert (B : - 2 ^ 16 <= 2 * (m - rnd rm m 16 * 2 ^ 16) <= 2 ^ 16).
  { destruct rm; unfold nearest, nearest_up, nearest_even in N; lia. }
  set (v := rnd rm m 16) in *. clearbody v. change (2^14) with 16384. change (2 ^ 15) with 32768. change (2^16) with 65536 in *.
  change (2^31) with 2147483648 in *. change (2^30) with 1073741824 in *. lia.
Qed.

Lemma fxval_le a x b : (fxval a x <= inject_Z b)%Q <-> x * 2 ^ Z.max 0 (- a) <= b * 2 ^ Z.max 0 a.
Proof. apply scaled_le. Qed.
Lemma fxval_ge a x b : (inject_Z b <= fxval a x)%Q <-> b * 2 ^ Z.max 0 a <= x * 2 ^ Z.max 0 (- a).
Proof. apply scaled_ge. Qed.

Lemma fxval_antimono a b x : 0 <= x -> a <= b -> (fxval b x <= fxval a x)%Q.
Proof.
  intros Hx Hab. unfold fxval. replace (- a) with (- b + (b - a)) by lia. rewrite pow2q_plus.
  assert (1 <= pow2q (b - a))%Q.
  { rewrite pow2q_nonneg by lia. change 1%Q with (inject_Z 1). apply inj_le. apply pow2_ge1. lia. }
  assert (0 <= inject_Z x)%Q by (change 0%Q with (inject_Z 0); now apply inj_le).
  pose proof (pow2q_pos (- b)). assert (0 <= inject_Z x * pow2q (- b))%Q by (apply Qmult_le_0_compat; lra).
  setoid_replace (inject_Z x * (pow2q (- b) * pow2q (b - a)))%Q with (pow2q (b - a) * (inject_Z x * pow2q (- b)))%Q by ring.
  set (t := (inject_Z x * pow2q (- b))%Q) in *. set (u := pow2q (b - a)) in *. nra.
Qed.

Lemma fxval_opp a x : (fxval a (- x) == - fxval a x)%Q.
Proof. unfold fxval. rewrite inject_Z_opp. ring. Qed.

(** A large positive product, scaled down by at most 21 bits, exceeds the output range. *)
Lemma sat_side rm a mul k : 32767 <= a -> 2 ^ 14 <= mul -> k <= 21 ->
  256 <= scale_rnd rm (a * mul) k /\ scale_rnd rm (- (a + 1) * mul) k <= - 256 /\ (255 + (3 # 4) <= fxval k (a * mul))%Q.
Proof.
  intros Ha Hm Hk. change (2 ^ 14) with 16384 in *.
  assert (G : (255 + (31 # 32) <= fxval k (a * mul))%Q).
  { apply Qle_trans with (fxval 21 (a * mul)); [|apply fxval_antimono; nia].
    unfold fxval. assert ((255 + (31 # 32)) * inject_Z (2 ^ 21) <= inject_Z (a * mul))%Q.
    { setoid_replace ((255 + (31 # 32)) * inject_Z (2 ^ 21))%Q with (inject_Z (8191 * 65536)) by reflexivity.
      apply inj_le. nia. }
    pose proof (pow2q_opp 21) as O. rewrite (pow2q_nonneg 21) in O by lia. pose proof (pow2q_pos (- (21))).
    set (t := pow2q (- (21))) in *. set (y := inject_Z (a * mul)) in *. set (z := inject_Z (2 ^ 21)) in *.
    assert ((255 + (31 # 32)) * (z * t) <= y * t)%Q by nra. lra. }
  assert (G2 : (fxval k (- (a + 1) * mul) <= - (255 + (31 # 32)))%Q).
  { replace (- (a + 1) * mul) with (- ((a + 1) * mul)) by ring. rewrite fxval_opp.
    assert (fxval k (a * mul) <= fxval k ((a + 1) * mul))%Q.
    { unfold fxval. apply Qmult_le_compat_r; [apply inj_le; nia|apply Qlt_le_weak, pow2q_pos]. } lra. }
  pose proof (scale_rnd_within rm (a * mul) k) as W1. pose proof (scale_rnd_within rm (- (a + 1) * mul) k) as W2.
  unfold within in W1, W2. apply Qabs_Qle_condition in W1, W2.
  split; [|split; [|lra]].
  - assert (inject_Z 255 < inject_Z (scale_rnd rm (a * mul) k))%Q by (change (inject_Z 255) with 255%Q; lra).
    apply (proj1 (inj_lt _ _)) in H. lia.
  - assert (inject_Z (scale_rnd rm (- (a + 1) * mul) k) < inject_Z (-255))%Q by (change (inject_Z (-255)) with (- (255))%Q; lra).
    apply (proj1 (inj_lt _ _)) in H. lia.
Qed.

(** Prescaling a 24-bit accumulator to 16 bits. *)
Lemma prescale rm acc mul sh : in_bits 24 acc -> 2 ^ 14 <= mul <= 2 ^ 15 ->
  let pre := Z.max 0 (Z.min (sh - 21) 8) in
  let a := sat 16 (asr_rnd_fx rm 32 acc pre) in
  let r := scale_rnd rm (a * mul) (sh - pre) in
  let x := fxval sh (acc * mul) in
  within ((1 # 2) + (3 # 128)) x (inject_Z r)
  \/ (256 <= r /\ (255 + (3 # 4) <= x)%Q) \/ (r <= - 256 /\ (x <= - (255 + (3 # 4)))%Q).
Proof.
  intros Ha Hm pre a r x. assert (Ha' : -8388608 <= acc <= 8388607) by exact Ha.
  assert (B32 : in_bits 32 acc) by (apply ib32; lia).
  assert (Hpre : 0 <= pre <= 8) by (unfold pre; lia).
  change (2 ^ 14) with 16384 in Hm. change (2 ^ 15) with 32768 in Hm.
  set (a1 := asr_rnd_fx rm 32 acc pre) in *.
  assert (E1 : a1 = rnd rm acc pre).
  { unfold a1. rewrite asr_rnd_fx_spec; auto; try lia.
    - unfold rshift_spec. destruct (Z.leb_spec 0 pre); [reflexivity|lia].
    - apply small_rnd_safe; lia. }
  assert (N : - 2 ^ pre <= 2 * (acc - a1 * 2 ^ pre) <= 2 ^ pre /\ (pre = 0 -> a1 = acc)).
  { split.
    - rewrite E1. pose proof (rnd_nearest rm acc pre ltac:(lia)) as N. destruct rm; unfold nearest, nearest_up, nearest_even in N; lia.
    - intros ->. rewrite E1. apply rnd_0. }
  destruct N as [N N0].
  assert (E2 : a = Z.max (-32768) (Z.min 32767 a1)) by reflexivity.
  pose proof (pow2_gt0 pre ltac:(lia)) as Pp.
  assert (D : (x == fxval (sh - pre) (a * mul) + fxval sh ((acc - a * 2 ^ pre) * mul))%Q).
  { unfold x, fxval. replace (- (sh - pre)) with (- sh + pre) by lia. rewrite pow2q_plus, (pow2q_nonneg pre) by lia.
    rewrite <- Z.add_opp_r. rewrite !inject_Z_mult, inject_Z_plus, inject_Z_opp, inject_Z_mult. ring. }
  pose proof (scale_rnd_within rm (a * mul) (sh - pre)) as W. fold r in W.
  destruct (Z.eq_dec (acc - a * 2 ^ pre) 0) as [Z0|Z0].
  { left. rewrite Z0 in D. unfold within in *. apply Qabs_Qle_condition in W. apply Qabs_Qle_condition.
    change (0 * mul) with 0 in D. setoid_replace (fxval sh 0) with 0%Q in D by (unfold fxval; ring). lra. }
  assert (Small : 128 * Z.abs ((acc - a * 2 ^ pre) * mul) <= 3 * 2 ^ sh -> 0 <= sh ->
     within ((1 # 2) + (3 # 128)) x (inject_Z r)).
  { intros S Hs. unfold within in *. apply Qabs_Qle_condition in W. apply Qabs_Qle_condition.
    set (d := (acc - a * 2 ^ pre) * mul) in *.
    assert (G : (- (3 # 128) <= fxval sh d <= 3 # 128)%Q).
    { assert (S1 : (- (3 # 128) * inject_Z (2 ^ sh) <= inject_Z d <= (3 # 128) * inject_Z (2 ^ sh))%Q).
      { assert (T : (inject_Z (128 * d) <= inject_Z (3 * 2 ^ sh))%Q) by (apply inj_le; lia).
        assert (T2 : (inject_Z (- (3 * 2 ^ sh)) <= inject_Z (128 * d))%Q) by (apply inj_le; lia).
        rewrite inject_Z_opp in T2. rewrite !inject_Z_mult in T, T2. change (inject_Z 128) with 128%Q in *. change (inject_Z 3) with 3%Q in *. lra. }
      pose proof (pow2q_opp sh) as O. rewrite (pow2q_nonneg sh) in O by lia. pose proof (pow2q_pos (- sh)) as Pq.
      unfold fxval. set (t := pow2q (- sh)) in *. set (y := inject_Z d) in *. set (z := inject_Z (2 ^ sh)) in *.
      assert (- (3 # 128) * (z * t) <= y * t)%Q by nra. assert (y * t <= (3 # 128) * (z * t))%Q by nra. lra. }
    rewrite D. lra. }
  destruct (Z.eq_dec pre 8) as [P8|P8].
  { left. assert (29 <= sh) by (unfold pre in P8; lia). apply Small; [|lia].
    rewrite P8 in *. change (2 ^ 8) with 256 in *.
    assert (Z.abs (acc - a * 256) <= 384) by lia.
    assert (2 ^ 29 <= 2 ^ sh) by (apply pow2_le; lia). change (2 ^ 29) with 536870912 in *.
    rewrite Z.abs_mul, (Z.abs_eq mul) by lia. nia. }
  destruct (Z_le_gt_dec (-32768) a1) as [L1|L1]; [destruct (Z_le_gt_dec a1 32767) as [L2|L2]|].
  - assert (a = a1) by lia. left.
    destruct (Z.eq_dec pre 0) as [P0|P0].
    { exfalso. apply Z0. rewrite H, (N0 P0), P0. lia. }
    assert (sh = 21 + pre) by (unfold pre in P0, P8 |- *; lia). apply Small; [|lia].
    rewrite H0, pow2_split by lia. rewrite H in *. change (2 ^ 21) with 2097152.
    rewrite Z.abs_mul, (Z.abs_eq mul) by lia. set (p := 2 ^ pre) in *. set (d := acc - a1 * p) in *.
    assert (2 * Z.abs d <= p) by lia. nia.
  - right; left. assert (a = 32767) by lia.
    assert (Hk : sh - pre <= 21) by (unfold pre in P8 |- *; lia).
    destruct (sat_side rm 32767 mul (sh - pre) ltac:(lia) ltac:(change (2^14) with 16384; lia) Hk) as (S1 & _ & S3).
    unfold r. rewrite H. split; [exact S1|].
    eapply Qle_trans; [exact S3|]. unfold x, fxval. replace (- (sh - pre)) with (- sh + pre) by lia.
    rewrite pow2q_plus, (pow2q_nonneg pre) by lia. pose proof (pow2q_pos (- sh)).
    setoid_replace (inject_Z (32767 * mul) * (pow2q (- sh) * inject_Z (2 ^ pre)))%Q
      with (inject_Z (32767 * mul * 2 ^ pre) * pow2q (- sh))%Q by (rewrite !inject_Z_mult; ring).
    apply Qmult_le_compat_r; [|lra]. apply inj_le.
    assert (32767 * 2 ^ pre <= acc) by nia. nia.
  - right; right. assert (a = -32768) by lia.
    assert (Hk : sh - pre <= 21) by (unfold pre in P8 |- *; lia).
    destruct (sat_side rm 32767 mul (sh - pre) ltac:(lia) ltac:(change (2^14) with 16384; lia) Hk) as (_ & S2 & S3).
    unfold r. rewrite H. split; [exact S2|].
    assert (Hle : (x <= - fxval (sh - pre) (32767 * mul))%Q); [|lra].
    rewrite <- fxval_opp. unfold x, fxval. replace (- (sh - pre)) with (- sh + pre) by lia.
    rewrite pow2q_plus, (pow2q_nonneg pre) by lia. pose proof (pow2q_pos (- sh)).
    setoid_replace (inject_Z (- (32767 * mul)) * (pow2q (- sh) * inject_Z (2 ^ pre)))%Q
      with (inject_Z (- (32767 * mul * 2 ^ pre)) * pow2q (- sh))%Q by (rewrite !inject_Z_opp, !inject_Z_mult; ring).
    apply Qmult_le_compat_r; [|lra]. apply inj_le.
    assert (acc <= - (32767 * 2 ^ pre)) by nia. nia.
Qed.

Lemma within_trans e1 e2 a b c : within e1 a b -> within e2 b c -> within (e1 + e2) a c.
Proof. unfold within. rewrite !Qabs_Qle_condition. intros. lra. Qed.

(** Reducing the multiplier to 16 bits costs a relative error of 2^-15. *)
Lemma mul16_within mul M sh : 0 <= M -> Z.abs (mul * 2 ^ 16 - M) * 2 ^ 15 <= M ->
  within (fxval sh M * (1 # 32768)) (fxval (sh - 16) mul) (fxval sh M).
Proof.
  intros HM R2.
  assert (E5 : (fxval (sh - 16) mul == inject_Z (mul * 2 ^ 16) * pow2q (- sh))%Q).
  { unfold fxval. rewrite inject_Z_mult, <- (pow2q_nonneg 16), <- Qmult_assoc, <- pow2q_plus by lia.
    replace (16 + - sh) with (- (sh - 16)) by lia. reflexivity. }
  unfold within. rewrite E5. unfold fxval. pose proof (pow2q_pos (- sh)) as Pq. set (t := pow2q (- sh)) in *. clearbody t.
  set (Y := mul * 2 ^ 16) in *. clearbody Y.
  setoid_replace (inject_Z Y * t - inject_Z M * t)%Q with (inject_Z (Y - M) * t)%Q
    by (rewrite <- Z.add_opp_r, inject_Z_plus, inject_Z_opp; ring).
  rewrite Qabs_Qmult, (Qabs_pos t) by lra.
  setoid_replace (inject_Z M * t * (1 # 32768))%Q with (inject_Z M * (1 # 32768) * t)%Q by ring.
  apply Qmult_le_compat_r; [|lra]. change (Qabs (inject_Z (Y - M))) with (inject_Z (Z.abs (Y - M))).
  assert (T : (inject_Z (Z.abs (Y - M) * 2 ^ 15) <= inject_Z M)%Q) by (apply inj_le; exact R2).
  rewrite inject_Z_mult in T. change (inject_Z (2 ^ 15)) with (32768)%Q in T. lra.
Qed.

Lemma adjust_reduced_eq p0 k :
  let pf := adjust_s8 true p0 k in
  let p := adjust_s8 false p0 k in
  let n := norm_fx 32 (s8_out_mul pf) in
  s8_out_mul p = wrap 32 (Z.shiftl (s8_out_mul pf) n) /\ s8_out_shift p = s8_out_shift pf + n /\ s8_out_off p = s8_out_off pf.
Proof. split; [|split]; reflexivity. Qed.

Lemma within_compose F G H : (0 < F)%Q -> within (G * (1 # 32768)) H G -> within (F * (1 # 16384)) G F ->
  within (F * (13 # 131072)) H F.
Proof. unfold within. rewrite !Qabs_Qle_condition. intros. lra. Qed.

Lemma pre_eq sh : min_fx (max_fx (sh - (32 - 8 - 3)) 0) 8 = Z.max 0 (Z.min (sh - 21) 8).
Proof.
  unfold min_fx, max_fx. change (32 - 8 - 3) with 21. rewrite !Z.gtb_ltb. destruct (Z.ltb_spec 0 (sh - 21)); rewrite ?Z.gtb_ltb;
  repeat match goal with |- context [?a <? ?b] => destruct (Z.ltb_spec a b) end; lia.
Qed.

(** result_cast_s8 with a reduced accumulator, in terms of the rounding specification. *)
Lemma cast_reduced_eq rm acc p : in_bits 24 acc -> in_bits 8 (s8_out_off p) ->
  let mul := asr_rnd_fx rm 32 (s8_out_mul p) 16 in
  0 <= mul <= 32768 ->
  let sh := s8_out_shift p - 16 in
  let pre := Z.max 0 (Z.min (sh - 21) 8) in
  let a := sat 16 (asr_rnd_fx rm 32 acc pre) in
  result_cast_s8 rm false acc p = sat 8 (scale_rnd rm (a * mul) (sh - pre) + s8_out_off p).
Proof.
  intros Ha Hz mul Hm sh pre a. unfold result_cast_s8. fold mul. fold sh. rewrite pre_eq. fold pre.
  assert (Ha' : -8388608 <= acc <= 8388607) by exact Ha.
  assert (B32 : in_bits 32 acc) by (apply ib32; lia).
  rewrite sat_fx_spec; [|lia|apply asr_rnd_in_bits; auto; lia|lia]. change (32 - 16) with 16. fold a.
  assert (Ba : in_bits 16 a) by (apply sat_in_bits; lia). pose proof (proj1 (ib16 _) Ba) as Ba'.
  rewrite cast_same_spec by (try apply ib32; lia).
  assert (E0 : asr_rnd_fx rm 32 a 0 = a) by reflexivity. rewrite E0.
  apply final_cast; auto. change (2 ^ 61) with 2305843009213693952. clearbody a mul. nia.
Qed.

(** The SA8 output computed through a 24-bit accumulator has an error below 9/16 as long as the accumulator value
    fits into those 24 bits. *)
Theorem result_cast_s8_reduced rm i o wdim wzp wsc wfr k acc : qpar_ok i -> qpar_ok o ->
  0 < wsc (wsel wdim k) <= 32767 -> in_bits 24 acc ->
  let p := adjust_s8 false (define_s8_params rm i o wdim wzp wsc wfr) k in
  let F := out_factor i o (wsc (wsel wdim k)) (wfr (wsel wdim k)) in
  within ((1 # 2) + (1 # 16)) (inject_Z (result_cast_s8 rm false acc p))
    (qclamp (- (128)) 127 (inject_Z acc * F + inject_Z (q_zp o))).
Proof.
  intros Hi Ho Hw Ha p F. pose proof (adjust_full_spec rm i o wdim wzp wsc wfr k Hi Ho Hw) as A.
  pose proof (adjust_reduced_eq (define_s8_params rm i o wdim wzp wsc wfr) k) as E. cbv zeta in A, E. fold p in E. fold F in A.
  pose proof (out_factor_pos i o (wsc (wsel wdim k)) (wfr (wsel wdim k)) Hi Ho ltac:(lia)) as HF. fold F in HF.
  set (pf := adjust_s8 true (define_s8_params rm i o wdim wzp wsc wfr) k) in *. clearbody p pf F.
  destruct A as (M1 & M2 & M3). destruct E as (E1 & E2 & E3). rewrite M2 in E3.
  set (m0 := s8_out_mul pf) in *. set (sh0 := s8_out_shift pf) in *. clearbody m0 sh0.
  assert (B0 : in_bits 32 m0) by (apply ib32; change (2^30) with 1073741824 in M1; lia).
  destruct (norm_fx_pos 32 m0 ltac:(lia) B0 ltac:(lia)) as [C1 C2].
  pose proof (norm_fx_range 32 m0 ltac:(lia) B0) as C3. change (32 - 2) with 30 in *. change (32 - 1) with 31 in *.
  set (n := norm_fx 32 m0) in *. clearbody n.
  rewrite Z.shiftl_mul_pow2 in E1 by lia. rewrite wrap_id in E1 by (try apply ib32; lia).
  destruct Ho as (Ho1 & Ho2 & Ho3).
  destruct (mul_to_16 rm (m0 * 2 ^ n) C1) as [R1 R2].
  rewrite cast_reduced_eq; [|exact Ha|rewrite E3; exact Ho3|rewrite E1; lia].
  rewrite E1, E2, E3. set (mul := asr_rnd_fx rm 32 (m0 * 2 ^ n) 16) in *. clearbody mul.
  set (sh := sh0 + n - 16).
  pose proof (prescale rm acc mul sh Ha R1) as PS. cbv zeta in PS.
  assert (MM : within (F * (13 # 131072)) (fxval sh mul) F).
  { apply within_compose with (G := fxval sh0 m0); auto.
    pose proof (mul16_within mul (m0 * 2 ^ n) (sh0 + n) ltac:(lia) R2) as W. fold sh in W.
    assert (E0 : (fxval (sh0 + n) (m0 * 2 ^ n) == fxval sh0 m0)%Q).
    { unfold fxval. rewrite inject_Z_mult, <- pow2q_nonneg, <- Qmult_assoc, <- pow2q_plus by lia.
      replace (n + - (sh0 + n)) with (- sh0) by lia. reflexivity. }
    revert W. apply within_compat; [rewrite E0; apply Qeq_refl|apply Qeq_refl|exact E0]. }
  clearbody sh.
  apply within_weaken with (e := ((1 # 2) + (3 # 128) + (1 # 32))%Q); [discriminate|].
  apply clamp_err with (x := (inject_Z acc * fxval sh mul)%Q); [exact Ho3|discriminate|discriminate| |].
  - apply (factor_err acc _ F (13 # 131072)); [lra|apply Qle_refl|exact MM].
  - assert (Ex : (inject_Z acc * fxval sh mul == fxval sh (acc * mul))%Q) by (unfold fxval; rewrite inject_Z_mult; ring).
    destruct PS as [PS|[[PS1 PS2]|[PS1 PS2]]]; [left|right; left; split; [exact PS1|rewrite Ex; exact PS2]|right; right; split; [exact PS1|rewrite Ex; exact PS2]].
    revert PS. apply within_compat; [apply Qeq_refl|symmetry; exact Ex|apply Qeq_refl].
Qed.

(** Beyond 24 bits the prescaled accumulator saturates: the true output is 64, the result 0. *)
Theorem result_cast_s8_reduced_refuted : exists rm i o wsc wfr acc, qpar_ok i /\ qpar_ok o /\ 0 < wsc <= 32767 /\ in_bits 32 acc
  /\ (inject_Z acc * out_factor i o wsc wfr == 64)%Q
  /\ result_cast_s8 rm false acc (adjust_s8 false (define_s8_params rm i o (-1) (fun _ => 0) (fun _ => wsc) (fun _ => wfr)) 0) = 0.
Proof.
  exists RM_UP, (mkQ 16384 20 0), (mkQ 16384 14 0), 16384, 32, (2 ^ 30).
  split; [unfold qpar_ok; cbn; rewrite !ib8; lia|]. split; [unfold qpar_ok; cbn; rewrite !ib8; lia|]. split; [lia|].
  split; [apply ib32; lia|]. split; vm_compute; reflexivity.
Qed.

Example result_cast_ex : result_cast_s8 RM_UP true 5000 (adjust_s8 true (define_s8_params RM_UP (mkQ 20000 18 5) (mkQ 30000 14 (-3)) (-1) (fun _ => 0) (fun _ => 25000) (fun _ => 17)) 0) = 37
  /\ result_cast_s8 RM_UP false 5000 (adjust_s8 false (define_s8_params RM_UP (mkQ 20000 18 5) (mkQ 30000 14 (-3)) (-1) (fun _ => 0) (fun _ => 25000) (fun _ => 17)) 0) = 37
  /\ qpar_ok (mkQ 20000 18 5) /\ qpar_ok (mkQ 30000 14 (-3)).
Proof. split; [vm_compute; reflexivity|]. split; [vm_compute; reflexivity|]. unfold qpar_ok. cbn. rewrite !ib8. lia. Qed.

(** * Results of FX kernels *)

(** The stored value is the accumulator, with its fin + fw fractional bits, rounded to fout fractional bits and
    clamped to the output type. Rounding is undisturbed unless, in mode UP, the shift exceeds the difference of the
    widths and the accumulator is within half a unit of its maximum. *)
Theorem result_cast_fx_spec rm nacc no acc fin fw fb fout : 1 <= no -> no < nacc -> in_bits nacc acc ->
  rnd_safe rm nacc acc (fin + fw - fout) \/ fin + fw - fout <= nacc - no ->
  result_cast_fx rm nacc no acc (define_fx_params fin fw fb fout) = sat no (scale_rnd rm acc (fin + fw - fout))
  /\ within ((1 # 2) * pow2q (- fout)) (fxval (fin + fw) acc) (fxval fout (scale_rnd rm acc (fin + fw - fout))).
Proof.
  intros Hno Hlt Ha Hs. split.
  - unfold result_cast_fx, define_fx_params. cbn [fx_out_shift]. unfold scale_rnd. apply cast_narrow_exact; auto.
  - pose proof (scale_rnd_within rm acc (fin + fw - fout)) as W.
    apply (within_scale _ _ _ (pow2q (- fout))) in W; [|apply Qlt_le_weak, pow2q_pos].
    revert W. apply within_compat; try reflexivity.
    unfold fxval. rewrite <- Qmult_assoc, <- pow2q_plus. replace (- (fin + fw - fout) + - fout) with (- (fin + fw)) by lia. reflexivity.
Qed.
