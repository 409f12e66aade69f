(** Specification and proofs for the quantization bricks (properties C05, C06, C08-C10, C53). *)
From Coq Require Import ZArith QArith Qabs Qpower List Lia Lqa Bool.
From Verif Require Import Base FxMath FxMathProofs QSpec Quant.
Import ListNotations.
Open Scope Z_scope.

(** Parameters the API accepts: a positive int16 scale, int8 fractional bits, an 8-bit zero point. *)
Definition qpar_ok (q : qpar) : Prop :=
  0 < q_scale q <= 32767 /\ in_bits 8 (q_frac q) /\ in_bits 8 (q_zp q).

(** The real scale of a tensor: scale * 2^-frac. *)
Definition real_scale (scale frac : Z) : Q := fxval frac scale.

Lemma in_bits_unfold n x : in_bits n x <-> - 2 ^ (n - 1) <= x <= 2 ^ (n - 1) - 1.
Proof. reflexivity. Qed.

Lemma ib8 x : in_bits 8 x <-> -128 <= x <= 127.
Proof. reflexivity. Qed.
Lemma ib16 x : in_bits 16 x <-> -32768 <= x <= 32767.
Proof. reflexivity. Qed.
Lemma ib32 x : in_bits 32 x <-> -2147483648 <= x <= 2147483647.
Proof. reflexivity. Qed.
Lemma ib64 x : in_bits 64 x <-> -9223372036854775808 <= x <= 9223372036854775807.
Proof. reflexivity. Qed.

(** Reducing a positive 32-bit number to 15 significant bits. *)
Lemma norm_to_16 rm q : 0 < q -> in_bits 32 q ->
  let s := 16 - norm_fx 32 q in
  let r := cast_narrow rm 32 16 q s in
  - 14 <= s <= 16 /\ 2 ^ 14 <= r <= 32767
  /\ (0 <= s -> Z.abs (r * 2 ^ s - q) * 2 ^ 15 <= q)
  /\ (s <= 0 -> r = q * 2 ^ (- s)).
Proof.
  intros Hq Hb s r. destruct (norm_fx_pos 32 q ltac:(lia) Hb Hq) as [A B].
  pose proof (norm_fx_range 32 q ltac:(lia) Hb). change (32 - 2) with 30 in *. change (32 - 1) with 31 in *.
  set (k := norm_fx 32 q) in *. split; [unfold s; lia|].
  assert (E : r = sat 16 (if 0 <=? s then rnd rm q s else q * 2 ^ (- s))).
  { unfold r. apply cast_narrow_exact; auto; unfold s; lia. }
  unfold sat, clamp, smin, smax in E. change (16 - 1) with 15 in E.
  destruct (Z_le_gt_dec 0 s).
  - destruct (Z.leb_spec 0 s); [|lia].
    assert (P : 2 ^ k * 2 ^ s = 2 ^ 16) by (rewrite <- pow2_split by lia; f_equal; unfold s; lia).
    pose proof (pow2_gt0 s ltac:(lia)). pose proof (pow2_gt0 k ltac:(lia)).
    assert (A1 : 2 ^ 14 * 2 ^ s <= q < 2 ^ 15 * 2 ^ s).
    { set (p := 2 ^ s) in *. set (m := 2 ^ k) in *. change (2^30) with (2 ^ 14 * 2 ^ 16) in A. change (2^31) with (2 ^ 15 * 2 ^ 16) in A.
      rewrite <- P in A. clear - A H1 H2. nia. }
    pose proof (rnd_nearest rm q s ltac:(lia)) as N.
    assert (N1 : - 2 ^ s <= 2 * (q - rnd rm q s * 2 ^ s) <= 2 ^ s).
    { destruct rm; unfold nearest, nearest_up, nearest_even in N; lia. }
    set (p := 2 ^ s) in *. set (v := rnd rm q s) in *. change (2^15) with 32768 in *. change (2^14) with 16384 in *.
    assert (16384 <= v <= 32768) by (clear - A1 N1 H1; nia).
    destruct (Z.eq_dec v 32768).
    + assert (r = 32767) by lia. rewrite H4. split; [lia|]. split; [|intros; assert (s = 0) by lia; unfold p in *; rewrite H6 in *; change (2^0) with 1 in *; lia].
      intros _. assert (q - 32767 * p < p) by lia. 
      clear - A1 N1 H1 e H5. rewrite e in N1. lia.
    + assert (r = v) by lia. rewrite H4. split; [lia|]. split.
      * intros _. clear - A1 N1 H1. lia.
      * intros. assert (s = 0) by lia. unfold p in *; rewrite H6 in *. change (2^0) with 1 in *. change (- 0) with 0. lia.
  - destruct (Z.leb_spec 0 s); [lia|].
    assert (P : 2 ^ k = 2 ^ 16 * 2 ^ (- s)) by (rewrite <- pow2_split by lia; f_equal; unfold s; lia).
    rewrite P in A. change (2^30) with (2 ^ 14 * 2 ^ 16) in A. change (2^31) with (2 ^ 15 * 2 ^ 16) in A.
    change (2 ^ 15) with 32768 in *. change (2 ^ 14) with 16384 in *. change (2^16) with 65536 in *.
    assert (16384 <= q * 2 ^ (- s) < 32768) by lia. split; [lia|]. split; lia.
Qed.

(** * C10: SA to SA requantization parameters *)

(** The integer core of define_requant_params. *)
Lemma requant_core i o : 0 < q_scale i <= 32767 -> 0 < q_scale o <= 32767 ->
  let pre := norm_fx 32 (q_scale i) - norm_fx 16 (q_scale o) in
  let q := Z.quot (wrap 32 (Z.shiftl (q_scale i) pre)) (q_scale o) in
  2 <= pre <= 30 /\ wrap 32 (Z.shiftl (q_scale i) pre) = q_scale i * 2 ^ pre
  /\ 2 ^ 15 <= q < 2 ^ 17 /\ q * q_scale o <= q_scale i * 2 ^ pre < (q + 1) * q_scale o
  /\ 1 <= 16 - norm_fx 32 q <= 2.
Proof.
  intros Hi Ho.
  assert (Bi : in_bits 32 (q_scale i)) by (apply in_bits_unfold; change (2^(32-1)) with 2147483648; lia).
  assert (Bo : in_bits 16 (q_scale o)) by (apply in_bits_unfold; change (2^(16-1)) with 32768; lia).
  destruct (norm_fx_pos 32 _ ltac:(lia) Bi ltac:(lia)) as [A1 A2].
  destruct (norm_fx_pos 16 _ ltac:(lia) Bo ltac:(lia)) as [B1 B2].
  pose proof (norm_fx_range 32 _ ltac:(lia) Bi) as A3. pose proof (norm_fx_range 16 _ ltac:(lia) Bo) as B3.
  set (a := norm_fx 32 (q_scale i)) in *. set (b := norm_fx 16 (q_scale o)) in *.
  change (32 - 2) with 30 in *. change (32 - 1) with 31 in *. change (16 - 2) with 14 in *. change (16 - 1) with 15 in *.
  assert (16 <= a).
  { destruct (Z_lt_ge_dec a 16); [|lia]. exfalso.
    assert (2 ^ a <= 2 ^ 15) by (apply pow2_le; lia).
    change (2 ^ 15) with 32768 in *. change (2^30) with 1073741824 in *. nia. }
  intros pre q. assert (Hpre : 2 <= pre <= 30) by (unfold pre; lia). split; [exact Hpre|].
  set (p := 2 ^ pre) in *. assert (E : 2 ^ a = p * 2 ^ b) by (unfold p; rewrite <- pow2_split by lia; f_equal; unfold pre; lia).
  pose proof (pow2_gt0 b ltac:(lia)). pose proof (pow2_gt0 pre ltac:(lia)). fold p in H1.
  set (t := 2 ^ b) in *. set (si := q_scale i) in *. set (so := q_scale o) in *.
  rewrite E in A1.
  assert (W : wrap 32 (Z.shiftl si pre) = si * p).
  { rewrite Z.shiftl_mul_pow2 by lia. fold p. apply wrap_id; [lia|]. apply in_bits_unfold. change (2^(32-1)) with (2^31).
    clear - A1 H0 H1 Hi. nia. }
  split; [exact W|].
  assert (Q : q = si * p / so) by (unfold q; rewrite W; apply Z.quot_div_nonneg; nia).
  pose proof (Z.div_mod (si * p) so ltac:(lia)) as D. pose proof (Z.mod_pos_bound (si * p) so ltac:(lia)) as M.
  rewrite <- Q in D. 
  assert (D1 : q * so <= si * p < (q + 1) * so) by lia.
  change (2^30) with (2^15 * 2 ^ 15) in A1. change (2 ^ 31) with (2 ^ 17 * 2 ^ 14) in A1.
  change (2 ^ 17) with 131072 in *. change (2 ^ 15) with 32768 in *. change (2 ^ 14) with 16384 in *.
  assert (R : 32768 <= q < 131072) by (clear - D1 A1 B1 H0 H1; nia).
  split; [exact R|]. split; [exact D1|].
  assert (Bq : in_bits 32 q) by (apply in_bits_unfold; change (2^(32-1)) with 2147483648; lia).
  destruct (norm_fx_pos 32 q ltac:(lia) Bq ltac:(lia)) as [C1 C2]. change (32 - 2) with 30 in *. change (32 - 1) with 31 in *.
  pose proof (norm_fx_range 32 q ltac:(lia) Bq) as C3.
  set (k := norm_fx 32 q) in *.
  assert (14 <= k).
  { destruct (Z_lt_ge_dec k 14); [|lia]. exfalso. assert (2 ^ k <= 2 ^ 13) by (apply pow2_le; lia).
    change (2^13) with 8192 in *. change (2^30) with 1073741824 in *. nia. }
  assert (k <= 15).
  { destruct (Z_le_gt_dec k 15); [lia|]. exfalso. assert (2 ^ 16 <= 2 ^ k) by (apply pow2_le; lia).
    change (2^16) with 65536 in *. change (2^31) with 2147483648 in *. nia. }
  lia.
Qed.

Lemma within_scale e a b t : (0 <= t)%Q -> within e a b -> within (e * t) (a * t) (b * t).
Proof.
  unfold within. intros Ht H. setoid_replace (a * t - b * t)%Q with ((a - b) * t)%Q by ring.
  rewrite Qabs_Qmult, (Qabs_pos t) by auto. apply Qmult_le_compat_r; auto.
Qed.

Lemma within_compat e a b e' a' b' : (e == e' -> a == a' -> b == b' -> within e a b -> within e' a' b')%Q.
Proof. unfold within. intros -> -> ->. auto. Qed.

Lemma within_Z e a b : (inject_Z 0 <= inject_Z e)%Q -> Z.abs (a - b) <= e -> within (inject_Z e) (inject_Z a) (inject_Z b).
Proof.
  intros _ H. unfold within. apply Qabs_Qle_condition. rewrite <- inject_Z_opp.
  setoid_replace (inject_Z a - inject_Z b)%Q with (inject_Z (a - b)) by (rewrite <- Z.add_opp_r, inject_Z_plus, inject_Z_opp; reflexivity).
  split; apply inj_le; lia.
Qed.

(** |A - N/D| <= (N/D)/K from an integer inequality. *)
Lemma within_ratio A N D K : 0 < D -> 0 < K -> Z.abs (A * D - N) * K <= N ->
  within (inject_Z N / inject_Z D / inject_Z K) (inject_Z A) (inject_Z N / inject_Z D).
Proof.
  intros HD HK H. unfold within. apply Qabs_Qle_condition.
  assert (HD' : (0 < inject_Z D)%Q) by (change 0%Q with (inject_Z 0); apply inj_lt; auto).
  assert (HK' : (0 < inject_Z K)%Q) by (change 0%Q with (inject_Z 0); apply inj_lt; auto).
  assert (G : (- inject_Z N <= (inject_Z A * inject_Z D - inject_Z N) * inject_Z K <= inject_Z N)%Q).
  { rewrite <- inject_Z_opp, <- inject_Z_mult.
    setoid_replace (inject_Z (A * D) - inject_Z N)%Q with (inject_Z (A * D - N)) by (rewrite <- Z.add_opp_r, inject_Z_plus, inject_Z_opp; reflexivity).
    rewrite <- inject_Z_mult. split; apply inj_le; lia. }
  set (d := inject_Z D) in *. set (k := inject_Z K) in *. set (n := inject_Z N) in *. set (a := inject_Z A) in *.
  assert (HDK : (0 < d * k)%Q) by nra.
  split; apply (Qmult_le_r _ _ (d * k)); auto.
  - setoid_replace (- (n / d / k) * (d * k))%Q with (- n)%Q by (field; lra).
    setoid_replace ((a - n / d) * (d * k))%Q with ((a * d - n) * k)%Q by (field; lra). lra.
  - setoid_replace (n / d / k * (d * k))%Q with n by (field; lra).
    setoid_replace ((a - n / d) * (d * k))%Q with ((a * d - n) * k)%Q by (field; lra). lra.
Qed.

Lemma wrap16_small x : -1000 <= x <= 1000 -> wrap 16 x = x.
Proof. intros. apply wrap_id; [lia|]. apply in_bits_unfold. change (2^(16-1)) with 32768. lia. Qed.

(** What define_requant_params computes, without truncations. *)
Lemma requant_eq rm i o : qpar_ok i -> qpar_ok o ->
  let pre := norm_fx 32 (q_scale i) - norm_fx 16 (q_scale o) in
  let q := Z.quot (wrap 32 (Z.shiftl (q_scale i) pre)) (q_scale o) in
  let s := 16 - norm_fx 32 q in
  let r := define_requant_params rm i o in
  rq_scale r = cast_narrow rm 32 16 q s /\ rq_shift r = pre + (q_frac i - q_frac o) - s
  /\ rq_offset r = sub_fx 16 (q_zp o) (cast_narrow rm 32 16 (rq_scale r * q_zp i) (rq_shift r)).
Proof.
  intros (Hi & Fi & Zi) (Ho & Fo & Zo) pre q s r.
  destruct (requant_core i o Hi Ho) as (A & B & C & D & E).
  fold pre in A, B, C, D, E. fold q in C, D, E. fold s in E.
  assert (W : wrap 16 (q_scale o) = q_scale o) by (apply wrap_id; [lia|]; apply in_bits_unfold; change (2^(16-1)) with 32768; lia).
  assert (R : r = mkRequant (cast_narrow rm 32 16 q s) (pre + (q_frac i - q_frac o) - s)
                 (sub_fx 16 (q_zp o) (cast_narrow rm 32 16 (cast_narrow rm 32 16 q s * q_zp i) (pre + (q_frac i - q_frac o) - s)))).
  { unfold r, define_requant_params. rewrite W. fold pre. fold q.
    unfold norm_cast_fx. change (16 <? 32) with true. change (32 - 16) with 16. fold s.
    pose proof (proj1 (ib8 _) Fi). pose proof (proj1 (ib8 _) Fo). unfold s in *.
    rewrite (wrap16_small pre) by lia. rewrite (wrap16_small (pre + (q_frac i - q_frac o))) by lia.
    rewrite wrap16_small by lia. reflexivity. }
  rewrite R. cbn [rq_scale rq_shift rq_offset]. auto.
Qed.

Lemma ratio_int X so N q : 0 < so -> 32768 <= q -> Z.abs (X - q) * 32768 <= q -> q * so <= N < (q + 1) * so ->
  Z.abs (X * so - N) * 16384 <= N.
Proof.
  intros Hs Hq HX HN.
  assert (E : X * so - N = (X - q) * so + (q * so - N)) by ring.
  assert (T : Z.abs (X * so - N) <= Z.abs (X - q) * so + so).
  { rewrite E, Z.abs_triangle, Z.abs_mul, (Z.abs_eq so) by lia. lia. }
  assert (Z.abs (X - q) * so * 32768 <= q * so) by nia. nia.
Qed.

(** The multiplier and shift represent the ratio of the real scales with a relative error of at most 2^-14;
    the multiplier uses all 15 bits. *)
Theorem requant_ratio rm i o : qpar_ok i -> qpar_ok o ->
  let r := define_requant_params rm i o in
  let ratio := (real_scale (q_scale i) (q_frac i) / real_scale (q_scale o) (q_frac o))%Q in
  2 ^ 14 <= rq_scale r < 2 ^ 15
  /\ within (ratio * (1 # 16384)) (fxval (rq_shift r) (rq_scale r)) ratio.
Proof.
  intros Hi Ho r ratio. destruct (requant_eq rm i o Hi Ho) as (E1 & E2 & _).
  fold r in E1, E2. destruct Hi as (Hi & Fi & _). destruct Ho as (Ho & Fo & _).
  destruct (requant_core i o Hi Ho) as (A & B & C & D & E).
  set (pre := norm_fx 32 (q_scale i) - norm_fx 16 (q_scale o)) in *.
  set (q := Z.quot (wrap 32 (Z.shiftl (q_scale i) pre)) (q_scale o)) in *.
  assert (Bq : in_bits 32 q) by (apply in_bits_unfold; change (2^(32-1)) with 2147483648; change (2^17) with 131072 in *; lia).
  destruct (norm_to_16 rm q ltac:(lia) Bq) as (F1 & F2 & F3 & _).
  set (s := 16 - norm_fx 32 q) in *. rewrite <- E1 in F2, F3. specialize (F3 ltac:(lia)).
  split; [change (2^15) with 32768; lia|].
  set (sc := rq_scale r) in *. set (si := q_scale i) in *. set (so := q_scale o) in *.
  assert (I : Z.abs (sc * 2 ^ s * so - si * 2 ^ pre) * 16384 <= si * 2 ^ pre).
  { change (2 ^ 15) with 32768 in *. apply (ratio_int (sc * 2 ^ s) so (si * 2 ^ pre) q); lia. }
  apply within_ratio in I; [|lia|lia].
  apply (within_scale _ _ _ (pow2q (q_frac o - q_frac i - pre))) in I; [|apply Qlt_le_weak, pow2q_pos].
  assert (HD' : (0 < inject_Z so)%Q) by (change 0%Q with (inject_Z 0); apply inj_lt; lia).
  assert (RR : (inject_Z (si * 2 ^ pre) / inject_Z so * pow2q (q_frac o - q_frac i - pre) == ratio)%Q).
  { unfold ratio, real_scale, fxval. fold si so. rewrite inject_Z_mult, <- pow2q_nonneg by lia.
    replace (q_frac o - q_frac i - pre) with (q_frac o + - q_frac i + - pre) by lia. rewrite !pow2q_plus.
    rewrite (pow2q_inv (q_frac o)), (pow2q_inv pre).
    pose proof (pow2q_pos (q_frac o)). pose proof (pow2q_pos pre). field. repeat split; lra. }
  revert I. apply within_compat.
  - setoid_replace (inject_Z (si * 2 ^ pre) / inject_Z so / inject_Z 16384 * pow2q (q_frac o - q_frac i - pre))%Q
      with (inject_Z (si * 2 ^ pre) / inject_Z so * pow2q (q_frac o - q_frac i - pre) * (1 # 16384))%Q
      by (change (1 # 16384) with (/ inject_Z 16384)%Q; field; lra).
    rewrite RR. reflexivity.
  - unfold fxval. rewrite E2. rewrite inject_Z_mult, <- pow2q_nonneg, <- Qmult_assoc, <- pow2q_plus by lia.
    replace (s + (q_frac o - q_frac i - pre)) with (- (pre + (q_frac i - q_frac o) - s)) by lia. reflexivity.
  - exact RR.
Qed.

Lemma half_within x k r : 0 <= k -> - 2 ^ k <= 2 * (x - r * 2 ^ k) <= 2 ^ k -> within (1 # 2) (fxval k x) (inject_Z r).
Proof.
  intros Hk H. unfold within, fxval. apply Qabs_Qle_condition.
  pose proof (pow2q_pos k). pose proof (pow2q_pos (- k)). pose proof (pow2q_opp k) as O.
  assert (E : (inject_Z x * pow2q (- k) - inject_Z r == inject_Z (x - r * 2 ^ k) * pow2q (- k))%Q).
  { rewrite <- Z.add_opp_r, inject_Z_plus, inject_Z_opp, inject_Z_mult, <- pow2q_nonneg by lia.
    setoid_replace ((inject_Z x + - (inject_Z r * pow2q k)) * pow2q (- k))%Q
      with (inject_Z x * pow2q (- k) - inject_Z r * (pow2q k * pow2q (- k)))%Q by ring.
    rewrite O. ring. }
  rewrite E. set (d := x - r * 2 ^ k) in *.
  assert (G : (- pow2q k <= inject_Z 2 * inject_Z d <= pow2q k)%Q).
  { rewrite pow2q_nonneg, <- inject_Z_opp, <- inject_Z_mult by lia. split; apply inj_le; lia. }
  change (inject_Z 2) with 2%Q in G. set (P := pow2q k) in *. set (R := pow2q (- k)) in *. set (D := inject_Z d) in *.
  assert (G1 : (- (P * R) <= 2 * D * R)%Q) by nra. assert (G2 : (2 * D * R <= P * R)%Q) by nra.
  rewrite O in *. split; lra.
Qed.

Lemma nearest_within rm x k r : 0 <= k -> nearest rm x k r -> within (1 # 2) (fxval k x) (inject_Z r).
Proof.
  intros Hk N. apply half_within; auto. destruct rm; unfold nearest, nearest_up, nearest_even in N; lia.
Qed.

Lemma fxval_neg k x : k <= 0 -> (fxval k x == inject_Z (x * 2 ^ (- k)))%Q.
Proof. intros. unfold fxval. rewrite pow2q_nonneg, inject_Z_mult by lia. reflexivity. Qed.

(** A rounding shift of a value far from the limits of its type is within half a unit of the exact quotient. *)
Lemma asr_rnd_within rm n x k : 1 <= n -> in_bits n x -> rnd_safe rm n x k ->
  (k < 0 -> in_bits n (x * 2 ^ (- k))) ->
  within (1 # 2) (fxval k x) (inject_Z (asr_rnd_fx rm n x k)).
Proof.
  intros Hn Hx Hs Hneg. rewrite asr_rnd_fx_spec by auto. unfold rshift_spec.
  destruct (Z.leb_spec 0 k).
  - apply (nearest_within rm); auto. now apply rnd_nearest.
  - rewrite sat_id by auto. unfold within. rewrite fxval_neg by lia.
    setoid_replace (inject_Z (x * 2 ^ (- k)) - inject_Z (x * 2 ^ (- k)))%Q with 0%Q by ring. discriminate.
Qed.

Lemma within_bound e a b c d : (within e a b -> Qabs a <= c -> c + e <= d -> Qabs b <= d)%Q.
Proof.
  unfold within. intros H1 H2 H3. apply Qabs_Qle_condition in H1, H2. apply Qabs_Qle_condition. lra.
Qed.

Lemma Qabs_inj_le v c : (Qabs (inject_Z v) <= inject_Z c)%Q <-> Z.abs v <= c.
Proof.
  rewrite Qabs_Qle_condition, <- inject_Z_opp, !inj_le. lia.
Qed.

Lemma small_rnd_safe rm n x k : 1 <= n -> Z.abs x <= 2 ^ (n - 2) - 1 -> 2 <= n -> rnd_safe rm n x k.
Proof.
  intros Hn Hx H2. destruct rm; cbn; auto.
  destruct (Z_le_gt_dec k 0); [lia|]. destruct (Z_lt_ge_dec (n - 1) k); [lia|]. right; right.
  assert (2 ^ (k - 1) <= 2 ^ (n - 2)) by (apply pow2_le; lia).
  pose proof (pow2_succ (n - 1) ltac:(lia)). replace (n - 1 - 1) with (n - 2) in * by lia. unfold smax. lia.
Qed.

(** The offset maps the input zero point onto the output zero point, up to half a unit, unless the scaled zero
    point leaves 16 bits. *)
Theorem requant_zero_point rm i o : qpar_ok i -> qpar_ok o ->
  let r := define_requant_params rm i o in
  let scaled_zp := fxval (rq_shift r) (rq_scale r * q_zp i) in
  (Qabs scaled_zp <= 32000 # 1)%Q ->
  within (1 # 2) (scaled_zp + inject_Z (rq_offset r)) (inject_Z (q_zp o)).
Proof.
  intros Hi Ho r z Hz. destruct (requant_ratio rm i o Hi Ho) as [R1 _]. fold r in R1.
  destruct (requant_eq rm i o Hi Ho) as (_ & _ & E3). fold r in E3.
  destruct Hi as (_ & _ & Zi). destruct Ho as (_ & _ & Zo).
  apply (proj1 (ib8 _)) in Zi. apply (proj1 (ib8 _)) in Zo.
  set (sc := rq_scale r) in *. set (k := rq_shift r) in *. set (x := sc * q_zp i) in *.
  change (2^15) with 32768 in *. change (2^14) with 16384 in *.
  assert (Hx : Z.abs x <= 32767 * 128) by (unfold x; clear - R1 Zi; nia).
  assert (Bx : in_bits 32 x) by (apply ib32; lia).
  assert (W : within (1 # 2) z (inject_Z (asr_rnd_fx rm 32 x k))).
  { apply asr_rnd_within; auto; try lia.
    - apply small_rnd_safe; try lia; change (2 ^ (32 - 2)) with 1073741824; lia.
    - intros Hk. unfold z in Hz. rewrite fxval_neg in Hz by lia. change (32000 # 1) with (inject_Z 32000) in Hz.
      apply Qabs_inj_le in Hz. apply ib32. lia. }
  set (v := asr_rnd_fx rm 32 x k) in *.
  assert (Hv : Z.abs v <= 32001).
  { apply Qabs_inj_le. eapply within_bound; [exact W|exact Hz|]. change (inject_Z 32001) with (32001 # 1). lra. }
  assert (E : rq_offset r = q_zp o - v).
  { rewrite E3. rewrite cast_narrow_spec by (auto; lia). fold v. rewrite (sat_id 16 v) by (apply ib16; lia).
    rewrite sub_fx_spec by (try apply ib16; lia). apply sat_id. apply ib16. lia. }
  rewrite E. unfold within in *. rewrite <- Z.add_opp_r, inject_Z_plus, inject_Z_opp.
  setoid_replace (z + (inject_Z (q_zp o) + - inject_Z v) - inject_Z (q_zp o))%Q with (z - inject_Z v)%Q by ring. exact W.
Qed.

Example requant_ex : define_requant_params RM_UP (mkQ 20000 18 5) (mkQ 30000 17 (-3))
  = mkRequant 21845 16 (-5) /\ qpar_ok (mkQ 20000 18 5).
Proof. split; [vm_compute; reflexivity|]. unfold qpar_ok, in_bits, smin, smax. cbn. lia. Qed.

(** * C09: limits of the fused ReLU *)

(** The range of real values an activation may produce. *)
Definition relu_range (t : relu_type) (x : Q) : Prop :=
  match t with
  | RELU_NONE => True
  | RELU_GEN => (0 <= x)%Q
  | RELU_1 => (- 1 <= x)%Q /\ (x <= 1)%Q
  | RELU_6 => (0 <= x)%Q /\ (x <= 6)%Q
  end.

(** Fractional bits for which the limits are computed without the fallback for very small scales. *)
Definition relu_frac_ok (t : relu_type) (o : qpar) : Prop :=
  match t with RELU_1 => q_frac o < 30 | RELU_6 => q_frac o < 28 \/ 0 <= q_zp o | _ => True end.

Lemma le_div_iff a b c : 0 < c -> (a <= b / c <-> a * c <= b).
Proof. intros. split; intros; nia. Qed.

(** The real value is at least / at most an integer bound, in integers. *)
Lemma saval_ge0 scale f zp v : 0 < scale -> (0 <= saval scale f zp v)%Q <-> zp <= v.
Proof.
  intros Hs. unfold saval. change 0%Q with (inject_Z 0). rewrite scaled_ge.
  pose proof (pow2_gt0 (Z.max 0 (- f)) ltac:(lia)) as HP. set (P := 2 ^ Z.max 0 (- f)) in *. rewrite Z.mul_0_l.
  split; intros G.
  - destruct (Z_le_gt_dec zp v); [auto|]. assert ((v - zp) * scale < 0) by nia. nia.
  - apply Z.mul_nonneg_nonneg; [apply Z.mul_nonneg_nonneg|]; lia.
Qed.

(** Largest grid distance from the zero point that represents at most [b]. *)
Definition grid_max (scale f b : Z) : Z := (b * 2 ^ Z.max 0 f) / (2 ^ Z.max 0 (- f)) / scale.

Lemma saval_le scale f zp v b : 0 < scale ->
  (saval scale f zp v <= inject_Z b)%Q <-> v - zp <= grid_max scale f b.
Proof.
  intros Hs. unfold saval, grid_max. rewrite scaled_le.
  rewrite (le_div_iff _ _ scale) by lia. rewrite le_div_iff by (apply pow2_gt0; lia). reflexivity.
Qed.

Lemma saval_ge_neg scale f zp v b : 0 < scale ->
  (- inject_Z b <= saval scale f zp v)%Q <-> zp - v <= grid_max scale f b.
Proof.
  intros Hs. unfold saval, grid_max. rewrite <- inject_Z_opp, scaled_ge.
  rewrite (le_div_iff _ _ scale) by lia. rewrite le_div_iff by (apply pow2_gt0; lia).
  set (P := 2 ^ Z.max 0 f). set (R := 2 ^ Z.max 0 (- f)).
  replace ((zp - v) * scale * R) with (- ((v - zp) * scale * R)) by ring.
  rewrite Z.mul_opp_l. set (A := (v - zp) * scale * R). set (B := b * P). clearbody A B. lia.
Qed.

Lemma relu_one_eq n scale f : 0 < scale <= 32767 -> f < 30 ->
  let one := if f >=? 0 then if f <? 30 then Z.shiftl 1 f ÷ scale else smax n else 0 in
  one = grid_max scale f 1 /\ 0 <= one <= 536870912.
Proof.
  intros Hs Hf one. unfold one, grid_max. rewrite Z.mul_1_l. rewrite Z.geb_leb. destruct (Z.leb_spec 0 f).
  - destruct (Z.ltb_spec f 30); [|lia].
    replace (Z.max 0 f) with f by lia. replace (Z.max 0 (- f)) with 0 by lia.
    rewrite Z.shiftl_1_l, Z.pow_0_r, Z.div_1_r.
    assert (0 < 2 ^ f <= 2 ^ 29) by (split; [apply pow2_gt0; lia|apply pow2_le; lia]).
    change (2 ^ 29) with 536870912 in *.
    rewrite Z.quot_div_nonneg by lia. split; [reflexivity|]. split; [apply Z.div_pos; lia|]. apply Z.div_le_upper_bound; nia.
  - replace (Z.max 0 f) with 0 by lia. replace (Z.max 0 (- f)) with (- f) by lia. rewrite Z.pow_0_r.
    rewrite (Z.div_small 1), Z.div_0_l; [lia|lia|]. split; [lia|]. apply Z.pow_gt_1; lia.
Qed.

Lemma relu_six_eq m scale f : 0 < scale <= 32767 -> 0 <= m <= 32767 ->
  let six := if f >=? 0 then if f <? 28 then Z.shiftl 6 f ÷ scale else m
             else if f >? -3 then Z.shiftr 6 (- f) ÷ scale else 0 in
  (f < 28 -> six = grid_max scale f 6) /\ (28 <= f -> six = m /\ m <= grid_max scale f 6) /\ 0 <= six <= 805306368.
Proof.
  intros Hs Hm six. unfold six, grid_max. rewrite Z.geb_leb. destruct (Z.leb_spec 0 f).
  - replace (Z.max 0 f) with f by lia. replace (Z.max 0 (- f)) with 0 by lia. rewrite Z.pow_0_r, Z.div_1_r.
    destruct (Z.ltb_spec f 28).
    + rewrite Z.shiftl_mul_pow2 by lia.
      assert (0 < 2 ^ f <= 2 ^ 27) by (split; [apply pow2_gt0; lia|apply pow2_le; lia]). change (2 ^ 27) with 134217728 in *.
      rewrite Z.quot_div_nonneg by lia. split; [reflexivity|]. split; [lia|]. split; [apply Z.div_pos; lia|]. apply Z.div_le_upper_bound; nia.
    + split; [lia|]. split; [|lia]. intros _. split; [reflexivity|].
      apply Z.div_le_lower_bound; [lia|]. pose proof (pow2_le 28 f ltac:(lia) ltac:(lia)) as P.
      change (2 ^ 28) with 268435456 in P. nia.
  - replace (Z.max 0 f) with 0 by lia. replace (Z.max 0 (- f)) with (- f) by lia. rewrite Z.pow_0_r.
    rewrite Z.gtb_ltb. destruct (Z.ltb_spec (-3) f).
    + rewrite shiftr_div by lia. pose proof (pow2_gt0 (- f) ltac:(lia)).
      assert (0 <= 6 / 2 ^ (- f)) by (apply Z.div_pos; lia).
      assert (6 / 2 ^ (- f) <= 6) by (apply Z.div_le_upper_bound; nia).
      rewrite Z.quot_div_nonneg by lia. split; [reflexivity|]. split; [lia|]. split; [apply Z.div_pos; lia|]. apply Z.div_le_upper_bound; nia.
    + assert (P : 2 ^ 3 <= 2 ^ (- f)) by (apply pow2_le; lia). change (2 ^ 3) with 8 in P.
      rewrite (Z.div_small (6 * 1)), Z.div_0_l by lia. split; [reflexivity|]. split; lia.
Qed.

(** A stored value passes the clip unchanged exactly when the real number it represents lies in the activation
    range: the limits are neither too loose nor too tight. *)
Theorem relu_limits_exact n t o v : (n = 8 \/ n = 16) -> 0 < q_scale o <= 32767 -> in_bits 8 (q_frac o) -> in_bits n (q_zp o) ->
  relu_frac_ok t o -> in_bits n v ->
  let '(lo, hi) := get_relu_limits n t o in
  in_bits n lo /\ in_bits n hi /\ lo <= hi
  /\ (lo <= v <= hi <-> relu_range t (saval (q_scale o) (q_frac o) (q_zp o) v)).
Proof.
  intros Hn Hs Hf Hz Hok Hv. clear Hf.
  destruct o as [scale f zp]; cbn [q_scale q_frac q_zp] in *.
  assert (Bn : smin n = - (smax n + 1) /\ 127 <= smax n <= 32767).
  { destruct Hn; subst; [change (smin 8) with (-128); change (smax 8) with 127|
      change (smin 16) with (-32768); change (smax 16) with 32767]; lia. }
  destruct Bn as [Bmin Bmax].
  assert (W16 : forall x, smin n <= x <= smax n -> wrap 16 x = x).
  { intros. apply wrap_id; [lia|]. apply ib16. lia. }
  assert (W32 : forall x, -2147483648 <= x <= 2147483647 -> wrap 32 x = x).
  { intros. apply wrap_id; [lia|]. now apply ib32. }
  unfold in_bits in Hz, Hv. unfold in_bits.
  destruct t; cbn [get_relu_limits relu_range relu_frac_ok q_scale q_frac q_zp] in *.
  - rewrite !W16 by lia. lia.
  - rewrite !W16 by lia. rewrite saval_ge0 by lia. lia.
  - change (-1 # 1)%Q with (- inject_Z 1)%Q. change 1%Q with (inject_Z 1). rewrite saval_ge_neg, saval_le by lia.
    destruct (relu_one_eq n scale f Hs Hok) as [E B].
    set (one := if f >=? 0 then if f <? 30 then Z.shiftl 1 f ÷ scale else smax n else 0) in *. clearbody one.
    rewrite <- E. rewrite !W32 by lia. rewrite !W16 by lia. lia.
  - change 6%Q with (inject_Z 6). rewrite saval_ge0, saval_le by lia.
    destruct (relu_six_eq (smax n) scale f Hs ltac:(lia)) as (E1 & E2 & B).
    set (six := if f >=? 0 then if f <? 28 then Z.shiftl 6 f ÷ scale else smax n else if f >? -3 then Z.shiftr 6 (- f) ÷ scale else 0) in *.
    clearbody six. set (G := grid_max scale f 6) in *. clearbody G.
    rewrite !W32 by lia. rewrite !W16 by lia. lia.
Qed.

(** Fused activation: the stored value is in the activation range, and is the cast value itself whenever that one
    already was. *)
Theorem relu_clip_spec n t o v : (n = 8 \/ n = 16) -> 0 < q_scale o <= 32767 -> in_bits 8 (q_frac o) -> in_bits n (q_zp o) ->
  relu_frac_ok t o -> in_bits n v ->
  let '(lo, hi) := get_relu_limits n t o in
  let real := saval (q_scale o) (q_frac o) (q_zp o) in
  in_bits n (relu_clip v lo hi)
  /\ relu_range t (real (relu_clip v lo hi))
  /\ (relu_range t (real v) -> relu_clip v lo hi = v)
  /\ relu_clip v lo hi = clamp lo hi v.
Proof.
  intros Hn Hs Hf Hz Hok Hv.
  pose proof (fun w => relu_limits_exact n t o w Hn Hs Hf Hz Hok) as L.
  pose proof (L v Hv) as Lv. destruct (get_relu_limits n t o) as [lo hi].
  destruct Lv as (B1 & B2 & B3 & Iff). cbv zeta.
  assert (E : relu_clip v lo hi = clamp lo hi v) by (unfold relu_clip, max_fx, min_fx, clamp; destruct (Z.ltb_spec v hi); rewrite Z.gtb_ltb; match goal with |- context [?a <? ?b] => destruct (Z.ltb_spec a b) end; lia).
  rewrite E. assert (lo <= clamp lo hi v <= hi) by (apply clamp_bounds; lia).
  assert (Bc : in_bits n (clamp lo hi v)) by (unfold in_bits in *; lia).
  split; [exact Bc|]. split.
  - destruct (L _ Bc) as (_ & _ & _ & I). now apply I.
  - split; [|reflexivity]. intros R. apply Iff in R. apply clamp_id. exact R.
Qed.

Example relu_ex : get_relu_limits 8 RELU_6 (mkQ 24000 18 (-128)) = (-128, -63)
  /\ get_relu_limits 16 RELU_1 (mkQ 1 13 0) = (-8192, 8192) /\ get_relu_limits 8 RELU_6 (mkQ 1 (-2) 0) = (0, 1)
  /\ relu_frac_ok RELU_6 (mkQ 24000 18 (-128)).
Proof. vm_compute. auto. Qed.

(** With 28 or more fractional bits and a negative zero point the ReLU6 limit is too tight: values representing
    reals inside [0, 6] are clipped. *)
Theorem relu6_small_scale_refuted : exists o v, 0 < q_scale o <= 32767 /\ in_bits 8 (q_frac o) /\ in_bits 8 (q_zp o) /\ in_bits 8 v
  /\ relu_range RELU_6 (saval (q_scale o) (q_frac o) (q_zp o) v)
  /\ relu_clip v (fst (get_relu_limits 8 RELU_6 o)) (snd (get_relu_limits 8 RELU_6 o)) <> v.
Proof.
  exists (mkQ 20000 28 (-100)), 100. cbn [q_scale q_frac q_zp]. rewrite !ib8.
  split; [lia|]. split; [lia|]. split; [lia|]. split; [lia|]. split.
  - split; vm_compute; discriminate.
  - vm_compute. discriminate.
Qed.

(** With 30 or more fractional bits the ReLU1 limits exclude the most negative value although it represents a real
    inside [-1, 1]. *)
Theorem relu1_small_scale_refuted : exists o v, 0 < q_scale o <= 32767 /\ in_bits 8 (q_frac o) /\ q_zp o = 0 /\ in_bits 8 v
  /\ relu_range RELU_1 (saval (q_scale o) (q_frac o) (q_zp o) v)
  /\ relu_clip v (fst (get_relu_limits 8 RELU_1 o)) (snd (get_relu_limits 8 RELU_1 o)) <> v.
Proof.
  exists (mkQ 1 30 0), (-128). cbn [q_scale q_frac q_zp]. rewrite !ib8.
  split; [lia|]. split; [lia|]. split; [lia|]. split; [lia|]. split.
  - split; vm_compute; discriminate.
  - vm_compute. discriminate.
Qed.

(** For a 32-bit output type the limits are truncated to 16 bits and are useless. *)
Theorem relu_limits_32_refuted : get_relu_limits 32 RELU_NONE (mkQ 1 0 0) = (0, -1).
Proof. vm_compute. reflexivity. Qed.

(** * C05: bias of FX kernels *)

(** A bias with [fb] fractional bits expressed with [fa] fractional bits: exact if that adds fractional bits, rounded
    to nearest otherwise. *)
Definition align_bias (rm : rmode) (fa fb bias : Z) : Z :=
  if fb <=? fa then bias * 2 ^ (fa - fb) else rnd rm bias (fb - fa).

Lemma align_bias_real rm fa fb bias :
  (fb <= fa -> (fxval fa (align_bias rm fa fb bias) == fxval fb bias)%Q)
  /\ within ((1 # 2) * pow2q (- fa)) (fxval fa (align_bias rm fa fb bias)) (fxval fb bias).
Proof.
  assert (A : (fb <= fa -> (fxval fa (align_bias rm fa fb bias) == fxval fb bias)%Q)).
  { intros H. unfold align_bias, fxval. destruct (Z.leb_spec fb fa); [|lia].
    rewrite inject_Z_mult, <- pow2q_nonneg by lia. rewrite <- Qmult_assoc, <- pow2q_plus.
    replace (fa - fb + - fa) with (- fb) by lia. reflexivity. }
  split; [exact A|]. destruct (Z_le_gt_dec fb fa) as [H|H].
  - unfold within. rewrite (A H). setoid_replace (fxval fb bias - fxval fb bias)%Q with 0%Q by ring.
    change (Qabs 0) with 0%Q. pose proof (pow2q_pos (- fa)). lra.
  - unfold align_bias. destruct (Z.leb_spec fb fa); [lia|].
    pose proof (nearest_within rm bias (fb - fa) _ ltac:(lia) (rnd_nearest rm bias (fb - fa) ltac:(lia))) as W.
    apply (within_scale _ _ _ (pow2q (- fa))) in W; [|apply Qlt_le_weak, pow2q_pos].
    unfold within in *. rewrite Qabs_Qminus. revert W. apply within_compat; try reflexivity.
    unfold fxval. rewrite <- Qmult_assoc, <- pow2q_plus. replace (- (fb - fa) + - fa) with (- fb) by lia. reflexivity.
Qed.

Lemma asr_rnd_align rm n fa fb bias : 4 <= n -> Z.abs bias <= 2 ^ (n - 2) - 1 ->
  asr_rnd_fx rm n bias (- (fa - fb)) = sat n (align_bias rm fa fb bias).
Proof.
  intros Hn Hb. pose proof (pow2_succ (n - 1) ltac:(lia)) as P. replace (n - 1 - 1) with (n - 2) in P by lia.
  assert (Bb : in_bits n bias) by (apply in_bits_unfold; lia).
  rewrite asr_rnd_fx_spec; [|lia|exact Bb|apply small_rnd_safe; lia].
  unfold rshift_spec, align_bias. destruct (Z.leb_spec fb fa).
  - destruct (Z.leb_spec 0 (- (fa - fb))).
    + assert (E : fa - fb = 0) by lia. rewrite E. change (- 0) with 0. rewrite rnd_0. rewrite Z.pow_0_r, Z.mul_1_r.
      symmetry. now apply sat_id.
    + replace (- - (fa - fb)) with (fa - fb) by lia. reflexivity.
  - destruct (Z.leb_spec 0 (- (fa - fb))); [|lia]. replace (- (fa - fb)) with (fb - fa) by lia.
    symmetry. apply sat_id. pose proof (rnd_bounds rm n bias (fb - fa) ltac:(lia) Bb ltac:(lia)).
    apply in_bits_unfold. pose proof (pow2_gt0 (n - 2) ltac:(lia)). lia.
Qed.

(** 8-bit bias, 32-bit accumulator: the bias is aligned to the fraction of the accumulator and added, clamping only
    to the accumulator. *)
Theorem bias_fx8_spec rm fin fw fb fout bias acc : in_bits 8 bias -> in_bits 32 acc ->
  bias_additive_fx8 rm bias acc (define_fx_params fin fw fb fout)
  = sat 32 (acc + sat 32 (align_bias rm (fin + fw) fb bias)).
Proof.
  intros Hb Ha. unfold bias_additive_fx8, define_fx_params. cbn [fx_bias_shift]. rewrite Z.mul_1_r.
  apply (proj1 (ib8 _)) in Hb.
  rewrite (asr_rnd_align rm 32 (fin + fw) fb bias) by (change (2^(32-2)) with 1073741824; lia).
  apply add_fx_spec; [lia|auto|]. apply sat_in_bits; lia.
Qed.

(** 16-bit bias, 64-bit accumulator: the same, provided the aligned bias fits into 32 bits. *)
Theorem bias_fx16_spec rm fin fw fb fout bias acc : in_bits 16 bias -> in_bits 64 acc ->
  in_bits 32 (align_bias rm (fin + fw) fb bias) ->
  bias_additive_fx16 rm bias acc (define_fx_params fin fw fb fout)
  = sat 64 (acc + align_bias rm (fin + fw) fb bias).
Proof.
  intros Hb Ha Hal. unfold bias_additive_fx16, define_fx_params. cbn [fx_bias_shift].
  pose proof (proj1 (ib16 _) Hb).
  assert (E : asr_rnd_fx rm 64 bias (- (fin + fw - fb)) = align_bias rm (fin + fw) fb bias).
  { rewrite (asr_rnd_align rm 64 (fin + fw) fb bias) by (change (2^(64-2)) with 4611686018427387904; lia).
    apply sat_id. revert Hal. apply in_bits_mono; lia. }
  rewrite cast_16_acc40_spec; rewrite ?E; auto.
  apply add_fx_spec; [lia|auto|]. revert Hal. apply in_bits_mono; lia.
Qed.

(** The aligned bias fits whenever it gains at most 16 fractional bits. *)
Corollary bias_fx16_shift_ok rm fin fw fb bias : in_bits 16 bias -> fin + fw - fb <= 16 ->
  in_bits 32 (align_bias rm (fin + fw) fb bias).
Proof.
  intros Hb Hs. unfold align_bias. pose proof (proj1 (ib16 _) Hb) as B. destruct (Z.leb_spec fb (fin + fw)).
  - assert (P : 1 <= 2 ^ (fin + fw - fb) <= 2 ^ 16) by (split; [apply pow2_ge1; lia|apply pow2_le; lia]).
    change (2 ^ 16) with 65536 in P. apply ib32. nia.
  - pose proof (rnd_bounds rm 16 bias (fb - (fin + fw)) ltac:(lia) Hb ltac:(lia)) as R.
    change (2 ^ (16 - 1)) with 32768 in R. apply ib32. lia.
Qed.

(** Beyond that the aligned bias is truncated to 32 bits although the accumulator has 40 (here 64). *)
Theorem bias_fx16_refuted : exists bias acc fin fw fb fout, in_bits 16 bias /\ in_bits 40 acc
  /\ in_bits 40 (acc + align_bias RM_CONV (fin + fw) fb bias)
  /\ bias_additive_fx16 RM_CONV bias acc (define_fx_params fin fw fb fout) <> acc + align_bias RM_CONV (fin + fw) fb bias.
Proof.
  exists 256, 0, 15, 15, 6, 15. split; [apply ib16; lia|]. split; [apply in_bits_unfold; change (2^(40-1)) with 549755813888; lia|].
  split; [apply in_bits_unfold; vm_compute; split; discriminate|]. vm_compute. discriminate.
Qed.

Example bias_ex : bias_additive_fx8 RM_UP (-3) 100 (define_fx_params 7 7 7 7) = 100 - 3 * 128
  /\ bias_additive_fx16 RM_UP 5 1000 (define_fx_params 3 2 7 7) = 1001.
Proof. vm_compute. auto. Qed.

(** * C53: bias of SA8 kernels *)

(** Full accumulator: the 32-bit bias is added exactly. *)
Theorem bias_s8_full rm bias acc : in_bits 32 bias -> in_bits 32 acc ->
  bias_additive_s8 rm true bias acc = sat 32 (acc + bias).
Proof.
  intros Hb Ha. unfold bias_additive_s8. rewrite cast_same_spec by (auto; lia).
  unfold asr_rnd_fx. cbn [Z.ltb Z.compare Z.eqb]. apply add_fx_spec; auto; lia.
Qed.

(** Reduced accumulator: the bias is rounded down to 15 or 16 significant bits before it is added. *)
Theorem bias_s8_reduced rm bias acc : in_bits 32 bias -> in_bits 32 acc ->
  exists b, bias_additive_s8 rm false bias acc = sat 32 (acc + b)
    /\ 0 <= bias - b /\ (bias - b) * 2 ^ 14 <= Z.abs bias /\ (in_bits 16 bias -> b = bias).
Proof.
  intros Hb Ha. unfold bias_additive_s8.
  assert (Hn : 0 <= norm_fx 32 bias <= 31) by (apply (norm_fx_range 32); auto; lia).
  set (s := max_fx (16 - norm_fx 32 bias) 0).
  assert (Es : s = Z.max (16 - norm_fx 32 bias) 0) by (unfold s, max_fx; rewrite Z.gtb_ltb; destruct (Z.ltb_spec 0 (16 - norm_fx 32 bias)); lia).
  clearbody s. rewrite shiftr_div by lia.
  pose proof (pow2_gt0 s ltac:(lia)) as P.
  pose proof (Z.div_mod bias (2 ^ s) ltac:(lia)) as D. pose proof (Z.mod_pos_bound bias (2 ^ s) ltac:(lia)) as M.
  pose proof (proj1 (ib32 _) Hb) as Hb'.
  assert (B1 : in_bits 32 (bias / 2 ^ s)).
  { apply ib32. split; [apply Z.div_le_lower_bound|apply Z.div_le_upper_bound]; nia. }
  assert (B2 : in_bits 32 (bias / 2 ^ s * 2 ^ s)).
  { apply ib32. split; [|nia].
    assert (C : exists c, 2147483648 = c * 2 ^ s).
    { exists (2 ^ (31 - s)). rewrite <- pow2_split by lia. replace (31 - s + s) with 31 by lia. reflexivity. }
    destruct C as [c C]. assert (- c <= bias / 2 ^ s) by (apply Z.div_le_lower_bound; lia). nia. }
  exists (bias / 2 ^ s * 2 ^ s). split; [|split; [|split]].
  - rewrite asl_fx_pos by (auto; lia). rewrite sat_id by auto. rewrite cast_same_spec by (auto; lia).
    unfold asr_rnd_fx. cbn [Z.ltb Z.compare Z.eqb]. apply add_fx_spec; auto; lia.
  - lia.
  - destruct (Z.eq_dec bias 0) as [->|Hne].
    { rewrite Z.div_0_l by lia. lia. }
    destruct (norm_fx_spec 32 bias ltac:(lia) Hb Hne) as (_ & _ & N).
    set (k := norm_fx 32 bias) in *.
    destruct (Z_le_gt_dec (16 - k) 0).
    { assert (s = 0) by lia. subst s. rewrite H, Z.pow_0_r, Z.div_1_r. lia. }
    assert (s = 16 - k) by lia.
    assert (PK : 2 ^ (k + 1) * 2 ^ s = 2 ^ 17) by (rewrite <- pow2_split by lia; f_equal; lia).
    assert (A : 2 ^ 14 * 2 ^ s <= Z.abs bias).
    { destruct (Z_le_gt_dec (2 ^ 14 * 2 ^ s) (Z.abs bias)); [auto|]. exfalso. apply N. apply ib32.
      set (u := 2 ^ (k + 1)) in *. set (v := 2 ^ s) in *. change (2 ^ 17) with 131072 in PK. change (2 ^ 14) with 16384 in *.
      assert (0 < u) by (unfold u; apply pow2_gt0; lia).
      assert (Z.abs bias * u < 2147483648) by nia. clear - H1 H0. split; nia. }
    change (2 ^ 14) with 16384 in *. nia.
  - intros H16. pose proof (proj1 (ib16 _) H16) as H16'. destruct (Z.eq_dec bias 0) as [->|Hne].
    { now rewrite Z.div_0_l by lia. }
    destruct (norm_fx_spec 32 bias ltac:(lia) Hb Hne) as (_ & _ & N).
    set (k := norm_fx 32 bias) in *.
    assert (16 <= k).
    { destruct (Z_le_gt_dec 16 k); [auto|]. exfalso. apply N. apply ib32.
      assert (1 <= 2 ^ (k + 1) <= 2 ^ 16) by (split; [apply pow2_ge1; lia|apply pow2_le; lia]).
      change (2 ^ 16) with 65536 in *. nia. }
    assert (s = 0) by lia. subst s. rewrite H0, Z.pow_0_r, Z.div_1_r. lia.
Qed.

Example bias_s8_ex : bias_additive_s8 RM_UP true 100001 5 = 100006 /\ bias_additive_s8 RM_UP false 100001 5 = 100005.
Proof. vm_compute. auto. Qed.
