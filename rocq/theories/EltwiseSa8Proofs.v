(** Accuracy of the SA8 element-wise kernels (property C60). *)
From Coq Require Import ZArith QArith Qabs Qpower Qminmax List Lia Lqa Bool.
From Verif Require Import Base FxMath FxMathProofs Tensor TensorProofs Mov MovProofs PermuteProofs ArgMax ArgMaxProofs QSpec Quant QuantProofs QuantCastProofs DotProd DotProdProofs PoolKernels FullyConnProofs Eltwise EltwiseProofs.
Import ListNotations.
Open Scope Z_scope.

(** * Specification *)

(** The real operation. *)
Definition elt_real (op : elt_op) (u v : Q) : Q :=
  match op with ELT_ADD => u + v | ELT_SUB => u - v | ELT_MUL => u * v | ELT_MAX => Qmax u v | ELT_MIN => Qmin u v end%Q.

(** The real number that an element [a] with parameters [q] stands for. *)
Definition sa_real (q : qpar) (a : Z) : Q := saval (q_scale q) (q_frac q) (q_zp q) a.

(** The error of the kernel in units of the output: half a unit for a single rounding (and a small error of the factor), one unit
    for the two roundings of add and sub, whose factor errors are relative to the operands. *)
Definition elt_bound (op : elt_op) (u v so : Q) : Q :=
  match op with
  | ELT_ADD | ELT_SUB => 1 + (1 + Qabs (u / so) + Qabs (v / so)) * (1 # 16384)
  | _ => (1 # 2) + (3 # 64)
  end.

(** Scales for which one step of an operand (of the product of two operands) is at most 2^22 output steps. *)
Definition elt_scales (op : elt_op) (i1 i2 o : qpar) : Prop :=
  let rs q := real_scale (q_scale q) (q_frac q) in
  match op with
  | ELT_MUL => rs i1 * rs i2 / rs o <= inject_Z (2 ^ 22)
  | _ => rs i1 / rs o <= inject_Z (2 ^ 22) /\ rs i2 / rs o <= inject_Z (2 ^ 22)
  end%Q.

(** * The factor *)

Lemma elt_factor rm s so sh lim : 0 < s < 2 ^ 31 -> 0 < so <= 32767 ->
  let ratio := (inject_Z s / inject_Z so * pow2q (- sh))%Q in
  exists f0 sh0, 2 ^ 14 <= f0 <= 32767 /\ within (ratio * (1 # 16384)) (fxval sh0 f0) ratio
    /\ elt_scale rm s so sh lim =
       (let d := Z.max (sh0 - lim) 0 + Z.min (31 + sh0) 0 in (asr_rnd_fx rm 16 f0 d, sh0 - d)).
Proof.
  intros Hi Ho ratio.
  assert (Bi : in_bits 32 s) by (apply ib32; change (2^31) with 2147483648 in *; lia).
  destruct (norm_fx_pos 32 _ ltac:(lia) Bi ltac:(lia)) as [A1 A2].
  pose proof (norm_fx_range 32 _ ltac:(lia) Bi) as A3.
  set (a := norm_fx 32 s) in *. change (32 - 2) with 30 in *. change (32 - 1) with 31 in *.
  assert (En : cast_same rm 32 s (0 - a) = s * 2 ^ a).
  { rewrite cast_same_spec by (auto; lia).
    assert (B : in_bits 32 (s * 2 ^ a)).
    { apply ib32. change (2^30) with 1073741824 in *. change (2^31) with 2147483648 in *. lia. }
    destruct (Z.eq_dec a 0) as [->|]; [rewrite Z.pow_0_r, Z.mul_1_r; reflexivity|].
    unfold asr_rnd_fx. destruct (Z.ltb_spec (0 - a) 0); [|lia].
    rewrite asl_fx_pos by (auto; lia). replace (- (0 - a)) with a by lia. now apply sat_id. }
  set (u := Z.quot (s * 2 ^ a) so).
  exists (cast_narrow rm 32 16 u (16 - norm_fx 32 u)), (sh - (0 - a) - (16 - norm_fx 32 u)).
  assert (Q : u = s * 2 ^ a / so) by (unfold u; apply Z.quot_div_nonneg; lia).
  pose proof (Z.div_mod (s * 2 ^ a) so ltac:(lia)) as D.
  pose proof (Z.mod_pos_bound (s * 2 ^ a) so ltac:(lia)) as M. rewrite <- Q in D.
  assert (EE : forall d, elt_scale rm s so sh d = (let '(f, n2) := norm_cast_fx rm 32 16 u in
      let sh := sh - (0 - a) - n2 in let d := Z.max (sh - d) 0 + Z.min (31 + sh) 0 in (asr_rnd_fx rm 16 f d, sh - d))).
  { intros d. unfold elt_scale. assert (N1 : norm_cast_fx rm 32 32 s = (s * 2 ^ a, 0 - a)).
    { unfold norm_cast_fx. change (32 <? 32) with false. cbv iota zeta. change (32 - 32) with 0. fold a. rewrite En. reflexivity. }
    rewrite N1. reflexivity. }
  rewrite EE. clear EE En.
  set (N := s * 2 ^ a) in *. change (2^30) with 1073741824 in *. change (2^31) with 2147483648 in *.
  assert (D1 : u * so <= N < (u + 1) * so) by lia.
  assert (R : 32768 <= u < 2147483648) by (clear - D1 A1 Ho; nia).
  assert (Bu : in_bits 32 u) by (apply ib32; lia).
  destruct (norm_to_16 rm u ltac:(lia) Bu) as (F1 & F2 & F3 & _).
  assert (K : norm_fx 32 u <= 15).
  { destruct (norm_fx_pos 32 u ltac:(lia) Bu ltac:(lia)) as [C1 C2]. change (32 - 1) with 31 in *.
    destruct (Z_le_gt_dec (norm_fx 32 u) 15); [lia|]. exfalso.
    assert (2 ^ 16 <= 2 ^ norm_fx 32 u) by (apply pow2_le; lia).
    change (2^16) with 65536 in *. change (2^31) with 2147483648 in *. nia. }
  unfold norm_cast_fx. change (16 <? 32) with true. cbv iota zeta. change (32 - 16) with 16.
  set (e := 16 - norm_fx 32 u) in *. specialize (F3 ltac:(lia)). split; [exact F2|].
  split; [|reflexivity].
  set (sc := cast_narrow rm 32 16 u e) in *.
  assert (I : Z.abs (sc * 2 ^ e * so - N) * 16384 <= N).
  { change (2 ^ 15) with 32768 in *. apply (ratio_int (sc * 2 ^ e) so N u); lia. }
  apply within_ratio in I; [|lia|lia].
  apply (within_scale _ _ _ (pow2q (- sh - a))) in I; [|apply Qlt_le_weak, pow2q_pos].
  assert (HD' : (0 < inject_Z so)%Q) by (change 0%Q with (inject_Z 0); apply inj_lt; lia).
  assert (RR : (inject_Z N / inject_Z so * pow2q (- sh - a) == ratio)%Q).
  { unfold ratio, N. rewrite inject_Z_mult, <- pow2q_nonneg by lia.
    replace (- sh - a) with (- sh + - a) by lia. rewrite pow2q_plus. rewrite (pow2q_inv a).
    pose proof (pow2q_pos a). field. repeat split; lra. }
  revert I. apply within_compat.
  - setoid_replace (inject_Z N / inject_Z so / inject_Z 16384 * pow2q (- sh - a))%Q
      with (inject_Z N / inject_Z so * pow2q (- sh - a) * (1 # 16384))%Q
      by (change (1 # 16384) with (/ inject_Z 16384)%Q; field; lra).
    rewrite RR. reflexivity.
  - unfold fxval. rewrite inject_Z_mult, <- pow2q_nonneg, <- Qmult_assoc, <- pow2q_plus by lia.
    replace (e + (- sh - a)) with (- (sh - (0 - a) - e)) by lia. reflexivity.
  - exact RR.
Qed.

Lemma inj_pos a : 0 < a -> (0 < inject_Z a)%Q.
Proof. intros. change 0%Q with (inject_Z 0). now apply inj_lt. Qed.

Lemma pow2q_mono a b : a <= b -> (pow2q a <= pow2q b)%Q.
Proof.
  intros H. replace b with (a + (b - a)) by lia. rewrite pow2q_plus. rewrite (pow2q_nonneg (b - a)) by lia.
  pose proof (pow2q_pos a). assert (1 <= inject_Z (2 ^ (b - a)))%Q.
  { change 1%Q with (inject_Z 1). apply inj_le. pose proof (pow2_gt0 (b - a) ltac:(lia)). lia. }
  nra.
Qed.

(** The limited factor and shift. *)
Lemma elt_factor_ok rm s so sh lim : 0 < s < 2 ^ 31 -> 0 < so <= 32767 -> 0 <= lim ->
  let ratio := (inject_Z s / inject_Z so * pow2q (- sh))%Q in
  (ratio <= inject_Z (2 ^ 22))%Q ->
  exists f k g, elt_scale rm s so sh lim = (f, k) /\ -8 <= k <= lim /\ 0 <= f <= 32767 /\ (k < lim -> 2 ^ 14 <= f)
    /\ within (pow2q (- lim)) (fxval k f) g /\ within (ratio * (1 # 16384)) g ratio.
Proof.
  intros Hs Ho Hl ratio Hr. destruct (elt_factor rm s so sh lim Hs Ho) as (f0 & k0 & F & W & E). fold ratio in W.
  assert (P : (0 < ratio)%Q).
  { unfold ratio. apply Qmult_lt_0_compat; [|apply pow2q_pos].
    apply Qlt_shift_div_l; [apply inj_pos; lia|]. pose proof (inj_pos s ltac:(lia)). lra. }
  assert (K : -8 <= k0).
  { destruct (Z_le_gt_dec (-8) k0) as [|G]; [lia|]. exfalso.
    unfold within in W. apply Qabs_Qle_condition in W.
    assert (A : (inject_Z (2 ^ 23) <= fxval k0 f0)%Q).
    { unfold fxval. apply Qle_trans with (inject_Z f0 * pow2q 9)%Q.
      - rewrite pow2q_nonneg by lia. rewrite <- inject_Z_mult. apply inj_le. change (2^23) with (2^14 * 2^9). change (2^9) with 512. lia.
      - rewrite !(Qmult_comm (inject_Z f0)). apply Qmult_le_compat_r; [apply pow2q_mono; lia|]. apply Qlt_le_weak, inj_pos. lia. }
    change (inject_Z (2 ^ 23)) with (8388608#1)%Q in A. change (inject_Z (2 ^ 22)) with (4194304#1)%Q in Hr. lra. }
  rewrite E. cbv zeta. replace (Z.min (31 + k0) 0) with 0 by lia. rewrite Z.add_0_r.
  destruct (Z_le_gt_dec k0 lim) as [L|L].
  - replace (Z.max (k0 - lim) 0) with 0 by lia. rewrite Z.sub_0_r.
    assert (E0 : asr_rnd_fx rm 16 f0 0 = f0).
    { rewrite asr_rnd_fx_spec; [|lia|apply ib16; change (2^14) with 16384 in *; lia|destruct rm; cbn; auto; lia].
      unfold rshift_spec. cbn [Z.leb]. rewrite ?Z.leb_refl. apply rnd_0. }
    rewrite E0. exists f0, k0, (fxval k0 f0). change (2 ^ 14) with 16384 in *. split; [reflexivity|]. split; [lia|]. split; [lia|]. split; [lia|]. split; [|exact W].
    unfold within. setoid_replace (fxval k0 f0 - fxval k0 f0)%Q with 0%Q by ring. cbn. pose proof (pow2q_pos (- lim)). apply Qlt_le_weak. exact H.
  - replace (Z.max (k0 - lim) 0) with (k0 - lim) by lia. set (d := k0 - lim).
    assert (B0 : in_bits 16 f0) by (apply ib16; change (2^14) with 16384 in *; lia).
    destruct (asr_rnd_fx_total rm 16 f0 d ltac:(lia) B0) as (T1 & T2 & _). specialize (T2 ltac:(unfold d; lia)).
    set (f := asr_rnd_fx rm 16 f0 d) in *. pose proof (pow2_gt0 d ltac:(unfold d; lia)) as D0.
    assert (F0 : 0 <= f). { clear - T2 F D0. change (2^14) with 16384 in *. nia. }
    exists f, (k0 - d), (fxval k0 f0). rewrite ib16 in T1. split; [reflexivity|]. split; [unfold d; lia|]. split; [lia|]. split; [unfold d; lia|]. split; [|exact W].
    replace (k0 - d) with lim by (unfold d; lia).
    unfold within, fxval. setoid_replace (inject_Z f * pow2q (- lim) - inject_Z f0 * pow2q (- k0))%Q with (inject_Z (f * 2 ^ d - f0) * pow2q (- k0))%Q.
    2: { replace (- lim) with (d + - k0) by (unfold d; lia). rewrite pow2q_plus, (pow2q_nonneg d) by (unfold d; lia).
      unfold Z.sub. rewrite inject_Z_plus, inject_Z_mult, inject_Z_opp. ring. }
    rewrite Qabs_Qmult, (Qabs_pos (pow2q (- k0))) by (apply Qlt_le_weak, pow2q_pos).
    replace (- lim) with (d + - k0) by (unfold d; lia). rewrite pow2q_plus, (pow2q_nonneg d) by (unfold d; lia).
    apply Qmult_le_compat_r; [|apply Qlt_le_weak, pow2q_pos]. apply Qabs_inj_le. lia.
Qed.

(** * Values *)

(** The final cast: adding the zero point at 16 bits and clipping to 8 bits. *)
Lemma elt_final rm t zp : in_bits 8 zp -> cast_narrow rm 16 8 (add_fx 16 (sat 16 t) zp) 0 = sat 8 (t + zp).
Proof.
  intros Hz. pose proof (proj1 (ib8 zp) Hz) as Hz'.
  assert (B : in_bits 16 (sat 16 t)) by (apply sat_in_bits; lia).
  assert (Bz : in_bits 16 zp) by (apply ib16; lia).
  rewrite add_fx_spec by (auto; lia).
  rewrite cast_narrow_exact; [|lia|lia|apply sat_in_bits; lia|right; lia]. rewrite Z.leb_refl, rnd_0.
  unfold sat, clamp, smin, smax. change (2 ^ (16 - 1)) with 32768. change (2 ^ (8 - 1)) with 128. lia.
Qed.

(** Clipping does not increase an error. *)
Lemma qclamp_lip e t zp I : (0 <= e)%Q -> within e (inject_Z t) I ->
  within e (inject_Z (sat 8 (t + zp))) (qclamp (- (128)) 127 (I + inject_Z zp)).
Proof.
  intros He W. unfold within in *. apply Qabs_Qle_condition in W. apply Qabs_Qle_condition.
  assert (RZ : (inject_Z (t + zp) == inject_Z t + inject_Z zp)%Q) by (rewrite inject_Z_plus; reflexivity).
  destruct (qclamp_cases (- (128)) 127 (I + inject_Z zp) ltac:(reflexivity)) as [[C1 C2]|[[C1 C2]|[C1 C2]]]; rewrite C2; clear C2.
  all: assert (S' : (sat 8 (t + zp) = -128 /\ t + zp <= -128) \/ (sat 8 (t + zp) = 127 /\ 127 <= t + zp) \/
     (sat 8 (t + zp) = t + zp /\ -128 <= t + zp <= 127)) by (assert (S : sat 8 (t + zp) = Z.max (-128) (Z.min 127 (t + zp))) by reflexivity; lia).
  all: destruct S' as [[-> S1]|[[-> S1]|[-> S1]]].
  all: change (inject_Z (-128)) with (- (128))%Q; change (inject_Z 127) with (127)%Q.
  all: try (assert (T1 : (inject_Z (t + zp) <= - (128))%Q) by (change (- (128))%Q with (inject_Z (-128)); apply inj_le; lia)).
  all: try (assert (T2 : (127 <= inject_Z (t + zp))%Q) by (change (127)%Q with (inject_Z 127); apply inj_le; lia)).
  all: try (assert (T3 : (- (128) <= inject_Z (t + zp) <= 127)%Q) by (change (- (128))%Q with (inject_Z (-128)); change (127)%Q with (inject_Z 127); rewrite !inj_le; lia)).
  all: rewrite ?RZ in *; lra.
Qed.

Lemma fxval_mul_l k x f : (fxval k (x * f) == inject_Z x * fxval k f)%Q.
Proof. unfold fxval. rewrite inject_Z_mult. ring. Qed.

Lemma off_bits a z : in_bits 8 a -> in_bits 8 z -> sub_fx 16 a z = a - z /\ -255 <= a - z <= 255.
Proof.
  intros Ha Hz. rewrite ib8 in Ha, Hz. split; [|lia].
  rewrite sub_fx_spec by (try (apply ib16; lia); lia). apply sat_id. apply ib16. lia.
Qed.

Lemma pow2q_23 : (pow2q (- (23)) == 1 # 8388608)%Q. Proof. reflexivity. Qed.
Lemma pow2q_31 : (pow2q (- (31)) == 1 # 2147483648)%Q. Proof. reflexivity. Qed.

(** One operand of add and sub. *)
Lemma elt_operand rm x f k g ratio : -255 <= x <= 255 -> -8 <= k <= 23 -> 0 <= f <= 32767 -> (0 <= ratio)%Q ->
  within (1 # 8388608) (fxval k f) g -> within (ratio * (1 # 16384)) g ratio ->
  in_bits 32 (asr_rnd_fx rm 32 (x * f) k)
  /\ within ((1 # 2) + (1 # 32768) + Qabs (inject_Z x * ratio) * (1 # 16384)) (inject_Z (asr_rnd_fx rm 32 (x * f) k)) (inject_Z x * ratio).
Proof.
  intros Hx Hk Hf Hr W1 W2.
  assert (Bx : -8355585 <= x * f <= 8355585) by nia.
  assert (B : in_bits 32 (x * f)) by (apply ib32; lia).
  split; [apply asr_rnd_fx_total; [lia|exact B]|].
  assert (A : within (1 # 2) (fxval k (x * f)) (inject_Z (asr_rnd_fx rm 32 (x * f) k))).
  { apply asr_rnd_within; [lia|exact B| |].
    - destruct rm; [|exact I]. cbn [rnd_safe]. unfold smax. destruct (Z_le_gt_dec k 0); [auto|]. right. right.
      assert (2 ^ (k - 1) <= 2 ^ 22) by (apply pow2_le; lia). change (2 ^ (32 - 1)) with 2147483648. change (2 ^ 22) with 4194304 in *. lia.
    - intros K. assert (0 < 2 ^ (- k) <= 2 ^ 8) by (split; [apply pow2_gt0; lia|apply pow2_le; lia]). change (2 ^ 8) with 256 in *.
      apply ib32. nia. }
  apply within_sym in A.
  assert (A2 : within (1 # 32768) (fxval k (x * f)) (inject_Z x * g)).
  { pose proof (within_mul_l _ _ _ x W1) as M.
    apply within_weaken with (e := (Qabs (inject_Z x) * (1 # 8388608))%Q).
    - assert (Qabs (inject_Z x) <= inject_Z 255)%Q by (apply Qabs_inj_le; lia). change (inject_Z 255) with (255#1)%Q in *. lra.
    - revert M. apply within_compat; [reflexivity|symmetry; apply fxval_mul_l|reflexivity]. }
  assert (A3 : within (Qabs (inject_Z x * ratio) * (1 # 16384)) (inject_Z x * g) (inject_Z x * ratio)).
  { pose proof (within_mul_l _ _ _ x W2) as M. revert M. apply within_compat; [|reflexivity|reflexivity].
    rewrite Qabs_Qmult, (Qabs_pos ratio) by exact Hr. ring. }
  apply (within_trans _ _ _ _ _ (within_trans _ _ _ _ _ A A2) A3).
Qed.

(** The single rounding of max and min. *)
Lemma elt_single rm x f k g ratio zp : -255 <= x <= 255 -> -8 <= k <= 23 -> 0 <= f <= 32767 -> (0 <= ratio)%Q -> in_bits 8 zp ->
  within (1 # 8388608) (fxval k f) g -> within (ratio * (1 # 16384)) g ratio ->
  within ((1 # 2) + (3 # 64)) (inject_Z (cast_narrow rm 16 8 (add_fx 16 (cast_narrow rm 32 16 (x * f) k) zp) 0))
    (qclamp (- (128)) 127 (inject_Z x * ratio + inject_Z zp)).
Proof.
  intros Hx Hk Hf Hr Hz W1 W2.
  assert (Bx : -8355585 <= x * f <= 8355585) by nia.
  assert (B : in_bits 32 (x * f)) by (apply ib32; lia).
  assert (S : rnd_safe rm 32 (x * f) k).
  { destruct rm; [|exact I]. cbn [rnd_safe]. unfold smax. destruct (Z_le_gt_dec k 0); [auto|]. right. right.
    assert (2 ^ (k - 1) <= 2 ^ 22) by (apply pow2_le; lia). change (2 ^ (32 - 1)) with 2147483648. change (2 ^ 22) with 4194304 in *. lia. }
  rewrite (cast_narrow_exact rm 32 16 (x * f) k); [|lia|lia|exact B|left; exact S]. rewrite elt_final by exact Hz.
  set (r := if 0 <=? k then rnd rm (x * f) k else x * f * 2 ^ (- k)).
  assert (A : within (1 # 2) (fxval k (x * f)) (inject_Z r)).
  { unfold r. pose proof (scale_rnd_within rm (x * f) k) as W. exact W. }
  apply within_weaken with (e := ((1 # 2) + (1 # 64) + (1 # 32))%Q); [discriminate|].
  apply clamp_err with (x := (inject_Z x * g)%Q); [exact Hz|discriminate|discriminate| |left].
  - apply within_weaken with (e := (Qabs (inject_Z x * ratio) * (1 # 16384))%Q).
    + pose proof (Qabs_nonneg (inject_Z x * ratio)). lra.
    + pose proof (within_mul_l _ _ _ x W2) as M. revert M. apply within_compat; [|reflexivity|reflexivity].
      rewrite Qabs_Qmult, (Qabs_pos ratio) by exact Hr. ring.
  - apply within_weaken with (e := ((1 # 64) + (1 # 2))%Q); [discriminate|]. refine (within_trans _ _ _ _ _ _ A). apply within_sym.
    pose proof (within_mul_l _ _ _ x W1) as M.
    apply within_weaken with (e := (Qabs (inject_Z x) * (1 # 8388608))%Q).
    + assert (Qabs (inject_Z x) <= inject_Z 255)%Q by (apply Qabs_inj_le; lia). change (inject_Z 255) with (255#1)%Q in *. lra.
    + revert M. apply within_compat; [reflexivity|symmetry; apply fxval_mul_l|reflexivity].
Qed.

Lemma rnd_half rm x k : 0 <= k -> - 2 ^ k <= 2 * (x - rnd rm x k * 2 ^ k) <= 2 ^ k.
Proof.
  intros Hk. pose proof (rnd_nearest rm x k Hk) as N. destruct rm; unfold nearest, nearest_up, nearest_even in N; lia.
Qed.

(** The product, prescaled to 16 bits. *)
Lemma elt_pre rm p k : -65025 <= p <= 65025 -> 
  let pre := Z.min (Z.max (k - 21) 0) 3 in
  let c := cast_narrow rm 32 16 p pre in
  in_bits 16 c /\ 0 <= pre <= 3 /\
  ((Z.abs (p - c * 2 ^ pre) <= 2 ^ pre - 1 /\ (pre = 0 \/ 2 * Z.abs (p - c * 2 ^ pre) <= 2 ^ pre)) \/ (pre = 0 /\ ((32767 < p /\ c = 32767) \/ (p < -32768 /\ c = -32768)))).
Proof.
  intros Hp pre c. assert (B : in_bits 32 p) by (apply ib32; lia).
  assert (Hpre : 0 <= pre <= 3) by (unfold pre; lia).
  assert (E : c = sat 16 (rnd rm p pre)).
  { unfold c. rewrite cast_narrow_exact; [|lia|lia|exact B|right; lia]. destruct (Z.leb_spec 0 pre); [reflexivity|lia]. }
  split; [rewrite E; apply sat_in_bits; lia|]. split; [exact Hpre|].
  pose proof (rnd_half rm p pre ltac:(lia)) as R. rewrite E. clear E c.
  set (r := rnd rm p pre) in *. unfold sat, clamp, smin, smax. change (2 ^ (16 - 1)) with 32768.
  assert (C : pre = 0 \/ pre = 1 \/ pre = 2 \/ pre = 3) by lia. clearbody pre.
  destruct C as [-> | [-> | [-> | ->]]]; cbn [Z.pow] in *; change (Z.pow_pos 2 1) with 2 in *; change (Z.pow_pos 2 2) with 4 in *; change (Z.pow_pos 2 3) with 8 in *; lia.
Qed.

Lemma fxval_pos k f : 0 <= f -> (0 <= fxval k f)%Q.
Proof. intros. unfold fxval. apply Qmult_le_0_compat; [change 0%Q with (inject_Z 0); now apply inj_le|apply Qlt_le_weak, pow2q_pos]. Qed.

Lemma fxval_le_k f k k' : 0 <= f -> k' <= k -> (fxval k f <= fxval k' f)%Q.
Proof.
  intros Hf Hk. unfold fxval. rewrite !(Qmult_comm (inject_Z f)). apply Qmult_le_compat_r; [apply pow2q_mono; lia|].
  change 0%Q with (inject_Z 0). now apply inj_le.
Qed.

Lemma fxval_le_f f f' k : f <= f' -> (fxval k f <= fxval k f')%Q.
Proof. intros Hf. unfold fxval. apply Qmult_le_compat_r; [now apply inj_le|apply Qlt_le_weak, pow2q_pos]. Qed.

Lemma fxval_pre k pre c f : 0 <= pre -> (fxval (k - pre) (c * f) == inject_Z (c * 2 ^ pre) * fxval k f)%Q.
Proof.
  intros Hp. unfold fxval. replace (- (k - pre)) with (pre + - k) by lia. rewrite pow2q_plus, (pow2q_nonneg pre) by lia.
  rewrite !inject_Z_mult. ring.
Qed.

Lemma elt_product rm p f k g ratio zp : -65025 <= p <= 65025 -> -8 <= k <= 31 -> 0 <= f <= 32767 -> (k < 31 -> 2 ^ 14 <= f) -> (0 <= ratio)%Q -> in_bits 8 zp ->
  within (1 # 2147483648) (fxval k f) g -> within (ratio * (1 # 16384)) g ratio ->
  let pre := Z.min (Z.max (k - 21) 0) 3 in
  within ((1 # 2) + (3 # 64))
    (inject_Z (cast_narrow rm 16 8 (add_fx 16 (cast_narrow rm 32 16 (cast_narrow rm 32 16 p pre * f) (k - pre)) zp) 0))
    (qclamp (- (128)) 127 (inject_Z p * ratio + inject_Z zp)).
Proof.
  intros Hp Hk Hf Hf2 Hr Hz W1 W2 pre. destruct (elt_pre rm p k Hp) as (B & P & C). fold pre in B, P, C.
  set (c := cast_narrow rm 32 16 p pre) in *. rewrite ib16 in B.
  assert (Bx : -1073741824 <= c * f <= 1073741824) by nia.
  assert (B32 : in_bits 32 (c * f)) by (apply ib32; lia).
  assert (S : rnd_safe rm 32 (c * f) (k - pre)).
  { destruct rm; [|exact I]. cbn [rnd_safe]. unfold smax. destruct (Z_le_gt_dec (k - pre) 0); [auto|]. right. right.
    assert (2 ^ (k - pre - 1) <= 2 ^ 27) by (apply pow2_le; unfold pre; lia). change (2 ^ (32 - 1)) with 2147483648. change (2 ^ 27) with 134217728 in *. lia. }
  rewrite (cast_narrow_exact rm 32 16 (c * f) (k - pre)); [|lia|lia|exact B32|left; exact S]. rewrite elt_final by exact Hz.
  change (if 0 <=? k - pre then rnd rm (c * f) (k - pre) else c * f * 2 ^ (- (k - pre))) with (scale_rnd rm (c * f) (k - pre)).
  pose proof (scale_rnd_within rm (c * f) (k - pre)) as A. set (r := scale_rnd rm (c * f) (k - pre)) in *.
  assert (G : within (1 # 16384) (inject_Z p * fxval k f) (inject_Z p * g)).
  { apply within_weaken with (e := (Qabs (inject_Z p) * (1 # 2147483648))%Q).
    - assert (Qabs (inject_Z p) <= inject_Z 65025)%Q by (apply Qabs_inj_le; lia). change (inject_Z 65025) with (65025#1)%Q in *. lra.
    - now apply within_mul_l. }
  pose proof (fxval_pos k f ltac:(lia)) as FP.
  apply within_weaken with (e := ((1 # 2) + (1 # 64) + (1 # 32))%Q); [discriminate|].
  apply clamp_err with (x := (inject_Z p * g)%Q); [exact Hz|discriminate|discriminate| |].
  { apply within_weaken with (e := (Qabs (inject_Z p * ratio) * (1 # 16384))%Q).
    + pose proof (Qabs_nonneg (inject_Z p * ratio)). lra.
    + pose proof (within_mul_l _ _ _ p W2) as M. revert M. apply within_compat; [|reflexivity|reflexivity].
      rewrite Qabs_Qmult, (Qabs_pos ratio) by exact Hr. ring. }
  assert (A' : within (1 # 2) (inject_Z (c * 2 ^ pre) * fxval k f) (inject_Z r)).
  { revert A. apply within_compat; [reflexivity|apply fxval_pre; lia|reflexivity]. }
  destruct C as [[C1 C2]|[C1 C2]].
  - left. assert (D : within (1 # 128) (inject_Z p * fxval k f) (inject_Z (c * 2 ^ pre) * fxval k f)).
    { unfold within. setoid_replace (inject_Z p * fxval k f - inject_Z (c * 2 ^ pre) * fxval k f)%Q with (inject_Z (p - c * 2 ^ pre) * fxval k f)%Q
        by (unfold Z.sub; rewrite inject_Z_plus, inject_Z_opp; ring).
      rewrite Qabs_Qmult, (Qabs_pos (fxval k f)) by exact FP.
      assert (Z.abs (p - c * 2 ^ pre) = 0 \/ 1 <= pre) as [Z0|Z1].
      { destruct (Z.eq_dec pre 0) as [E|]; [|right; lia]. left. rewrite E in *. cbn in C1. change (2 ^ 0) with 1 in *. lia. }
      - assert (E : p - c * 2 ^ pre = 0) by lia. rewrite E. cbn [inject_Z]. change (Qabs (inject_Z 0)) with 0%Q.
        setoid_replace (0 * fxval k f)%Q with 0%Q by ring. discriminate.
      - destruct C2 as [C2|C2]; [lia|].
        assert (H1 : (fxval k f <= fxval (21 + pre) 32768)%Q).
        { apply Qle_trans with (fxval (21 + pre) f); [apply fxval_le_k; [lia|unfold pre in *; lia]|apply fxval_le_f; lia]. }
        assert (H2 : (Qabs (inject_Z (p - c * 2 ^ pre)) <= inject_Z (2 ^ (pre - 1)))%Q).
        { apply Qabs_inj_le. replace (2 ^ pre) with (2 * 2 ^ (pre - 1)) in C2 by (rewrite <- Z.pow_succ_r by lia; f_equal; lia).
          replace (2 ^ pre) with (2 * 2 ^ (pre - 1)) by (rewrite <- Z.pow_succ_r by lia; f_equal; lia). lia. }
        apply Qle_trans with (inject_Z (2 ^ (pre - 1)) * fxval (21 + pre) 32768)%Q.
        + apply Qle_trans with (inject_Z (2 ^ (pre - 1)) * fxval k f)%Q; [apply Qmult_le_compat_r; auto|].
          rewrite !(Qmult_comm (inject_Z (2 ^ (pre - 1)))). apply Qmult_le_compat_r; [exact H1|].
          apply Qlt_le_weak, inj_pos. apply pow2_gt0. lia.
        + assert (Cp : pre = 1 \/ pre = 2 \/ pre = 3) by lia. destruct Cp as [-> | [-> | ->]]; vm_compute; discriminate. }
    apply within_sym in G. apply within_weaken with (e := ((1 # 16384) + (1 # 128) + (1 # 2))%Q); [discriminate|].
    exact (within_trans _ _ _ _ _ (within_trans _ _ _ _ _ G D) A').
  - right. assert (K21 : k <= 21) by (unfold pre in C1; lia). rewrite C1 in A'. change (2 ^ 0) with 1 in A'. rewrite Z.mul_1_r in A'.
    assert (F7 : (1 # 128 <= fxval k f)%Q).
    { apply Qle_trans with (fxval 21 (2 ^ 14)); [vm_compute; discriminate|].
      apply Qle_trans with (fxval 21 f); [apply fxval_le_f; apply Hf2; lia|apply fxval_le_k; lia]. }
    unfold within in A', G. apply Qabs_Qle_condition in A', G.
    destruct C2 as [[C2 C3]|[C2 C3]]; [left|right]; rewrite C3 in A'.
    + assert (Hp' : (32768 <= inject_Z p)%Q) by (change 32768%Q with (inject_Z 32768); apply inj_le; lia).
      change (inject_Z 32767) with (32767)%Q in A'. split.
      * assert (inject_Z 255 < inject_Z r)%Q by (change (inject_Z 255) with 255%Q; nra). apply (proj1 (inj_lt _ _)) in H; lia.
      * nra.
    + assert (Hp' : (inject_Z p <= -(32769))%Q) by (change (-(32769))%Q with (inject_Z (-32769)); apply inj_le; lia).
      change (inject_Z (-32768)) with (-(32768))%Q in A'. split.
      * assert (inject_Z r < inject_Z (-255))%Q by (change (inject_Z (-255)) with (-(255))%Q; nra). apply (proj1 (inj_lt _ _)) in H; lia.
      * nra.
Qed.

(** * C60 *)

Definition qrs (q : qpar) : Q := real_scale (q_scale q) (q_frac q).

Lemma ratio_eq i o : qpar_ok i -> qpar_ok o ->
  (inject_Z (q_scale i) / inject_Z (q_scale o) * pow2q (- (q_frac i - q_frac o)) == qrs i / qrs o)%Q.
Proof.
  intros (Hi & _) (Ho & _). unfold qrs, real_scale, fxval. replace (- (q_frac i - q_frac o)) with (- q_frac i + q_frac o) by lia.
  rewrite pow2q_plus, (pow2q_inv (q_frac o)). pose proof (pow2q_pos (q_frac o)). pose proof (inj_pos (q_scale o) ltac:(lia)). field. split; lra.
Qed.

Lemma ratio2_eq i1 i2 o : qpar_ok i1 -> qpar_ok i2 -> qpar_ok o ->
  (inject_Z (q_scale i1 * q_scale i2) / inject_Z (q_scale o) * pow2q (- (q_frac i1 + q_frac i2 - q_frac o)) == qrs i1 * qrs i2 / qrs o)%Q.
Proof.
  intros (Hi & _) _ (Ho & _). unfold qrs, real_scale, fxval. replace (- (q_frac i1 + q_frac i2 - q_frac o)) with (- q_frac i1 + - q_frac i2 + q_frac o) by lia.
  rewrite !pow2q_plus, (pow2q_inv (q_frac o)), inject_Z_mult. pose proof (pow2q_pos (q_frac o)). pose proof (inj_pos (q_scale o) ltac:(lia)). field. split; lra.
Qed.

Lemma sa_real_eq q a : (sa_real q a == inject_Z (a - q_zp q) * qrs q)%Q.
Proof. unfold sa_real, saval, qrs, real_scale, fxval. rewrite inject_Z_mult. ring. Qed.

Lemma qrs_pos q : qpar_ok q -> (0 < qrs q)%Q.
Proof. intros (H & _). apply real_scale_pos. lia. Qed.

(** The factor of one input. *)
Lemma elt_factor_in rm i o lim : qpar_ok i -> qpar_ok o -> 0 <= lim -> (qrs i / qrs o <= inject_Z (2 ^ 22))%Q ->
  exists f k g, elt_scale rm (q_scale i) (q_scale o) (q_frac i - q_frac o) lim = (f, k) /\ -8 <= k <= lim /\ 0 <= f <= 32767
    /\ within (pow2q (- lim)) (fxval k f) g /\ within (qrs i / qrs o * (1 # 16384)) g (qrs i / qrs o).
Proof.
  intros Hi Ho Hl Hr. pose proof (ratio_eq i o Hi Ho) as E. destruct Hi as (Hi & _), Ho as (Ho & _).
  destruct (elt_factor_ok rm (q_scale i) (q_scale o) (q_frac i - q_frac o) lim) as (f & k & g & E1 & K & F & _ & W1 & W2); [lia|lia|lia| |].
  { rewrite E. exact Hr. }
  exists f, k, g. repeat (split; [assumption|]). revert W2. apply within_compat; [rewrite E; reflexivity|reflexivity|exact E].
Qed.

Lemma Qdiv_mono a b s : (0 < s -> a <= b -> a / s <= b / s)%Q.
Proof. intros. unfold Qdiv. apply Qmult_le_compat_r; auto. apply Qlt_le_weak, Qinv_lt_0_compat; auto. Qed.

Lemma max_factor x y f : 0 <= f -> Z.max (x * f) (y * f) = Z.max x y * f.
Proof. intros. destruct (Z_le_gt_dec x y); [rewrite !Z.max_r by nia; reflexivity|rewrite !Z.max_l by nia; reflexivity]. Qed.
Lemma min_factor x y f : 0 <= f -> Z.min (x * f) (y * f) = Z.min x y * f.
Proof. intros. destruct (Z_le_gt_dec x y); [rewrite !Z.min_l by nia; reflexivity|rewrite !Z.min_r by nia; reflexivity]. Qed.

Lemma qmax_factor x y s : (0 <= s)%Q -> (Qmax (inject_Z x * s) (inject_Z y * s) == inject_Z (Z.max x y) * s)%Q.
Proof.
  intros Hs. destruct (Z_le_gt_dec x y) as [L|L].
  - rewrite (Z.max_r x y L). apply Q.max_r. apply Qmult_le_compat_r; [now apply inj_le|auto].
  - rewrite (Z.max_l x y ltac:(lia)). apply Q.max_l. apply Qmult_le_compat_r; [apply inj_le; lia|auto].
Qed.
Lemma qmin_factor x y s : (0 <= s)%Q -> (Qmin (inject_Z x * s) (inject_Z y * s) == inject_Z (Z.min x y) * s)%Q.
Proof.
  intros Hs. destruct (Z_le_gt_dec x y) as [L|L].
  - rewrite (Z.min_l x y L). apply Q.min_l. apply Qmult_le_compat_r; [now apply inj_le|auto].
  - rewrite (Z.min_r x y ltac:(lia)). apply Q.min_r. apply Qmult_le_compat_r; [apply inj_le; lia|auto].
Qed.

Lemma qclamp_compat lo hi x y : (x == y)%Q -> (qclamp lo hi x == qclamp lo hi y)%Q.
Proof.
  intros E. unfold qclamp. assert (E1 : Qle_bool x lo = Qle_bool y lo).
  { apply eq_true_iff_eq. rewrite !Qle_bool_iff, E. tauto. }
  assert (E2 : Qle_bool hi x = Qle_bool hi y). { apply eq_true_iff_eq. rewrite !Qle_bool_iff, E. tauto. }
  rewrite E1, E2. destruct (Qle_bool y lo); [reflexivity|]. destruct (Qle_bool hi y); [reflexivity|exact E].
Qed.

(** What the types of the parameters give: a 16-bit scale and an 8-bit number of fractional bits. That the scale is positive and
    the zero point has 8 bits must come from the checks. *)
Definition qpar_typed (q : qpar) : Prop := in_bits 16 (q_scale q) /\ in_bits 8 (q_frac q).

Lemma qpar_typed_ok q : qpar_typed q -> 0 < q_scale q -> -128 <= q_zp q <= 127 -> qpar_ok q.
Proof. intros [A B] C D. unfold qpar_ok. rewrite ib16 in A. rewrite (ib8 (q_zp q)). split; [lia|]. split; [exact B|exact D]. Qed.

Lemma chk_elt_quant_facts op i1 i2 o : chk_elt_quant op i1 i2 o = true -> qpar_typed i1 -> qpar_typed i2 -> qpar_typed o ->
  qpar_ok i1 /\ qpar_ok i2 /\ qpar_ok o.
Proof.
  intros H A B C. unfold chk_elt_quant in H. apply andb_true_iff in H. destruct H as [H _]. cbn [forallb] in H.
  rewrite !andb_true_iff, !Z.ltb_lt, !Z.leb_le in H. split; [|split]; apply qpar_typed_ok; auto; lia.
Qed.

(** C60, one element: the result is the real operation on the two operands, expressed in the output format and clipped to 8 bits,
    up to [elt_bound]. *)
Theorem eltwise_sa8_value rm op i1 i2 o a b :
  chk_elt_quant op i1 i2 o = true -> qpar_typed i1 -> qpar_typed i2 -> qpar_typed o -> elt_scales op i1 i2 o -> in_bits 8 a -> in_bits 8 b ->
  let so := real_scale (q_scale o) (q_frac o) in
  within (elt_bound op (sa_real i1 a) (sa_real i2 b) so)
    (inject_Z (elt_sa8 rm op (elt_params_sa8 rm op i1 i2 o) a b))
    (qclamp (- (128)) 127 (elt_real op (sa_real i1 a) (sa_real i2 b) / so + inject_Z (q_zp o))).
Proof.
  intros Hc T1 T2 To Hs Ha Hb so. change so with (qrs o). destruct (chk_elt_quant_facts op i1 i2 o Hc T1 T2 To) as (H1 & H2 & Ho).
  pose proof (qrs_pos _ H1) as P1. pose proof (qrs_pos _ H2) as P2. pose proof (qrs_pos _ Ho) as Po.
  assert (Z1 : in_bits 8 (q_zp i1)) by apply H1. assert (Z2 : in_bits 8 (q_zp i2)) by apply H2. assert (Zo : in_bits 8 (q_zp o)) by apply Ho.
  destruct (off_bits a _ Ha Z1) as [X1 X2]. destruct (off_bits b _ Hb Z2) as [Y1 Y2].
  pose proof (sa_real_eq i1 a) as S1. pose proof (sa_real_eq i2 b) as S2.
  assert (R1 : (0 <= qrs i1 / qrs o)%Q) by (apply Qlt_le_weak, Qlt_shift_div_l; lra).
  assert (R2 : (0 <= qrs i2 / qrs o)%Q) by (apply Qlt_le_weak, Qlt_shift_div_l; lra).
  assert (U1 : (sa_real i1 a / qrs o == inject_Z (a - q_zp i1) * (qrs i1 / qrs o))%Q) by (rewrite S1; field; lra).
  assert (U2 : (sa_real i2 b / qrs o == inject_Z (b - q_zp i2) * (qrs i2 / qrs o))%Q) by (rewrite S2; field; lra).
  unfold elt_sa8.
  assert (ADD : op = ELT_ADD \/ op = ELT_SUB \/ op = ELT_MUL \/ op = ELT_MAX \/ op = ELT_MIN) by (destruct op; tauto).
  assert (AS : (op = ELT_ADD \/ op = ELT_SUB) ->
    exists r1 r2, in_bits 32 r1 /\ in_bits 32 r2 /\ elt_sa8 rm op (elt_params_sa8 rm op i1 i2 o) a b =
       cast_narrow rm 16 8 (add_fx 16 (cast_narrow rm 64 16 (match op with ELT_ADD => add_fx 32 r1 r2 | _ => sub_fx 32 r1 r2 end) 0) (q_zp o)) 0
      /\ within ((1 # 2) + (1 # 32768) + Qabs (sa_real i1 a / qrs o) * (1 # 16384)) (inject_Z r1) (sa_real i1 a / qrs o)
      /\ within ((1 # 2) + (1 # 32768) + Qabs (sa_real i2 b / qrs o) * (1 # 16384)) (inject_Z r2) (sa_real i2 b / qrs o)).
  { intros Hop. assert (Q : (qrs i1 / qrs o <= inject_Z (2 ^ 22) /\ qrs i2 / qrs o <= inject_Z (2 ^ 22))%Q) by (destruct Hop; subst op; exact Hs).
    destruct Q as [Q1 Q2].
    destruct (elt_factor_in rm i1 o 23 H1 Ho ltac:(lia) Q1) as (f1 & k1 & g1 & E1 & K1 & F1 & V1 & V1').
    destruct (elt_factor_in rm i2 o 23 H2 Ho ltac:(lia) Q2) as (f2 & k2 & g2 & E2 & K2 & F2 & V2 & V2').
    destruct (elt_operand rm (a - q_zp i1) f1 k1 g1 (qrs i1 / qrs o) X2 K1 F1 R1 V1 V1') as [B1 W1].
    destruct (elt_operand rm (b - q_zp i2) f2 k2 g2 (qrs i2 / qrs o) Y2 K2 F2 R2 V2 V2') as [B2 W2].
    exists (asr_rnd_fx rm 32 ((a - q_zp i1) * f1) k1), (asr_rnd_fx rm 32 ((b - q_zp i2) * f2) k2).
    split; [exact B1|]. split; [exact B2|]. split.
    - unfold elt_sa8, elt_params_sa8. rewrite E1, E2. destruct Hop; subst op; cbn [e_off1 e_off2 e_offo e_scale1 e_scale2 e_pre1 e_pre2 e_post]; rewrite X1, Y1; reflexivity.
    - split; [revert W1|revert W2]; apply within_compat; try reflexivity; try (symmetry; assumption); rewrite ?U1, ?U2; reflexivity. }
  assert (MM : (op = ELT_MAX \/ op = ELT_MIN) ->
    exists f k g, -8 <= k <= 23 /\ 0 <= f <= 32767 /\ within (1 # 8388608) (fxval k f) g /\ within (qrs i1 / qrs o * (1 # 16384)) g (qrs i1 / qrs o)
      /\ elt_params_sa8 rm op i1 i2 o = mkElt 0 0 k f f (q_zp i1) (q_zp i2) (q_zp o) /\ (sa_real i2 b == inject_Z (b - q_zp i2) * qrs i1)%Q).
  { intros Hop. assert (Q : (qrs i1 / qrs o <= inject_Z (2 ^ 22))%Q) by (destruct Hop; subst op; exact (proj1 Hs)).
    destruct (elt_factor_in rm i1 o 23 H1 Ho ltac:(lia) Q) as (f1 & k1 & g1 & E1 & K1 & F1 & V1 & V1').
    exists f1, k1, g1. split; [exact K1|]. split; [exact F1|]. split; [exact V1|]. split; [exact V1'|]. split.
    - unfold elt_params_sa8. rewrite E1. destruct Hop; subst op; reflexivity.
    - assert (SF : same_format_sa i1 i2 = true) by (unfold chk_elt_quant in Hc; apply andb_true_iff in Hc; destruct Hop; subst op; apply Hc).
      unfold same_format_sa in SF. apply andb_true_iff in SF. destruct SF as [SF SF3]. apply andb_true_iff in SF. destruct SF as [_ SF2].
      apply Z.eqb_eq in SF2, SF3. rewrite S2. unfold qrs. rewrite SF2, SF3. reflexivity. }
  fold (elt_sa8 rm op (elt_params_sa8 rm op i1 i2 o) a b).
  destruct ADD as [-> | [-> | [-> | [-> | ->]]]]; cbn [elt_bound elt_real].
  - destruct (AS (or_introl eq_refl)) as (r1 & r2 & B1 & B2 & -> & W1 & W2). clear AS MM.
    rewrite (add_fx_spec 32 r1 r2) by (auto; lia). rewrite (cast_narrow_exact rm 64 16); [|lia|lia|apply (in_bits_mono 32); [lia|lia|apply sat_in_bits; lia]|right; lia].
    rewrite Z.leb_refl, rnd_0, sat_sat by lia. rewrite elt_final by exact Zo.
    apply qclamp_lip.
    + pose proof (Qabs_nonneg (sa_real i1 a / qrs o)). pose proof (Qabs_nonneg (sa_real i2 b / qrs o)). lra.
    + unfold within in *. rewrite inject_Z_plus. apply Qabs_Qle_condition in W1, W2. apply Qabs_Qle_condition.
      setoid_replace ((sa_real i1 a + sa_real i2 b) / qrs o)%Q with (sa_real i1 a / qrs o + sa_real i2 b / qrs o)%Q by (field; lra).
      set (u := (sa_real i1 a / qrs o)%Q) in *. set (v := (sa_real i2 b / qrs o)%Q) in *. clearbody u v. lra.
  - destruct (AS (or_intror eq_refl)) as (r1 & r2 & B1 & B2 & -> & W1 & W2). clear AS MM.
    rewrite (sub_fx_spec 32 r1 r2) by (auto; lia). rewrite (cast_narrow_exact rm 64 16); [|lia|lia|apply (in_bits_mono 32); [lia|lia|apply sat_in_bits; lia]|right; lia].
    rewrite Z.leb_refl, rnd_0, sat_sat by lia. rewrite elt_final by exact Zo.
    apply qclamp_lip.
    + pose proof (Qabs_nonneg (sa_real i1 a / qrs o)). pose proof (Qabs_nonneg (sa_real i2 b / qrs o)). lra.
    + unfold within in *. unfold Z.sub. rewrite inject_Z_plus, inject_Z_opp. apply Qabs_Qle_condition in W1, W2. apply Qabs_Qle_condition.
      setoid_replace ((sa_real i1 a - sa_real i2 b) / qrs o)%Q with (sa_real i1 a / qrs o - sa_real i2 b / qrs o)%Q by (field; lra).
      set (u := (sa_real i1 a / qrs o)%Q) in *. set (v := (sa_real i2 b / qrs o)%Q) in *. clearbody u v. lra.
  - clear AS MM. cbn [elt_scales] in Hs. change (qrs i1 * qrs i2 / qrs o <= inject_Z (2 ^ 22))%Q in Hs.
    pose proof (ratio2_eq i1 i2 o H1 H2 Ho) as E.
    destruct (elt_factor_ok rm (q_scale i1 * q_scale i2) (q_scale o) (q_frac i1 + q_frac i2 - q_frac o) 31) as (f & k & g & E1 & K & F & F' & W1 & W2).
    { destruct H1 as (H1 & _), H2 as (H2 & _). change (2 ^ 31) with 2147483648. nia. }
    { destruct Ho as (Ho & _). exact Ho. }
    { lia. }
    { rewrite E. exact Hs. }
    assert (W2' : within (qrs i1 * qrs i2 / qrs o * (1 # 16384)) g (qrs i1 * qrs i2 / qrs o)).
    { revert W2. apply within_compat; [rewrite E; reflexivity|reflexivity|exact E]. }
    assert (R : (0 <= qrs i1 * qrs i2 / qrs o)%Q) by (apply Qlt_le_weak, Qlt_shift_div_l; nra).
    assert (Bp : -65025 <= (a - q_zp i1) * (b - q_zp i2) <= 65025) by nia.
    pose proof (elt_product rm _ f k g _ (q_zp o) Bp K F F' R Zo W1 W2') as T.
    unfold elt_sa8, elt_params_sa8. rewrite E1. cbn [e_off1 e_off2 e_offo e_scale1 e_scale2 e_pre1 e_pre2 e_post]. rewrite X1, Y1.
    revert T. apply within_compat; [reflexivity|reflexivity|]. apply qclamp_compat. rewrite S1, S2, inject_Z_mult. field. lra.
  - destruct (MM (or_introl eq_refl)) as (f & k & g & K & F & W1 & W2 & -> & S2'). clear AS MM.
    unfold elt_sa8. cbn [e_off1 e_off2 e_offo e_scale1 e_scale2 e_pre1 e_pre2 e_post]. rewrite X1, Y1, max_factor by lia.
    pose proof (elt_single rm (Z.max (a - q_zp i1) (b - q_zp i2)) f k g _ (q_zp o) ltac:(lia) K F R1 Zo W1 W2) as T.
    revert T. apply within_compat; [reflexivity|reflexivity|]. apply qclamp_compat.
    rewrite S1, S2', qmax_factor by (apply Qlt_le_weak; exact P1). field. lra.
  - destruct (MM (or_intror eq_refl)) as (f & k & g & K & F & W1 & W2 & -> & S2'). clear AS MM.
    unfold elt_sa8. cbn [e_off1 e_off2 e_offo e_scale1 e_scale2 e_pre1 e_pre2 e_post]. rewrite X1, Y1, min_factor by lia.
    pose proof (elt_single rm (Z.min (a - q_zp i1) (b - q_zp i2)) f k g _ (q_zp o) ltac:(lia) K F R1 Zo W1 W2) as T.
    revert T. apply within_compat; [reflexivity|reflexivity|]. apply qclamp_compat.
    rewrite S1, S2', qmin_factor by (apply Qlt_le_weak; exact P1). field. lra.
Qed.

(** C60: the kernel. *)
Theorem eltwise_sa8_correct rm op i1 i2 o t1 t2 tout imm1 imm2 m :
  chk_eltwise t1 t2 tout = ST_OK -> chk_elt_quant op i1 i2 o = true -> qpar_typed i1 -> qpar_typed i2 -> qpar_typed o -> elt_scales op i1 i2 o ->
  operand_ok t1 m -> operand_ok t2 m -> t_rank tout <> 0 -> fits32 tout -> backed tout m ->
  no_hazard t1 tout -> no_hazard t2 tout ->
  mem_bits 8 m -> in_bits 8 imm1 -> in_bits 8 imm2 ->
  exists m', eltwise (elt_sa8 rm op (elt_params_sa8 rm op i1 i2 o)) t1 t2 tout imm1 imm2 m = Some m'
    /\ (forall c, valid (t_shape tout) c ->
         let u := sa_real i1 (elt_arg m t1 imm1 c) in
         let v := sa_real i2 (elt_arg m t2 imm2 c) in
         let so := real_scale (q_scale o) (q_frac o) in
         exists r, m' (t_data tout + addr (t_stride tout) c) = Some r
           /\ within (elt_bound op u v so) (inject_Z r) (qclamp (- (128)) 127 (elt_real op u v / so + inject_Z (q_zp o))))
    /\ frame_ok tout m m'.
Proof.
  intros Hc Hq Q1 Q2 Qo Hs O1 O2 RO FO BO N1 N2 MB B1 B2.
  destruct (eltwise_loop (elt_sa8 rm op (elt_params_sa8 rm op i1 i2 o)) t1 t2 tout imm1 imm2 m Hc O1 O2 RO FO BO N1 N2) as (m' & E & H1 & H2).
  exists m'. split; [exact E|]. split; [|exact H2]. intros c V. cbv zeta. eexists. split; [apply (H1 c V)|].
  apply eltwise_sa8_value; auto; apply elt_arg_bits; auto; lia.
Qed.

(** Without the limit on the scales the sum of two saturated operands is wrong: with input steps of 2^40 output steps,
    2 - 1 steps give 2^40, which should be clipped to 127, but the result is -1. *)
Theorem eltwise_sa8_scales_refuted : exists rm i o a b, qpar_ok i /\ qpar_ok o /\ chk_elt_quant ELT_ADD i i o = true /\ in_bits 8 a /\ in_bits 8 b
  /\ (elt_real ELT_ADD (sa_real i a) (sa_real i b) / real_scale (q_scale o) (q_frac o) == inject_Z (2 ^ 40))%Q
  /\ elt_sa8 rm ELT_ADD (elt_params_sa8 rm ELT_ADD i i o) a b = -1.
Proof.
  exists RM_UP, (mkQ 16384 (-26) 0), (mkQ 16384 14 0), 2, (-1).
  split; [unfold qpar_ok; cbn; rewrite !ib8; lia|]. split; [unfold qpar_ok; cbn; rewrite !ib8; lia|]. split; [reflexivity|].
  split; [apply ib8; lia|]. split; [apply ib8; lia|]. split; vm_compute; reflexivity.
Qed.

(** * Non-vacuity *)

Definition sa8_ex_i1 : qpar := mkQ 20000 18 3.
Definition sa8_ex_i2 : qpar := mkQ 27000 19 (-7).
Definition sa8_ex_o : qpar := mkQ 30000 17 11.

Example sa8_ex_hyps : chk_elt_quant ELT_ADD sa8_ex_i1 sa8_ex_i2 sa8_ex_o = true /\ qpar_typed sa8_ex_i1 /\ qpar_typed sa8_ex_i2 /\ qpar_typed sa8_ex_o
  /\ elt_scales ELT_ADD sa8_ex_i1 sa8_ex_i2 sa8_ex_o /\ elt_scales ELT_MUL sa8_ex_i1 sa8_ex_i2 sa8_ex_o /\ elt_scales ELT_MAX sa8_ex_i1 sa8_ex_i1 sa8_ex_o.
Proof.
  split; [reflexivity|]. do 3 (split; [unfold qpar_typed; cbn; rewrite ib8, ib16; lia|]). repeat split; vm_compute; discriminate.
Qed.

(** (100 - 3) * 20000 / 2^18 + (50 + 7) * 27000 / 2^19 = 10.336 is 45.16 output steps of 30000 / 2^17, and 45 + 11 = 56. *)
Example sa8_ex_run : elt_sa8 RM_UP ELT_ADD (elt_params_sa8 RM_UP ELT_ADD sa8_ex_i1 sa8_ex_i2 sa8_ex_o) 100 50 = 56.
Proof. reflexivity. Qed.
Example sa8_ex_run_mul : elt_sa8 RM_UP ELT_MUL (elt_params_sa8 RM_UP ELT_MUL sa8_ex_i1 sa8_ex_i2 sa8_ex_o) 100 50 = 106.
Proof. reflexivity. Qed.
