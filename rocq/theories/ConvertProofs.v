(** Conversion between integer formats (C43). *)
From Coq Require Import ZArith QArith Qabs Qpower List Lia Lqa Bool Zdiv.
From Verif Require Import Base FxMath FxMathProofs Tensor TensorProofs ArgMax ArgMaxProofs MovProofs PermuteProofs Quant QuantProofs QSpec QuantCastProofs
  PoolKernels DotProdProofs ConvTheorems Eltwise EltwiseProofs EltwiseSa8Proofs Relu ReluProofs LutProofs L2Proofs Convert.
Import ListNotations.
Open Scope Z_scope.

(** * Specification *)

(** The exact value of [x] of the format [i] in the format [o], before rounding and clipping. *)
Definition conv_exact (i o : qpar) (x : Z) : Q :=
  (sa_real i x / real_scale (q_scale o) (q_frac o) + inject_Z (q_zp o))%Q.

(** The relative error: that of the factor, which has 15 bits; more for a 32-bit output with a zero point, which is added after the
    product was limited to 32 bits. *)
Definition conv_tol (n zp : Z) : Q := if (n =? 32) && negb (zp =? 0) then 1 # 13000 else 1 # 16383.

(** [v] is the clipped exact value, up to half a unit and the relative error times the distance to the zero point. *)
Definition conv_close (n : Z) (i o : qpar) (x v : Z) : Prop :=
  in_bits n v
  /\ let t := qclamp (inject_Z (smin n)) (inject_Z (smax n)) (conv_exact i o x) in
     within ((1 # 2) + Qabs (t - inject_Z (q_zp o)) * conv_tol n (q_zp o)) (inject_Z v) t.

(** Formats as the tensor types store them: a positive 16-bit scale, 8-bit fraction, 16-bit zero point. *)
Definition q16_ok (q : qpar) : Prop := 0 < q_scale q <= 32767 /\ in_bits 8 (q_frac q) /\ in_bits 16 (q_zp q).

(** * Clipping *)

Lemma conv_clamp n r zp I : 1 <= n -> (within ((1 # 2) + Qabs I * (1 # 16383)) (inject_Z r) I ->
  let t := qclamp (inject_Z (smin n)) (inject_Z (smax n)) (I + inject_Z zp) in
  within ((1 # 2) + Qabs (t - inject_Z zp) * (1 # 16383)) (inject_Z (sat n (r + zp))) t)%Q.
Proof.
  intros Hn H t. assert (Hlh : (inject_Z (smin n) < inject_Z (smax n))%Q) by (apply inj_lt; unfold smin, smax; pose proof (pow2_gt0 (n - 1) ltac:(lia)); lia).
  assert (S : smin n <= sat n (r + zp) <= smax n) by (apply sat_in_bits; lia).
  assert (S1 : r + zp <= smax n -> r + zp <= sat n (r + zp)) by (unfold sat, clamp; lia).
  assert (S2 : smin n <= r + zp -> sat n (r + zp) <= r + zp) by (unfold sat, clamp; lia).
  assert (S3 : smax n <= r + zp -> sat n (r + zp) = smax n) by (unfold sat, clamp; pose proof (smin_le_smax n Hn); lia).
  assert (S4 : r + zp <= smin n -> sat n (r + zp) = smin n) by (unfold sat, clamp; pose proof (smin_le_smax n Hn); lia).
  set (s := sat n (r + zp)) in *. clearbody s. set (lo := smin n) in *. set (hi := smax n) in *. clearbody lo hi.
  assert (Z1 : (inject_Z lo <= inject_Z s <= inject_Z hi)%Q) by (rewrite !inj_le; auto).
  assert (C : ((inject_Z hi <= inject_Z r + inject_Z zp /\ inject_Z s == inject_Z hi) \/ (inject_Z r + inject_Z zp <= inject_Z lo /\ inject_Z s == inject_Z lo)
     \/ inject_Z s == inject_Z r + inject_Z zp)%Q).
  { rewrite <- !inject_Z_plus, !inj_le. destruct (Z.le_gt_cases hi (r + zp)); [left; split; [lia|now rewrite S3]|].
    destruct (Z.le_gt_cases (r + zp) lo); [right; left; split; [lia|now rewrite S4]|right; right]. replace s with (r + zp) by lia. reflexivity. }
  clear S S1 S2 S3 S4. set (Lo := inject_Z lo) in *. set (Hi := inject_Z hi) in *. set (R := inject_Z r) in *. set (Z0 := inject_Z zp) in *. set (S := inject_Z s) in *.
  unfold within in *. apply Qabs_Qle_condition in H. apply Qabs_Qle_condition.
  assert (Ab : (forall y, (Qabs y == y /\ 0 <= y) \/ (Qabs y == - y /\ y <= 0))%Q).
  { intros y. destruct (Qlt_le_dec y 0); [right; split; [apply Qabs_neg|]; lra|left; split; [apply Qabs_pos|]; lra]. }
  unfold t. destruct (qclamp_cases Lo Hi (I + Z0) Hlh) as [[C1 C2]|[[C1 C2]|[C1 C2]]]; rewrite C2; clear C2;
    destruct (Ab I) as [[A1 A2]|[A1 A2]]; rewrite A1 in H.
  all: match goal with |- context [Qabs ?y] => destruct (Ab y) as [[B1 B2]|[B1 B2]]; rewrite B1 end;
    destruct C as [[D1 D2]|[[D1 D2]|D1]]; split; lra.
Qed.

Lemma sat_sat_add n R zp : (8 <= n <= 16 /\ in_bits 16 zp) \/ (n = 32 /\ zp = 0) -> sat n (sat 32 (sat 32 R + zp)) = sat n (R + zp).
Proof.
  intros [[Hn Hz]|[-> ->]].
  - rewrite ib16 in Hz. assert (B : 2 ^ (n - 1) <= 2 ^ 15) by (apply pow2_le; lia). change (2 ^ 15) with 32768 in B. pose proof (pow2_gt0 (n - 1) ltac:(lia)).
    unfold sat, clamp, smin, smax. change (2 ^ (32 - 1)) with 2147483648. set (p := 2 ^ (n - 1)) in *. clearbody p. lia.
  - rewrite !Z.add_0_r. unfold sat, clamp, smin, smax. change (2 ^ (32 - 1)) with 2147483648. lia.
Qed.

Lemma conv_cast_sat rm n v : n = 8 \/ n = 16 \/ n = 32 -> in_bits 32 v -> conv_cast rm n v = sat n v.
Proof.
  intros Hn Hv. unfold conv_cast. destruct (Z.eqb_spec n 32) as [->|Hne].
  - unfold cast_same. change (asr_rnd_fx rm 32 v 0) with v. rewrite wrap_id, sat_id; auto; lia.
  - rewrite cast_narrow_exact; [|lia|lia|exact Hv|right; lia]. cbn [Z.leb Z.compare]. now rewrite rnd_0.
Qed.

(** * One element *)

Lemma abs_inj z : (Qabs (inject_Z z) == inject_Z (Z.abs z))%Q.
Proof. reflexivity. Qed.


(** The error of the exact scaling of [r] from the one of its parts: factor, truncation and rounding. *)
Lemma conv_total V I r : (within (Qabs I * (1 # 16384)) V I -> within ((1 # 2) + Qabs V * (1 # 268435456)) (inject_Z r) V ->
  within ((1 # 2) + Qabs I * (1 # 16383)) (inject_Z r) I)%Q.
Proof.
  unfold within. intros H1 H2. apply Qabs_Qle_condition in H1, H2. apply Qabs_Qle_condition.
  assert (Ab : (forall y, (Qabs y == y /\ 0 <= y) \/ (Qabs y == - y /\ y <= 0))%Q).
  { intros y. destruct (Qlt_le_dec y 0); [right; split; [apply Qabs_neg|]; lra|left; split; [apply Qabs_pos|]; lra]. }
  destruct (Ab I) as [[A1 A2]|[A1 A2]]; rewrite A1 in *; destruct (Ab V) as [[B1 B2]|[B1 B2]]; rewrite B1 in *; split; lra.
Qed.

Lemma fxval_mul f a b : (fxval f (a * b) == inject_Z a * fxval f b)%Q.
Proof. unfold fxval. rewrite inject_Z_mult. ring. Qed.

Lemma requant_no_zp rm i o :
  let r0 := define_requant_params rm (mkQ (q_scale i) (q_frac i) 0) (mkQ (q_scale o) (q_frac o) 0) in
  let r := define_requant_params rm i o in rq_scale r0 = rq_scale r /\ rq_shift r0 = rq_shift r.
Proof.
  cbv zeta. unfold define_requant_params. cbn [q_scale q_frac q_zp].
  destruct (norm_cast_fx rm 32 16 _) as [sc ns]. cbn [rq_scale rq_shift]. split; reflexivity.
Qed.

Lemma conv_ratio rm i o : q16_ok i -> q16_ok o ->
  let r := define_requant_params rm i o in
  2 ^ 14 <= rq_scale r < 2 ^ 15 /\ -300 <= rq_shift r <= 300
  /\ forall X, within (Qabs (inject_Z X * scale_ratio i o) * (1 # 16384)) (fxval (rq_shift r) (X * rq_scale r)) (inject_Z X * scale_ratio i o).
Proof.
  intros (Hi & Fi & _) (Ho & Fo & _) r. set (i0 := mkQ (q_scale i) (q_frac i) 0). set (o0 := mkQ (q_scale o) (q_frac o) 0).
  assert (Qi : qpar_ok i0) by (split; [exact Hi|split; [exact Fi|apply ib8; cbn; lia]]). assert (Qo : qpar_ok o0) by (split; [exact Ho|split; [exact Fo|apply ib8; cbn; lia]]).
  pose proof (requant_ratio rm i0 o0 Qi Qo) as R. cbv zeta in R. destruct (requant_eq rm i0 o0 Qi Qo) as (_ & E2 & _).
  destruct (requant_core i0 o0 Hi Ho) as (C1 & _ & _ & _ & C5).
  pose proof (requant_no_zp rm i o) as E. fold i0 o0 r in E.
  destruct E as [Es Eh]. rewrite Es, Eh in *. change (q_scale i0) with (q_scale i) in *. change (q_scale o0) with (q_scale o) in *. change (q_frac i0) with (q_frac i) in *. change (q_frac o0) with (q_frac o) in *. destruct R as [R1 R2]. split; [exact R1|]. split.
  - rewrite ib8 in Fi, Fo. rewrite E2. lia.
  - intros X. fold (scale_ratio i o) in R2. set (f := fxval (rq_shift r) (rq_scale r)) in *. set (g := scale_ratio i o) in *.
    assert (Ef : (fxval (rq_shift r) (X * rq_scale r) == inject_Z X * f)%Q) by apply fxval_mul.
    assert (G0 : (0 < g)%Q).
    { unfold g, scale_ratio, real_scale, fxval. apply Qlt_shift_div_l; [|rewrite Qmult_0_l].
      all: apply Qmult_lt_0_compat; [change 0%Q with (inject_Z 0); apply inj_lt; lia|apply pow2q_pos]. }
    unfold within in *. rewrite Ef. setoid_replace (inject_Z X * f - inject_Z X * g)%Q with (inject_Z X * (f - g))%Q by ring.
    rewrite !Qabs_Qmult, (Qabs_pos g) by lra. pose proof (Qabs_nonneg (inject_Z X)) as A0. set (a := Qabs (inject_Z X)) in *. set (b := Qabs (f - g)) in *.
    setoid_replace (a * g * (1 # 16384))%Q with (a * (g * (1 # 16384)))%Q by ring. rewrite !(Qmult_comm a). now apply Qmult_le_compat_r.
Qed.

(** A rounding shift at 32 bits, for values away from the limits. *)
Lemma asr32_scale rm A k : Z.abs A <= 2 ^ 30 - 1 -> asr_rnd_fx rm 32 A k = sat 32 (scale_rnd rm A k).
Proof.
  intros H. change (2 ^ 30) with 1073741824 in H. assert (B : in_bits 32 A) by (apply ib32; lia). rewrite asr_rnd_fx_spec; [|lia|exact B|].
  - unfold rshift_spec, scale_rnd. destruct (Z.leb_spec 0 k) as [Hk|Hk]; [|reflexivity]. symmetry. apply sat_id. destruct (Z.eq_dec k 0) as [->|Hk0]; [now rewrite rnd_0|].
    pose proof (rnd_bounds rm 32 A k ltac:(lia) B ltac:(lia)) as R. change (2 ^ (32 - 1)) with 2147483648 in R. apply ib32. lia.
  - apply small_rnd_safe; change (2 ^ (32 - 2)) with 1073741824; lia.
Qed.

Lemma conv_finish rm n R zp : n = 8 \/ n = 16 \/ n = 32 -> in_bits 16 zp ->
  conv_cast rm n (add_fx 32 (sat 32 R) zp) = sat n (sat 32 (sat 32 R + zp)).
Proof.
  intros H Hz0. assert (Hz : in_bits 32 zp) by (apply (in_bits_mono 16 32); auto; lia).
  rewrite add_fx_spec; [|lia|apply sat_in_bits; lia|exact Hz]. apply conv_cast_sat; [exact H|apply sat_in_bits; lia].
Qed.

(** For 8- and 16-bit outputs and without zero point only the last limit has an effect; else the error is relatively small. *)
Lemma conv_sat_close n R zp I : n = 8 \/ n = 16 \/ n = 32 -> in_bits 16 zp -> (within ((1 # 2) + Qabs I * (1 # 16383)) (inject_Z R) I ->
  let t := qclamp (inject_Z (smin n)) (inject_Z (smax n)) (I + inject_Z zp) in
  within ((1 # 2) + Qabs (t - inject_Z zp) * conv_tol n zp) (inject_Z (sat n (sat 32 (sat 32 R + zp)))) t)%Q.
Proof.
  intros Hn Hz HR t. assert (C : within ((1 # 2) + Qabs (t - inject_Z zp) * (1 # 16383)) (inject_Z (sat n (R + zp))) t) by (apply conv_clamp; [lia|exact HR]).
  unfold conv_tol. destruct (Z.eqb_spec n 32) as [->|N]; [destruct (Z.eqb_spec zp 0) as [->|Z0]|]; cbn [andb negb].
  - rewrite sat_sat_add by auto. exact C.
  - assert (E : sat 32 (sat 32 (sat 32 R + zp)) = sat 32 (R + zp) \/
       (Z.abs (sat 32 (sat 32 (sat 32 R + zp)) - sat 32 (R + zp)) <= 32768 /\ 2147352576 <= Z.abs (sat 32 (R + zp) - zp))).
    { rewrite ib16 in Hz. unfold sat, clamp, smin, smax. change (2 ^ (32 - 1)) with 2147483648. lia. }
    clearbody t. clear HR. set (v := sat 32 (sat 32 (sat 32 R + zp))) in *. set (u := sat 32 (R + zp)) in *. clearbody u v.
    assert (Ab : (forall y, (Qabs y == y /\ 0 <= y) \/ (Qabs y == - y /\ y <= 0))%Q).
    { intros y. destruct (Qlt_le_dec y 0); [right; split; [apply Qabs_neg|]; lra|left; split; [apply Qabs_pos|]; lra]. }
    destruct E as [->|[E1 E2]].
    + unfold within in *. pose proof (Qabs_nonneg (t - inject_Z zp)). lra.
    + assert (F1 : (- 32768 <= inject_Z v - inject_Z u <= 32768)%Q).
      { unfold Qminus. rewrite <- inject_Z_opp, <- inject_Z_plus. split; [apply (inj_le (-32768))|apply (inj_le _ 32768)]; lia. }
      assert (F2 : (2147352576 <= inject_Z u - inject_Z zp \/ inject_Z u - inject_Z zp <= - 2147352576)%Q).
      { unfold Qminus. rewrite <- inject_Z_opp, <- inject_Z_plus. destruct (Z.le_gt_cases 0 (u - zp)); [left; apply (inj_le 2147352576)|right; apply (inj_le _ (-2147352576))]; lia. }
      set (V := inject_Z v) in *. set (U := inject_Z u) in *. set (W := inject_Z zp) in *. clearbody U V W. clear - C F1 F2 Ab.
      unfold within in *. apply Qabs_Qle_condition in C. apply Qabs_Qle_condition. destruct (Ab (t - W)%Q) as [[B1 B2]|[B1 B2]]; rewrite B1 in *; destruct F2; split; lra.
  - rewrite sat_sat_add; [exact C|]. left. split; [lia|exact Hz].
Qed.

Lemma fxval_tiny x j k : 0 <= j <= k -> 2 * Z.abs x <= 2 ^ j -> (Qabs (fxval k x) <= 1 # 2)%Q.
Proof.
  intros Hj Hx. unfold fxval. rewrite Qabs_Qmult, (Qabs_pos (pow2q _)) by (apply Qlt_le_weak, pow2q_pos). rewrite abs_inj.
  assert (E : (pow2q (- k) * inject_Z (2 ^ k) == 1)%Q) by (rewrite <- (pow2q_nonneg k) by lia; rewrite <- pow2q_plus; replace (- k + k) with 0 by lia; reflexivity).
  assert (L : (inject_Z 2 * inject_Z (Z.abs x) <= inject_Z (2 ^ k))%Q).
  { rewrite <- inject_Z_mult. apply inj_le. assert (2 ^ j <= 2 ^ k) by (apply pow2_le; lia). lia. }
  pose proof (pow2q_pos (- k)) as W. set (w := pow2q (- k)) in *. set (y := inject_Z (Z.abs x)) in *. set (z := inject_Z (2 ^ k)) in *.
  assert (inject_Z 2 * y * w <= z * w)%Q by (apply Qmult_le_compat_r; lra). rewrite (Qmult_comm w z) in E. rewrite E in H.
  change (inject_Z 2) with 2%Q in H. lra.
Qed.

(** Dropping the low 16 bits of a large product. *)
Lemma trunc_rel P A k : P - 2 ^ 16 < A * 2 ^ 16 <= P -> 2 ^ 44 <= Z.abs P \/ P = 0 /\ A = 0 ->
  within (Qabs (fxval (k + 16) P) * (1 # 268435456)) (fxval k A) (fxval (k + 16) P).
Proof.
  intros HA HP2.
  assert (EU : (fxval k A == fxval (k + 16) (A * 2 ^ 16))%Q).
  { unfold fxval. rewrite inject_Z_mult, <- pow2q_nonneg by lia. replace (- k) with (16 + - (k + 16)) at 1 by lia. rewrite pow2q_plus. ring. }
  unfold within. rewrite EU. unfold fxval. pose proof (pow2q_pos (- (k + 16))) as W0. set (w := pow2q (- (k + 16))) in *.
  setoid_replace (inject_Z (A * 2 ^ 16) * w - inject_Z P * w)%Q with (inject_Z (A * 2 ^ 16 - P) * w)%Q by (rewrite <- Z.add_opp_r, inject_Z_plus, inject_Z_opp; ring).
  rewrite !Qabs_Qmult, (Qabs_pos w) by lra. setoid_replace (Qabs (inject_Z P) * w * (1 # 268435456))%Q with (Qabs (inject_Z P) * (1 # 268435456) * w)%Q by ring.
  apply Qmult_le_compat_r; [|lra]. rewrite !abs_inj. change (1 # 268435456)%Q with (/ inject_Z 268435456)%Q. apply Qle_shift_div_l; [reflexivity|].
  rewrite <- inject_Z_mult. apply inj_le. clear - HA HP2. change (2 ^ 16) with 65536 in *. change (2 ^ 44) with 17592186044416 in HP2. lia.
Qed.

(** The difference to the zero point is representable in the type it is computed in. *)
Definition diff_ok (ei eo : el_type) (i : qpar) (x : Z) : Prop := in_bits (if conv_wide ei eo then 32 else 16) (x - q_zp i).

(** The two variants of the arithmetic: the difference [X] to the zero point times [sc] * 2^-sh, rounded. *)
Lemma calc_wide_round rm n x zi sc sh zo : in_bits 32 x -> in_bits 32 zi -> in_bits 32 (x - zi) -> 16384 <= sc < 32768 ->
  n = 8 \/ n = 16 \/ n = 32 -> in_bits 16 zo ->
  let V := fxval sh ((x - zi) * sc) in
  exists r, calc_convert rm true n zi sc (Z.min sh 63) zo x = sat n (sat 32 (sat 32 r + zo)) /\ within ((1 # 2) + Qabs V * (1 # 268435456)) (inject_Z r) V.
Proof.
  intros Hx32 Hz32 Hd Rs Hn Hzo V. unfold calc_convert. set (X := x - zi) in *.
  rewrite sub_fx_spec by (auto; lia). fold X. rewrite (sat_id 32 X) by exact Hd.
  assert (Es : norm_fx 32 (sc) = 16).
  { assert (Bs : in_bits 32 (sc)) by (apply ib32; lia). destruct (norm_fx_pos 32 (sc) ltac:(lia) Bs ltac:(lia)) as [N _].
    pose proof (norm_fx_range 32 (sc) ltac:(lia) Bs) as N'. set (e := norm_fx 32 (sc)) in *. change (2 ^ (32 - 2)) with (16384 * 2 ^ 16) in N. change (2 ^ (32 - 1)) with (32768 * 2 ^ 16) in N.
    destruct (Z.lt_trichotomy e 16) as [L|[L|L]]; [|exact L|].
    - assert (2 ^ e * 2 <= 2 ^ 16) by (rewrite <- (Z.pow_1_r 2) at 2; rewrite <- Z.pow_add_r by lia; apply pow2_le; lia). nia.
    - assert (2 ^ 16 * 2 <= 2 ^ e) by (rewrite <- (Z.pow_1_r 2) at 2; rewrite <- Z.pow_add_r by lia; apply pow2_le; lia). nia. }
  rewrite Es.
  assert (Ea : asl_fx 32 (sc) 16 = sc * 2 ^ 16).
  { rewrite asl_fx_pos; [|lia|apply ib32; lia|lia]. apply sat_id. apply ib32. change (2 ^ 16) with 65536. lia. }
  rewrite Ea. set (N := norm_fx 32 X). pose proof (norm_fx_range 32 X ltac:(lia) Hd) as HN. fold N in HN.
  assert (HX : in_bits 32 (X * 2 ^ N) /\ (X <> 0 -> 2 ^ 30 <= Z.abs (X * 2 ^ N))).
  { destruct (Z.eq_dec X 0) as [E0|E0]; [rewrite E0, Z.mul_0_l; split; [apply ib32; lia|congruence]|].
    destruct (norm_fx_spec 32 X ltac:(lia) Hd E0) as (_ & A & B). fold N in A, B. split; [exact A|]. intros _. rewrite ib32 in B. change (2 ^ 30) with 1073741824.
    replace (X * 2 ^ (N + 1)) with (X * 2 ^ N * 2) in B by (rewrite Z.pow_add_r by lia; ring). set (Y := X * 2 ^ N) in *. clearbody Y. lia. }
  destruct HX as [HX1 HX2]. clearbody N. rewrite asl_fx_pos by (auto; lia). rewrite (sat_id 32 _ HX1). rewrite ib32 in HX1.
  set (Y := X * 2 ^ N) in *. set (P := Y * sc).
  assert (HP : - (32767 * 2 ^ 31) <= P <= 32767 * 2 ^ 31) by (unfold P; clear - HX1 Rs; change (2 ^ 31) with 2147483648; nia).
  assert (HP2 : X <> 0 -> 2 ^ 44 <= Z.abs P).
  { intros HX0. specialize (HX2 HX0). unfold P. rewrite Z.abs_mul, (Z.abs_eq (sc)) by lia. change (2 ^ 44) with (2 ^ 30 * 16384).
    apply Z.mul_le_mono_nonneg; try lia. }
  assert (EA : Z.shiftr (Y * (sc * 2 ^ 16)) 32 = P / 2 ^ 16).
  { rewrite Z.shiftr_div_pow2 by lia. unfold P. replace (Y * (sc * 2 ^ 16)) with (Y * sc * 2 ^ 16) by ring.
    change (2 ^ 32) with (2 ^ 16 * 2 ^ 16). now rewrite Z.div_mul_cancel_r by (compute; discriminate). }
  rewrite EA. set (A := P / 2 ^ 16).
  assert (HA : P - 2 ^ 16 < A * 2 ^ 16 <= P) by (unfold A; change (2 ^ 16) with 65536; clear; lia).
  assert (HA2 : Z.abs A <= 2 ^ 30 - 1) by (clear - HA HP; change (2 ^ 16) with 65536 in HA; change (2 ^ 31) with 2147483648 in HP; change (2 ^ 30) with 1073741824; lia).
  rewrite wrap_id; [|lia|apply ib32; clear - HA2; change (2 ^ 30) with 1073741824 in HA2; lia].
  rewrite asr32_scale by exact HA2. rewrite conv_finish by auto. set (k := Z.min (sh) 63 + 16 + N - 32).
  eexists. split; [reflexivity|].
  destruct (Z.le_gt_cases (sh) 63) as [Hs|Hs].
  + assert (Ek : k = sh + N - 16) by (unfold k; lia).
    assert (EV : (V == fxval (k + 16) P)%Q).
    { unfold V, fxval, P, Y. rewrite Ek. replace (X * 2 ^ N * sc) with (X * sc * 2 ^ N) by ring. rewrite (inject_Z_mult _ (2 ^ N)), <- pow2q_nonneg by lia.
      replace (- sh) with (N + - (sh + N - 16 + 16)) by lia. rewrite pow2q_plus. ring. }
    assert (D : within (Qabs V * (1 # 268435456)) (fxval k A) V).
    { eapply within_compat; [|reflexivity|symmetry; exact EV|apply (trunc_rel P A k HA)]; [now rewrite EV|].
      destruct (Z.eq_dec X 0) as [E0|E0]; [right|left; auto]. assert (P0 : P = 0) by (unfold P, Y; rewrite E0; reflexivity). split; [exact P0|]. unfold A. rewrite P0. reflexivity. }
    pose proof (scale_rnd_within rm A k) as Hr. unfold within in *. apply Qabs_Qle_condition in Hr, D. apply Qabs_Qle_condition. split; lra.
  + assert (Hk : 47 <= k) by (unfold k; lia). assert (E0 : scale_rnd rm A k = 0).
    { unfold scale_rnd. destruct (Z.leb_spec 0 k); [|lia]. apply rnd_big; [lia|]. assert (2 ^ 46 <= 2 ^ (k - 1)) by (apply pow2_le; lia). change (2 ^ 46) with (2 ^ 30 * 65536) in *. lia. }
    rewrite E0. unfold within. setoid_replace (inject_Z 0 - V)%Q with (- V)%Q by (change (inject_Z 0) with 0%Q; ring). rewrite Qabs_opp.
    assert (Qabs V <= 1 # 2)%Q; [|pose proof (Qabs_nonneg V); lra].
    apply (fxval_tiny _ 47); [lia|]. rewrite Z.abs_mul, (Z.abs_eq (sc)) by lia. rewrite ib32 in Hd. change (2 ^ 47) with (2 * (2147483648 * 32768)).
    apply Z.mul_le_mono_nonneg_l; [lia|]. apply Z.mul_le_mono_nonneg; lia.
Qed.

Lemma calc_narrow_round rm n x zi sc sh zo : in_bits 16 x -> in_bits 16 zi -> in_bits 16 (x - zi) -> 16384 <= sc < 32768 ->
  n = 8 \/ n = 16 \/ n = 32 -> in_bits 16 zo ->
  let V := fxval sh ((x - zi) * sc) in
  exists r, calc_convert rm false n zi sc (Z.min sh 31) zo x = sat n (sat 32 (sat 32 r + zo)) /\ within ((1 # 2) + Qabs V * (1 # 268435456)) (inject_Z r) V.
Proof.
  intros Hx16 Hz16 Hd Rs Hn Hzo V. unfold calc_convert. set (X := x - zi) in *.
  rewrite sub_fx_spec by (auto; lia). fold X. rewrite (sat_id 16 X) by exact Hd. rewrite ib16 in Hd. set (P := X * sc) in *.
  assert (HP : Z.abs P <= 2 ^ 30 - 1). { unfold P. rewrite Z.abs_mul, (Z.abs_eq (sc)) by lia. change (2 ^ 30) with 1073741824. clear - Hd Rs. nia. }
  rewrite asr32_scale by exact HP. rewrite conv_finish by auto. eexists. split; [reflexivity|].
  assert (H2 : within (1 # 2) V (inject_Z (scale_rnd rm P (Z.min (sh) 31)))).
  { destruct (Z.le_gt_cases (sh) 31) as [Hs|Hs]; [rewrite Z.min_l by lia; apply scale_rnd_within|]. rewrite Z.min_r by lia.
    assert (E0 : scale_rnd rm P 31 = 0). { unfold scale_rnd. cbn [Z.leb Z.compare]. apply rnd_big; [lia|]. change (31 - 1) with 30. lia. }
    rewrite E0. unfold within. setoid_replace (V - inject_Z 0)%Q with V by (change (inject_Z 0) with 0%Q; ring).
    apply (fxval_tiny _ 31); [lia|]. change (2 ^ 31) with 2147483648. change (2 ^ 30) with 1073741824 in HP. lia. }
  pose proof (Qabs_nonneg V). unfold within in *. apply Qabs_Qle_condition in H2. apply Qabs_Qle_condition. split; lra.
Qed.

(** The exact value rounded, before clipping. *)
Lemma convert_elem_round rm ei eo i o x : q16_ok i -> q16_ok o -> in_bits (el_bits ei) x -> diff_ok ei eo i x ->
  exists r, convert_elem rm ei eo i o x = sat (el_bits eo) (sat 32 (sat 32 r + q_zp o))
    /\ within ((1 # 2) + Qabs (inject_Z (x - q_zp i) * scale_ratio i o) * (1 # 16383)) (inject_Z r) (inject_Z (x - q_zp i) * scale_ratio i o).
Proof.
  intros Qi Qo Hx Hd. destruct (conv_ratio rm i o Qi Qo) as (Rs & Rh & Rw). unfold convert_elem. set (p := define_requant_params rm i o) in *. clearbody p.
  destruct Qi as (_ & _ & Zi). destruct Qo as (_ & _ & Zo). set (X := x - q_zp i) in *. specialize (Rw X). set (I := (inject_Z X * scale_ratio i o)%Q) in *.
  set (V := fxval (rq_shift p) (X * rq_scale p)) in *. rewrite min_fx_min. unfold diff_ok in Hd. fold X in Hd. change (2 ^ 14) with 16384 in Rs. change (2 ^ 15) with 32768 in Rs.
  assert (Hn : el_bits eo = 8 \/ el_bits eo = 16 \/ el_bits eo = 32) by (destruct eo; cbn in *; auto).
  destruct (conv_wide ei eo) eqn:W.
  - assert (Hx32 : in_bits 32 x) by (apply (in_bits_mono (el_bits ei) 32); auto; destruct ei; cbn; lia).
    assert (Hz32 : in_bits 32 (q_zp i)) by (apply (in_bits_mono 16 32); auto; lia).
    destruct (calc_wide_round rm (el_bits eo) x (q_zp i) (rq_scale p) (rq_shift p) (q_zp o) Hx32 Hz32 Hd Rs Hn Zo) as (r & E & C).
    exists r. split; [exact E|]. now apply (conv_total V).
  - assert (Hx16 : in_bits 16 x). { apply (in_bits_mono (el_bits ei) 16); auto; destruct ei; cbn in *; try lia; discriminate. }
    destruct (calc_narrow_round rm (el_bits eo) x (q_zp i) (rq_scale p) (rq_shift p) (q_zp o) Hx16 Zi Hd Rs Hn Zo) as (r & E & C).
    exists r. split; [exact E|]. now apply (conv_total V).
Qed.

Lemma conv_exact_eq i o x : (conv_exact i o x == inject_Z (x - q_zp i) * scale_ratio i o + inject_Z (q_zp o))%Q.
Proof.
  unfold conv_exact, sa_real, saval, scale_ratio, real_scale, fxval. rewrite (inject_Z_mult (x - q_zp i)). unfold Qdiv. ring.
Qed.

(** C43, one element: the converted value is the clipped exact value, up to half a unit of the output (for the rounding) and a
    relative error of 1/16383 (for the 15 bits of the factor). *)
Theorem convert_elem_close rm ei eo i o x : q16_ok i -> q16_ok o -> in_bits (el_bits ei) x -> diff_ok ei eo i x ->
  conv_close (el_bits eo) i o x (convert_elem rm ei eo i o x).
Proof.
  intros Qi Qo Hx Hd. assert (Hn : el_bits eo = 8 \/ el_bits eo = 16 \/ el_bits eo = 32) by (destruct eo; cbn; lia).
  destruct (convert_elem_round rm ei eo i o x Qi Qo Hx Hd) as (r & E & W). rewrite E. split; [apply sat_in_bits; lia|]. cbv zeta.
  pose proof (conv_sat_close (el_bits eo) r (q_zp o) _ Hn (proj2 (proj2 Qo)) W) as C. cbv zeta in C.
  pose proof (qclamp_compat (inject_Z (smin (el_bits eo))) (inject_Z (smax (el_bits eo))) _ _ (conv_exact_eq i o x)) as EQ.
  eapply within_compat; [|reflexivity|symmetry; exact EQ|exact C]. now rewrite EQ.
Qed.

(** The difference to the zero point fits for fixed-point tensors and for 8-bit tensors with an 8-bit zero point. *)
Lemma diff_ok_8 ei eo i x : in_bits (el_bits ei) x -> el_bits ei = 8 -> in_bits 8 (q_zp i) -> diff_ok ei eo i x.
Proof. intros Hx E Hz. rewrite E in Hx. rewrite ib8 in Hx, Hz. unfold diff_ok. destruct (conv_wide ei eo); [apply ib32|apply ib16]; lia. Qed.

Lemma diff_ok_fx ei eo i x : in_bits (el_bits ei) x -> q_zp i = 0 -> diff_ok ei eo i x.
Proof.
  intros Hx E. unfold diff_ok. rewrite E, Z.sub_0_r. unfold conv_wide. destruct (Z.eqb_spec (el_bits ei) 32) as [B|B]; cbn [orb].
  - now rewrite B in Hx.
  - destruct (el_bits eo =? 32); apply (in_bits_mono (el_bits ei)); auto; destruct ei; cbn in *; lia.
Qed.

(** ** Equal scales *)

Lemma requant_same_scale rm i o : q16_ok i -> q16_ok o -> q_scale i = q_scale o ->
  rq_scale (define_requant_params rm i o) = 2 ^ 14 /\ rq_shift (define_requant_params rm i o) = 14 + (q_frac i - q_frac o).
Proof.
  intros (Hi & Fi & _) (Ho & Fo & _) Es. set (i0 := mkQ (q_scale i) (q_frac i) 0). set (o0 := mkQ (q_scale o) (q_frac o) 0).
  assert (Qi : qpar_ok i0) by (split; [exact Hi|split; [exact Fi|apply ib8; cbn; lia]]). assert (Qo : qpar_ok o0) by (split; [exact Ho|split; [exact Fo|apply ib8; cbn; lia]]).
  destruct (requant_eq rm i0 o0 Qi Qo) as (E1 & E2 & _). destruct (requant_core i0 o0 Hi Ho) as (_ & C2 & _ & _ & _).
  pose proof (requant_no_zp rm i o) as E. fold i0 o0 in E. destruct E as [Ea Eb]. rewrite Ea in E1. rewrite Eb in E2.
  change (q_scale i0) with (q_scale i) in *. change (q_scale o0) with (q_scale o) in *. change (q_frac i0) with (q_frac i) in *. change (q_frac o0) with (q_frac o) in *.
  rewrite <- Es in *. assert (B32 : in_bits 32 (q_scale i)) by (apply ib32; lia). assert (B16 : in_bits 16 (q_scale i)) by (apply ib16; lia).
  assert (P : norm_fx 32 (q_scale i) - norm_fx 16 (q_scale i) = 16).
  { destruct (norm_fx_pos 32 _ ltac:(lia) B32 ltac:(lia)) as [A1 _]. destruct (norm_fx_pos 16 _ ltac:(lia) B16 ltac:(lia)) as [A2 _].
    pose proof (norm_fx_range 32 _ ltac:(lia) B32). pose proof (norm_fx_range 16 _ ltac:(lia) B16). set (a := norm_fx 32 (q_scale i)) in *. set (b := norm_fx 16 (q_scale i)) in *.
    set (s := q_scale i) in *. change (2 ^ (32 - 2)) with (2 ^ 14 * 2 ^ 16) in A1. change (2 ^ (32 - 1)) with (2 ^ 15 * 2 ^ 16) in A1. change (2 ^ (16 - 2)) with (2 ^ 14) in A2. change (2 ^ (16 - 1)) with (2 ^ 15) in A2.
    destruct (Z.lt_trichotomy a (b + 16)) as [L|[L|L]]; [|lia|].
    - assert (2 ^ a * 2 <= 2 ^ b * 2 ^ 16) by (rewrite <- (Z.pow_1_r 2) at 2; rewrite <- !Z.pow_add_r by lia; apply pow2_le; lia).
      clear - A1 A2 H1 Hi. assert (s * (2 ^ a * 2) <= s * (2 ^ b * 2 ^ 16)) by (apply Z.mul_le_mono_nonneg_l; lia). change (2 ^ 16) with 65536 in *. change (2 ^ 14) with 16384 in *. change (2 ^ 15) with 32768 in *. lia.
    - assert (2 ^ b * 2 ^ 16 * 2 <= 2 ^ a) by (rewrite <- (Z.pow_1_r 2) at 3; rewrite <- !Z.pow_add_r by lia; apply pow2_le; lia).
      clear - A1 A2 H1 Hi. assert (s * (2 ^ b * 2 ^ 16 * 2) <= s * 2 ^ a) by (apply Z.mul_le_mono_nonneg_l; lia). change (2 ^ 16) with 65536 in *. change (2 ^ 14) with 16384 in *. change (2 ^ 15) with 32768 in *. lia. }
  rewrite P in *. rewrite C2 in *. assert (Q : Z.quot (q_scale i * 2 ^ 16) (q_scale i) = 2 ^ 16) by (rewrite Z.mul_comm; apply Z.quot_mul; lia).
  rewrite Q in *. change (16 - norm_fx 32 (2 ^ 16)) with 2 in *. split; [rewrite E1; destruct rm; reflexivity|rewrite E2; lia].
Qed.

Lemma scale_rnd_scale rm X j k : 0 <= j -> scale_rnd rm (X * 2 ^ j) (j + k) = scale_rnd rm X k.
Proof.
  intros Hj. unfold scale_rnd. destruct (Z.leb_spec 0 k).
  - destruct (Z.leb_spec 0 (j + k)); [|lia]. rewrite Z.add_comm. now apply rnd_scale.
  - destruct (Z.leb_spec 0 (j + k)).
    + replace (X * 2 ^ j) with (X * 2 ^ (- k) * 2 ^ (j + k)); [now apply rnd_exact|]. rewrite <- Z.mul_assoc, <- Z.pow_add_r by lia. do 2 f_equal. lia.
    + rewrite <- Z.mul_assoc, <- Z.pow_add_r by lia. do 2 f_equal. lia.
Qed.

(** Between 8- and 16-bit tensors with equal scales (in particular between fixed-point tensors) the result is the exact value,
    rounded once and clipped. *)
Theorem convert_same_scale_exact rm ei eo i o x : q16_ok i -> q16_ok o -> q_scale i = q_scale o -> in_bits (el_bits ei) x -> diff_ok ei eo i x ->
  el_bits ei <> 32 -> el_bits eo <> 32 ->
  convert_elem rm ei eo i o x = sat (el_bits eo) (scale_rnd rm (x - q_zp i) (q_frac i - q_frac o) + q_zp o).
Proof.
  intros Qi Qo Es Hx Hd Ni No. destruct (requant_same_scale rm i o Qi Qo Es) as [Rs Rh]. unfold convert_elem, diff_ok in *.
  assert (W : conv_wide ei eo = false) by (unfold conv_wide; destruct (Z.eqb_spec (el_bits ei) 32), (Z.eqb_spec (el_bits eo) 32); auto; contradiction).
  rewrite W in *. rewrite Rs, Rh, min_fx_min. destruct Qi as (_ & Fi & Zi). destruct Qo as (_ & Fo & Zo). unfold calc_convert.
  assert (Hx16 : in_bits 16 x). { apply (in_bits_mono (el_bits ei) 16); auto; destruct ei; cbn in *; lia. }
  rewrite sub_fx_spec by (auto; lia). set (X := x - q_zp i) in *. rewrite (sat_id 16 X) by exact Hd. rewrite ib16 in Hd.
  destruct (Z.eq_dec X (-32768)) as [Em|Em].
  - (* the product is -2^29 *) rewrite asr32_scale by (rewrite Em; compute; discriminate).
    rewrite conv_finish by (auto; destruct eo; cbn; auto). rewrite sat_sat_add by (left; split; [destruct eo; cbn in *; lia|exact Zo]). do 2 f_equal.
    destruct (Z.le_gt_cases (14 + (q_frac i - q_frac o)) 31) as [L|L]; [rewrite Z.min_l by lia; apply scale_rnd_scale; lia|].
    rewrite Z.min_r by lia. unfold scale_rnd. cbn [Z.leb Z.compare]. destruct (Z.leb_spec 0 (q_frac i - q_frac o)); [|lia].
    rewrite (rnd_big rm X) by (try lia; assert (2 ^ 16 <= 2 ^ (q_frac i - q_frac o - 1)) by (apply pow2_le; lia); change (2 ^ 16) with 65536 in *; lia).
    apply rnd_big; [lia|]. rewrite Em. reflexivity.
  - rewrite asr32_scale by (change (2 ^ 30) with 1073741824; change (2 ^ 14) with 16384; lia).
    rewrite conv_finish by (auto; destruct eo; cbn; auto). rewrite sat_sat_add by (left; split; [destruct eo; cbn in *; lia|exact Zo]). do 2 f_equal.
    destruct (Z.le_gt_cases (14 + (q_frac i - q_frac o)) 31) as [L|L]; [rewrite Z.min_l by lia; apply scale_rnd_scale; lia|].
    rewrite Z.min_r by lia. unfold scale_rnd. cbn [Z.leb Z.compare]. destruct (Z.leb_spec 0 (q_frac i - q_frac o)); [|lia].
    rewrite (rnd_big rm X) by (try lia; assert (2 ^ 16 <= 2 ^ (q_frac i - q_frac o - 1)) by (apply pow2_le; lia); change (2 ^ 16) with 65536 in *; lia).
    apply rnd_big; [lia|]. change (2 ^ (31 - 1)) with 1073741824. change (2 ^ 14) with 16384. lia.
Qed.

(** A conversion between tensors of the same 8- or 16-bit format is a copy. *)
Theorem convert_identity rm e q x : q16_ok q -> in_bits (el_bits e) x -> diff_ok e e q x -> el_bits e <> 32 -> convert_elem rm e e q q x = x.
Proof.
  intros Q Hx Hd N. rewrite convert_same_scale_exact by auto. rewrite Z.sub_diag. unfold scale_rnd. cbn [Z.leb Z.compare]. rewrite rnd_0.
  replace (x - q_zp q + q_zp q) with x by lia. now apply sat_id.
Qed.

(** With 32-bit tensors it is not: 16 bits of the value are kept. *)
Theorem convert_identity_32_refuted : exists q x, q16_ok q /\ in_bits 32 x /\ diff_ok EL_SA_32 EL_SA_32 q x /\
  forall rm, convert_elem rm EL_SA_32 EL_SA_32 q q x <> x.
Proof.
  exists (mkQ 1 0 0), (2 ^ 30 + 1). split; [repeat split; try discriminate|]. split; [split; discriminate|]. split; [split; discriminate|].
  intros []; vm_compute; discriminate.
Qed.

(** With a zero point in a 32-bit output the product is limited before the zero point is added: here the exact value is
    representable and the result is off by 32767. *)
Theorem convert_zero_point_32_refuted : exists i o x w, q16_ok i /\ q16_ok o /\ in_bits 32 x /\ diff_ok EL_SA_32 EL_SA_32 i x /\
  in_bits 32 w /\ (conv_exact i o x == inject_Z w)%Q /\ forall rm, convert_elem rm EL_SA_32 EL_SA_32 i o x = w - 32767.
Proof.
  exists (mkQ 1 0 0), (mkQ 1 1 (-32768)), (2 ^ 30 + 16383), (2 ^ 31 - 2). split; [repeat split; discriminate|]. split; [repeat split; discriminate|].
  split; [split; discriminate|]. split; [split; discriminate|]. split; [split; discriminate|]. split; [reflexivity|]. intros []; vm_compute; reflexivity.
Qed.

(** ** Tensors *)

(** The format of the element at [c]: that of its index on the quantization axis, if the tensor has one. *)
Definition fmt (t : qtensor) (c : list Z) : qpar :=
  if el_sa (qt_el t) && (0 <=? t_qdim (qt_t t)) then qt_q t (nth (Z.to_nat (t_qdim (qt_t t))) c 0) else qt_q t 0.

(** A quantization axis is a dimension of the tensor. *)
Definition axis_ok (t : qtensor) : Prop := el_sa (qt_el t) = true -> t_qdim (qt_t t) < t_rank (qt_t t).

Definition conv_axis (src dst : qtensor) : Z :=
  if el_sa (qt_el dst) && (t_qdim (qt_t dst) >=? 0) then t_qdim (qt_t dst)
  else if el_sa (qt_el src) && (t_qdim (qt_t src) >=? 0) then t_qdim (qt_t src) else -1.

Lemma chk_convert_facts src dst : chk_convert src dst = ST_OK -> t_rank (qt_t src) <> 0 ->
  chk_tensor (qt_t src) = ST_OK /\ chk_tensor (qt_t dst) = ST_OK /\ t_shape (qt_t src) = t_shape (qt_t dst)
  /\ last (t_stride (qt_t src)) 0 = 1 /\ last (t_stride (qt_t dst)) 0 = 1
  /\ (data_ptr_cmp src dst = true -> forallb (fun p => fst p =? snd p) (combine (removelast (t_stride (qt_t src))) (removelast (t_stride (qt_t dst)))) = true)
  /\ (el_sa (qt_el src) = true -> el_sa (qt_el dst) = true -> 0 <= t_qdim (qt_t src) -> 0 <= t_qdim (qt_t dst) -> t_qdim (qt_t src) = t_qdim (qt_t dst)).
Proof.
  unfold chk_convert. intros H R. destruct (chk_tensor (qt_t src)); try discriminate. destruct (chk_tensor (qt_t dst)); try discriminate.
  destruct (same_shape (qt_t src) (qt_t dst)) eqn:S; [|discriminate]. cbn [negb] in H. apply same_shape_eq in S.
  destruct (inner_stride_is_one (qt_t src) && inner_stride_is_one (qt_t dst)) eqn:I; [|discriminate]. apply andb_true_iff in I. destruct I as [I1 I2]. cbn [negb] in H.
  apply inner_one_last in I1; [|exact R]. apply inner_one_last in I2; [|unfold t_rank in *; now rewrite <- S].
  destruct (data_ptr_cmp src dst && negb _) eqn:D; [discriminate|]. destruct (_ && _ && _) eqn:A in H; [discriminate|].
  split; [auto|]. split; [auto|]. split; [auto|]. split; [auto|]. split; [auto|]. split.
  - intros E. rewrite E in D. cbn [andb] in D. now apply negb_false_iff in D.
  - intros E1 E2 G1 G2. rewrite E1, E2 in A. cbn [andb] in A. apply negb_false_iff in A.
    destruct (Z.eqb_spec (t_qdim (qt_t src)) (t_qdim (qt_t dst))); [auto|]. destruct (Z.ltb_spec (t_qdim (qt_t src)) 0); [lia|]. destruct (Z.ltb_spec (t_qdim (qt_t dst)) 0); [lia|discriminate].
Qed.

(** In place, with the same element type, the checks imply equal strides: no element is overwritten before it is read. *)
Theorem convert_inplace_ok src dst : chk_convert src dst = ST_OK -> t_rank (qt_t src) <> 0 -> fits32 (qt_t src) -> fits32 (qt_t dst) ->
  qt_el src = qt_el dst -> t_data (qt_t src) = t_data (qt_t dst) -> unary_ok (qt_t src) (qt_t dst).
Proof.
  intros H R FI FO Et Ed. destruct (chk_convert_facts src dst H R) as (C1 & C2 & S & L1 & L2 & D & _). apply unary_inplace; auto.
  assert (DP : data_ptr_cmp src dst = true).
  { unfold data_ptr_cmp. rewrite Et, Ed, Z.eqb_refl. unfold t_rank in *. rewrite <- S. destruct (Z.eqb_spec (Z.of_nat (length (t_shape (qt_t src)))) 0); [contradiction|]. now destruct (qt_el dst). }
  specialize (D DP). destruct FI as (A1 & _). destruct FO as (A2 & _).
  assert (N1 : t_stride (qt_t src) <> []) by (intros E; rewrite E in A1; cbn in A1; unfold t_rank in R; lia).
  assert (N2 : t_stride (qt_t dst) <> []) by (intros E; rewrite E in A2; cbn in A2; unfold t_rank in R; rewrite S in R; lia).
  rewrite (app_removelast_last 0 N1), (app_removelast_last 0 N2), L1, L2. f_equal.
  assert (LR : length (removelast (t_stride (qt_t src))) = length (removelast (t_stride (qt_t dst)))).
  { assert (G : forall l : list Z, l <> [] -> length l = (1 + length (removelast l))%nat). { intros l Hl. rewrite (app_removelast_last 0 Hl) at 1. rewrite app_length. cbn. lia. }
    pose proof (G _ N1). pose proof (G _ N2). rewrite S in A1. lia. }
  revert D LR. generalize (removelast (t_stride (qt_t src))) (removelast (t_stride (qt_t dst))). induction l as [|a l IH]; intros [|b l']; cbn [combine forallb length fst snd]; try discriminate; auto.
  intros D LR. apply andb_true_iff in D. destruct D as [D1 D2]. apply Z.eqb_eq in D1. f_equal; auto.
Qed.

Lemma q_at_fmt src dst c k : chk_convert src dst = ST_OK -> t_rank (qt_t src) <> 0 ->
  (0 <= conv_axis src dst -> nth (Z.to_nat (conv_axis src dst)) c 0 = k) ->
  q_at src k = fmt src c /\ q_at dst k = fmt dst c.
Proof.
  intros H R E. destruct (chk_convert_facts src dst H R) as (_ & _ & _ & _ & _ & _ & A). unfold q_at, fmt, conv_axis in *.
  rewrite !Z.geb_leb in *.
  destruct (el_sa (qt_el src)), (el_sa (qt_el dst)); cbn [andb] in *;
    destruct (Z.leb_spec 0 (t_qdim (qt_t src))), (Z.leb_spec 0 (t_qdim (qt_t dst))); try (specialize (A eq_refl eq_refl ltac:(lia) ltac:(lia)); rewrite <- A in * ); try rewrite E by lia; auto.
Qed.

(** C43: every element of the output is the converted element of the input, by the formats of its place; nothing else changes. *)
Theorem convert_tensor_correct rm src dst m :
  chk_convert src dst = ST_OK -> t_rank (qt_t src) <> 0 -> axis_ok src -> axis_ok dst ->
  fits32 (qt_t src) -> fits32 (qt_t dst) -> backed (qt_t src) m -> backed (qt_t dst) m -> unary_ok (qt_t src) (qt_t dst) ->
  (forall c, valid (t_shape (qt_t src)) c -> q16_ok (fmt src c) /\ q16_ok (fmt dst c)) ->
  (forall c, valid (t_shape (qt_t src)) c -> let x := rd m (t_data (qt_t src) + addr (t_stride (qt_t src)) c) in
     in_bits (el_bits (qt_el src)) x /\ diff_ok (qt_el src) (qt_el dst) (fmt src c) x) ->
  exists m', convert_tensor rm src dst m = (ST_OK, Some m')
    /\ (forall c, valid (t_shape (qt_t dst)) c -> exists v, m' (t_data (qt_t dst) + addr (t_stride (qt_t dst)) c) = Some v
          /\ v = convert_elem rm (qt_el src) (qt_el dst) (fmt src c) (fmt dst c) (rd m (t_data (qt_t src) + addr (t_stride (qt_t src)) c))
          /\ conv_close (el_bits (qt_el dst)) (fmt src c) (fmt dst c) (rd m (t_data (qt_t src) + addr (t_stride (qt_t src)) c)) v)
    /\ frame_ok (qt_t dst) m m'.
Proof.
  intros H R AS AD FI FO BI BO U HQ HX. destruct (chk_convert_facts src dst H R) as (C1 & C2 & ES & L1 & L2 & _ & _).
  unfold convert_tensor. rewrite H. assert (Sup : conv_supported (qt_el src) (qt_el dst) = true) by (destruct (qt_el src), (qt_el dst); reflexivity). rewrite Sup.
  unfold convert_run. set (ti := qt_t src) in *. set (to := qt_t dst) in *. set (sh := t_shape ti) in *.
  pose proof FI as (A1 & _). pose proof FO as (A2 & _). destruct (chk_tensor_pos ti C1 A1) as (H4 & Hp & _). fold sh in H4, Hp, A1. rewrite <- ES in A2.
  set (ax := conv_axis src dst).
  assert (Hax : ax < Z.of_nat (length sh) /\ (ax < 0 -> ax = -1)).
  { unfold ax, conv_axis. unfold axis_ok, t_rank in AS, AD. fold ti to in AS, AD. fold to ti. rewrite <- ES in AD. fold sh in AS, AD.
    destruct (el_sa (qt_el dst)); cbn [andb]; rewrite !Z.geb_leb; [destruct (Z.leb_spec 0 (t_qdim to)); [specialize (AD eq_refl); lia|]|];
      (destruct (el_sa (qt_el src)); cbn [andb]; [|lia]; destruct (Z.leb_spec 0 (t_qdim ti)); [specialize (AS eq_refl); lia|lia]). }
  destruct Hax as [Hax Hax1].
  assert (Ed : scale_dim src dst = am_dim ax sh).
  { unfold scale_dim, am_dim, ax, conv_axis, t_rank. fold ti to sh. destruct (el_sa (qt_el dst) && (t_qdim to >=? 0)) eqn:E1; [apply andb_true_iff in E1; destruct E1 as [_ E1]; now rewrite E1|].
    destruct (el_sa (qt_el src) && (t_qdim ti >=? 0)) eqn:E2; [apply andb_true_iff in E2; destruct E2 as [_ E2]; now rewrite E2|]. reflexivity. }
  set (n := scales_num src dst).
  assert (En : n = if ax >=? 0 then nth (Z.to_nat ax) sh 0 else 1).
  { unfold n, scales_num. rewrite Ed. unfold am_dim. unfold ax at 2 4, conv_axis. fold ti to. rewrite <- ES. fold sh.
    assert (G : forall a, 0 <= a < Z.of_nat (length sh) -> nth (Z.to_nat (a + (4 - Z.of_nat (length sh)))) (pad_front 4 1 sh) 0 = nth (Z.to_nat a) sh 0).
    { intros a Ha. unfold pad_front. rewrite app_nth2; rewrite repeat_length; [|lia].
 replace (Z.to_nat (a + (4 - Z.of_nat (length sh))) - (4 - length sh))%nat with (Z.to_nat a) by lia. reflexivity. }
    assert (Xax : ax = conv_axis src dst) by reflexivity. unfold conv_axis in Xax. fold ti to in Xax.
    destruct (el_sa (qt_el dst) && (t_qdim to >=? 0)) eqn:E1.
    - apply andb_true_iff in E1. destruct E1 as [_ E1]. rewrite Xax in *. rewrite E1. rewrite Z.geb_leb in E1. apply Z.leb_le in E1. apply G. lia.
    - destruct (el_sa (qt_el src) && (t_qdim ti >=? 0)) eqn:E2; [|now rewrite Xax].
      apply andb_true_iff in E2. destruct E2 as [_ E2]. rewrite Xax in *. rewrite E2. rewrite Z.geb_leb in E2. apply Z.leb_le in E2. apply G. lia. }
  rewrite Ed. fold n. set (k4 := (4 - length sh)%nat). change (pad_front 4 1 sh) with (repeat 1 k4 ++ sh).
  assert (Es1 : pad_front 4 0 (t_stride ti) = repeat 0 k4 ++ t_stride ti) by (unfold pad_front, k4; rewrite <- A1; reflexivity).
  assert (Es2 : pad_front 4 0 (t_stride to) = repeat 0 k4 ++ t_stride to) by (unfold pad_front, k4; rewrite <- A2; reflexivity).
  rewrite Es1, Es2.
  rewrite (foldM_nested (fun k c m0 => do x <- load m0 (t_data ti + addr (repeat 0 k4 ++ t_stride ti) c);
     store m0 (t_data to + addr (repeat 0 k4 ++ t_stride to) c) (convert_elem rm (qt_el src) (qt_el dst) (q_at src k) (q_at dst k) x))).
  set (L := flat_map _ _).
  (* what the list of the loops contains *)
  assert (HL : forall p, In p L <-> exists c, valid sh c /\ p = ((if ax >=? 0 then nth (Z.to_nat ax) c 0 else 0), repeat 0 k4 ++ c)).
  { intros [k q]. unfold L. rewrite in_flat_map. split.
    - intros (k' & Hk & Hq). apply in_map_iff in Hq. destruct Hq as (q' & E & Hq). inversion E; subst k' q'. apply in_zrange in Hk.
      destruct (am_slice_box sh ax k H4 Hp Hax) as (_ & X2 & _ & _). { intros; rewrite En, Z.geb_leb in Hk; destruct (Z.leb_spec 0 ax); lia. }
      apply in_am_box in Hq; [|reflexivity]. destruct (X2 q Hq) as (c & -> & Hc & Hk2). exists c. split; [exact Hc|]. f_equal.
      rewrite Z.geb_leb in *. destruct (Z.leb_spec 0 ax); [now rewrite Hk2|lia].
    - intros (c & Hc & E). inversion E; subst k q. exists (if ax >=? 0 then nth (Z.to_nat ax) c 0 else 0).
      assert (Hk : 0 <= (if ax >=? 0 then nth (Z.to_nat ax) c 0 else 0) < n).
      { rewrite En. rewrite Z.geb_leb. destruct (Z.leb_spec 0 ax); [|lia]. rewrite (nth_indep sh 0 1) by lia. apply (nth_valid sh c); auto; lia. }
      split; [apply in_zrange; lia|]. apply in_map. apply in_am_box; [reflexivity|].
      destruct (am_slice_box sh ax (if ax >=? 0 then nth (Z.to_nat ax) c 0 else 0) H4 Hp Hax) as (_ & _ & X3 & _).
      { intros; rewrite En, Z.geb_leb in Hk; rewrite Z.geb_leb; destruct (Z.leb_spec 0 ax); lia. }
      apply X3; [exact Hc|]. intros G. rewrite Z.geb_leb. destruct (Z.leb_spec 0 ax); [reflexivity|lia]. }
  assert (ND : NoDup L).
  { unfold L. clear. apply NoDup_flat_map; [apply zrange_NoDup| |].
    - intros k _. apply FinFun.Injective_map_NoDup; [intros a b E; congruence|apply am_box_NoDup].
    - intros x y b _ _ P1 P2. apply in_map_iff in P1, P2. destruct P1 as (x1 & E & _). destruct P2 as (y1 & E2 & _). congruence. }
  assert (AI : forall c, valid sh c -> allocated m (t_data ti + addr (t_stride ti) c)) by (apply chk_backed; auto).
  assert (AO : forall c, valid sh c -> allocated m (t_data to + addr (t_stride to) c)) by (rewrite ES; apply chk_backed; auto).
  destruct (chk_tensor_nested to FO C2) as (NO & _). rewrite <- ES in NO. fold sh in NO.
  destruct (foldM_inplace (fun p => t_data to + addr (repeat 0 k4 ++ t_stride to) (snd p))
     (fun p => convert_elem rm (qt_el src) (qt_el dst) (q_at src (fst p)) (q_at dst (fst p)) (rd m (t_data ti + addr (repeat 0 k4 ++ t_stride ti) (snd p))))
     (fun p a => a = t_data ti + addr (repeat 0 k4 ++ t_stride ti) (snd p))
     (fun p m0 => do x <- load m0 (t_data ti + addr (repeat 0 k4 ++ t_stride ti) (snd p));
        store m0 (t_data to + addr (repeat 0 k4 ++ t_stride to) (snd p)) (convert_elem rm (qt_el src) (qt_el dst) (q_at src (fst p)) (q_at dst (fst p)) x)) L m) as (m' & E & V & F); auto.
  - intros p m1 Hp1 Hr. apply HL in Hp1. destruct Hp1 as (c & Hc & ->). cbn [fst snd] in *. rewrite !addr_pad in *. unfold load. rewrite (Hr _ eq_refl). unfold rd.
    specialize (AI c Hc). unfold allocated in AI. destruct (m (t_data ti + addr (t_stride ti) c)) as [x|]; [reflexivity|contradiction].
  - intros p Hp1. apply HL in Hp1. destruct Hp1 as (c & Hc & ->). cbn [snd]. rewrite addr_pad. auto.
  - intros p q Hp1 Hq1 E. apply HL in Hp1, Hq1. destruct Hp1 as (c & Hc & ->). destruct Hq1 as (c' & Hc' & ->). cbn [snd] in E. rewrite !addr_pad in E.
    assert (c = c') as -> by (apply (nested_inj sh (t_stride to)); auto; lia). reflexivity.
  - intros p q Hp1 Hq1 Hne E. apply HL in Hp1, Hq1. destruct Hp1 as (c & Hc & ->). destruct Hq1 as (c' & Hc' & ->). cbn [snd] in E. rewrite !addr_pad in E.
    assert (Hcc : c <> c') by (intros ->; now apply Hne). unfold unary_ok in U. rewrite <- ES in U. apply (U c c' Hc Hc' Hcc). lia.
  - exists m'. split; [unfold bind in E |- *; rewrite E; reflexivity|]. rewrite <- ES. split.
    + intros c Hc. fold sh in Hc. set (k := if ax >=? 0 then nth (Z.to_nat ax) c 0 else 0). pose proof (V (k, repeat 0 k4 ++ c)) as Vc. cbn [fst snd] in Vc. rewrite !addr_pad in Vc.
      assert (Hq : q_at src k = fmt src c /\ q_at dst k = fmt dst c).
      { apply q_at_fmt; auto. fold ax. intros G. unfold k. rewrite Z.geb_leb. destruct (Z.leb_spec 0 ax); [reflexivity|lia]. }
      destruct Hq as [Q1 Q2]. rewrite Q1, Q2 in Vc. eexists. split; [apply Vc; apply HL; exists c; auto|]. split; [reflexivity|].
      destruct (HQ c Hc) as (G1 & G2). destruct (HX c Hc) as (G4 & G5). now apply convert_elem_close.
    + intros a Ha. apply F. intros p Hp1. apply HL in Hp1. destruct Hp1 as (c & Hc & ->). cbn [snd]. rewrite addr_pad. intros E2. apply (Ha c); [rewrite <- ES; exact Hc|]. now symmetry.
Qed.

(** ** What the checks accept and the function gets wrong *)

(** The data pointers are only compared for tensors of the same element type: an 8-bit conversion from FX to SA in place with different
    strides is accepted, although elements are overwritten before they are read. *)
Definition ip_mem : mem := fun a => if (0 <=? a) && (a <? 100) then Some a else None.

Definition ip_src3 : qtensor := mkQT (mkTensor 0 100 1 [3; 2] [3; 1] false (-1) 0) EL_FX_8 (fun _ => mkQ 1 0 0).
Definition ip_dst3 : qtensor := mkQT (mkTensor 0 100 1 [3; 2] [6; 1] true (-1) 0) EL_SA_8 (fun _ => mkQ 1 0 5).

Theorem convert_inplace_strides_refuted : chk_convert ip_src3 ip_dst3 = ST_OK /\ t_data (qt_t ip_src3) = t_data (qt_t ip_dst3)
  /\ exists c v, valid (t_shape (qt_t ip_dst3)) c
    /\ (match convert_tensor RM_UP ip_src3 ip_dst3 ip_mem with (_, Some m) => m (t_data (qt_t ip_dst3) + addr (t_stride (qt_t ip_dst3)) c) | _ => None end) = Some v
    /\ ~ conv_close 8 (fmt ip_src3 c) (fmt ip_dst3 c) (rd ip_mem (t_data (qt_t ip_src3) + addr (t_stride (qt_t ip_src3)) c)) v.
Proof.
  split; [reflexivity|]. split; [reflexivity|]. exists [2; 0], 13. split; [cbn; lia|]. split; [vm_compute; reflexivity|].
  intros [_ H]. revert H. unfold within. vm_compute. intros H. now apply H.
Qed.

(** ** Non-vacuity *)

Definition cx_src : qtensor := mkQT (mkTensor 0 40 2 [2; 3] [4; 1] false (-1) 0) EL_FX_16 (fun _ => mkQ 1 8 0).
Definition cx_dst : qtensor := mkQT (mkTensor 50 40 1 [2; 3] [3; 1] true 1 0) EL_SA_8 (fun k => mkQ (100 + k) 10 (k - 1)).
Definition cx_mem : mem := fun a => if (0 <=? a) && (a <? 100) then Some (a * 100 - 300) else None.

Example convert_tensor_ex : exists m', convert_tensor RM_UP cx_src cx_dst cx_mem = (ST_OK, Some m')
  /\ map (fun c => m' (50 + addr [3; 1] c)) (coords [2; 3]) = [Some (-13); Some (-8); Some (-3); Some 3; Some 8; Some 13].
Proof.
  destruct (convert_tensor_correct RM_UP cx_src cx_dst cx_mem) as (m' & E & V & _).
  - reflexivity.
  - discriminate.
  - intros H; discriminate.
  - intros _; reflexivity.
  - split; [reflexivity|]. split; [cbn; lia|]. split; [repeat constructor; cbn; discriminate|compute; discriminate].
  - split; [reflexivity|]. split; [cbn; lia|]. split; [repeat constructor; cbn; discriminate|compute; discriminate].
  - intros a H1 H2. cbn [qt_t cx_src t_esz t_cap t_data] in *. unfold allocated, cx_mem. destruct (Z.leb_spec 0 (0 + a)); [|lia]. destruct (Z.ltb_spec (0 + a) 100); [discriminate|lia].
  - intros a H1 H2. cbn [qt_t cx_dst t_esz t_cap t_data] in *. unfold allocated, cx_mem. destruct (Z.leb_spec 0 (50 + a)); [|lia]. destruct (Z.ltb_spec (50 + a) 100); [discriminate|lia].
  - intros c c' H1 H2 _ E. cbn [qt_t cx_src cx_dst t_shape t_stride t_data] in *. destruct c as [|a [|b [|]]]; cbn [valid] in H1; try tauto. destruct c' as [|a' [|b' [|]]]; cbn [valid] in H2; try tauto. cbn [addr] in E. lia.
  - intros c H1. cbn [qt_t cx_src t_shape] in *. destruct c as [|a [|b [|]]]; cbn [valid] in H1; try tauto.
    change (fmt cx_src [a; b]) with (mkQ 1 8 0). change (fmt cx_dst [a; b]) with (mkQ (100 + b) 10 (b - 1)). unfold q16_ok. cbn [q_scale q_frac q_zp]. rewrite !ib8, !ib16. lia.
  - intros c H1. cbn [qt_t cx_src t_shape] in *. destruct c as [|a [|b [|]]]; cbn [valid] in H1; try tauto. cbv zeta.
    assert (Hr : in_bits 16 (rd cx_mem (t_data (qt_t cx_src) + addr (t_stride (qt_t cx_src)) [a; b]))).
    { cbn [qt_t cx_src t_data t_stride addr]. unfold rd, cx_mem. match goal with |- context [if ?x then _ else _] => destruct x eqn:Ex end; [|apply ib16; lia].
      apply andb_true_iff in Ex. destruct Ex as [E1 E2]. apply Z.leb_le in E1. apply Z.ltb_lt in E2. apply ib16. lia. }
    split; [exact Hr|]. apply diff_ok_fx; [exact Hr|reflexivity].
  - exists m'. split; [exact E|]. cbn [coords]. change (zrange 0 2) with [0; 1]. change (zrange 0 3) with [0; 1; 2]. cbn [flat_map map app].
    assert (V' : forall c, valid [2; 3] c -> m' (50 + addr [3; 1] c) = Some (convert_elem RM_UP EL_FX_16 EL_SA_8 (fmt cx_src c) (fmt cx_dst c) (rd cx_mem (0 + addr [4; 1] c)))).
    { intros c Hc. destruct (V c Hc) as (v & E1 & E2 & _). cbn [qt_t cx_src cx_dst t_data t_stride qt_el] in *. now rewrite E1, E2. }
    rewrite !V' by (cbn; lia). vm_compute. reflexivity.
Qed.

(** 100 steps of 1/256 with scale 1/3 (341/1024) are 1.17 units. *)
Example convert_elem_ex : convert_elem RM_UP EL_FX_8 EL_SA_8 (mkQ 1 8 0) (mkQ 341 10 (-5)) 100 = -4
  /\ convert_elem RM_UP EL_SA_32 EL_FX_8 (mkQ 3 4 7) (mkQ 1 2 0) 1000 = 127 /\ convert_elem RM_UP EL_SA_32 EL_FX_8 (mkQ 3 4 7) (mkQ 1 2 0) 107 = 75.
Proof. vm_compute. auto. Qed.
