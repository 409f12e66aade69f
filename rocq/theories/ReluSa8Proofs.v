(** Leaky ReLU and PReLU of SA8 tensors: accuracy (C38). *)
From Coq Require Import ZArith QArith Qabs List Lia Lqa Bool.
From Verif Require Import Base FxMath FxMathProofs Tensor TensorProofs MovProofs PermuteProofs ArgMax QSpec Quant QuantProofs QuantCastProofs DotProdProofs PoolKernels ConvTheorems FullyConnProofs Eltwise EltwiseProofs EltwiseSa8Proofs Relu ReluProofs.
Import ListNotations.
Open Scope Z_scope.

(** * Relative errors *)

Lemma clamp_err2 (e x I : Q) (r zp : Z) : in_bits 8 zp -> (1 # 2 <= e)%Q -> (e <= 3 # 4)%Q ->
  within (Qabs I * (17 # 131072)) x I ->
  (within e x (inject_Z r) \/ (256 <= r /\ (255 + (3 # 4) <= x)%Q) \/ (r <= - 256 /\ (x <= - (255 + (3 # 4)))%Q)) ->
  within (e + (1 # 28)) (inject_Z (sat 8 (r + zp))) (qclamp (- (128)) 127 (I + inject_Z zp)).
Proof.
  intros Hz He1 He2 Hx Hr. apply (proj1 (ib8 _)) in Hz.
  assert (Z1 : (- (128) <= inject_Z zp <= 127)%Q).
  { change (- (128))%Q with (inject_Z (-128)). change 127%Q with (inject_Z 127). rewrite !inj_le. lia. }
  assert (S : sat 8 (r + zp) = Z.max (-128) (Z.min 127 (r + zp))) by reflexivity. 
  unfold within in *. apply Qabs_Qle_condition in Hx. apply Qabs_Qle_condition.
  assert (IX : ((x <= 256 + 1 -> I <= 259) /\ (-(257) <= x -> -(259) <= I) /\ (255 + (3 # 4) <= x -> 255 + (1#2) <= I)
    /\ (x <= -(255 + (3 # 4)) -> I <= -(255 + (1#2))) /\ (257 <= x -> 255 <= I) /\ (x <= -(257) -> I <= -(255)))%Q).
  { destruct (Qlt_le_dec I 0) as [G|G].
    - rewrite (Qabs_neg I) in Hx by lra. repeat split; intros; lra.
    - rewrite (Qabs_pos I) in Hx by lra. repeat split; intros; lra. }
  destruct IX as (I1 & I2 & I3 & I4 & I5 & I6).
  assert (RZ : (inject_Z (r + zp) == inject_Z r + inject_Z zp)%Q) by (rewrite inject_Z_plus; reflexivity).
  destruct (qclamp_cases (- (128)) 127 (I + inject_Z zp) ltac:(reflexivity)) as [[C1 C2]|[[C1 C2]|[C1 C2]]]; rewrite C2; clear C2.
  all: assert (S' : (sat 8 (r + zp) = -128 /\ r + zp <= -128) \/ (sat 8 (r + zp) = 127 /\ 127 <= r + zp) \/
     (sat 8 (r + zp) = r + zp /\ -128 <= r + zp <= 127)) by lia.
  all: destruct S' as [[-> S1]|[[-> S1]|[-> S1]]].
  all: change (inject_Z (-128)) with (- (128))%Q; change (inject_Z 127) with (127)%Q.
  all: try (assert (T1 : (inject_Z (r + zp) <= - (128))%Q) by (change (- (128))%Q with (inject_Z (-128)); apply inj_le; lia)).
  all: try (assert (T2 : (127 <= inject_Z (r + zp))%Q) by (change (127)%Q with (inject_Z 127); apply inj_le; lia)).
  all: try (assert (T3 : (- (128) <= inject_Z (r + zp) <= 127)%Q) by (change (- (128))%Q with (inject_Z (-128)); change (127)%Q with (inject_Z 127); rewrite !inj_le; lia)).
  all: rewrite ?RZ in *.
  all: destruct Hr as [Hr|[[Hr1 Hr2]|[Hr1 Hr2]]]; [apply Qabs_Qle_condition in Hr| |].
  all: try (assert (256 <= inject_Z r)%Q by (change (256)%Q with (inject_Z 256); apply inj_le; lia)).
  all: try (assert (inject_Z r <= -(256))%Q by (change (-(256))%Q with (inject_Z (-256)); apply inj_le; lia)).
  all: try (split; lra).
  all: destruct (Qlt_le_dec I 0) as [G|G];
    [rewrite (Qabs_neg I) in Hx by lra|rewrite (Qabs_pos I) in Hx by lra]; split; lra.
Qed.

(** [x] is [y] with a relative error of at most [e]. *)
Definition relq (e x y : Q) : Prop := within (Qabs y * e) x y.

Lemma relq_mul e1 e2 x1 y1 x2 y2 : (0 <= e1)%Q -> (0 <= e2)%Q -> relq e1 x1 y1 -> relq e2 x2 y2 -> relq (e1 + e2 + e1 * e2) (x1 * x2) (y1 * y2).
Proof.
  unfold relq, within. intros P1 P2 H1 H2.
  setoid_replace (x1 * x2 - y1 * y2)%Q with ((x1 - y1) * (x2 - y2) + ((x1 - y1) * y2 + y1 * (x2 - y2)))%Q by ring.
  eapply Qle_trans; [apply Qabs_triangle|]. rewrite (Qabs_Qmult (x1 - y1) (x2 - y2)).
  assert (T : (Qabs ((x1 - y1) * y2 + y1 * (x2 - y2)) <= Qabs (x1 - y1) * Qabs y2 + Qabs y1 * Qabs (x2 - y2))%Q).
  { eapply Qle_trans; [apply Qabs_triangle|]. rewrite !Qabs_Qmult. apply Qle_refl. }
  rewrite Qabs_Qmult. pose proof (Qabs_nonneg y1) as A1. pose proof (Qabs_nonneg y2) as A2. pose proof (Qabs_nonneg (x1 - y1)) as D1. pose proof (Qabs_nonneg (x2 - y2)) as D2.
  set (a := Qabs y1) in *. set (b := Qabs y2) in *. set (d1 := Qabs (x1 - y1)) in *. set (d2 := Qabs (x2 - y2)) in *.
  assert (M1 : (d1 * d2 <= (a * e1) * (b * e2))%Q).
  { apply Qle_trans with (d1 * (b * e2))%Q.
    - rewrite !(Qmult_comm d1). apply Qmult_le_compat_r; auto.
    - apply Qmult_le_compat_r; auto. apply Qmult_le_0_compat; auto. }
  assert (M2 : (d1 * b <= (a * e1) * b)%Q) by (apply Qmult_le_compat_r; auto).
  assert (M3 : (a * d2 <= a * (b * e2))%Q) by (rewrite !(Qmult_comm a); apply Qmult_le_compat_r; auto).
  setoid_replace (a * b * (e1 + e2 + e1 * e2))%Q with ((a * e1) * (b * e2) + ((a * e1) * b + a * (b * e2)))%Q by ring. lra.
Qed.

Lemma relq_trans e1 e2 x y z : (0 <= e1)%Q -> relq e1 x y -> relq e2 y z -> relq (e1 + e2 + e1 * e2) x z.
Proof.
  unfold relq, within. intros P1 H1 H2. setoid_replace (x - z)%Q with ((x - y) + (y - z))%Q by ring.
  eapply Qle_trans; [apply Qabs_triangle|].
  assert (Y : (Qabs y <= Qabs z + Qabs z * e2)%Q).
  { setoid_replace y with (z + (y - z))%Q at 1 by ring. eapply Qle_trans; [apply Qabs_triangle|]. lra. }
  assert (M : (Qabs y * e1 <= (Qabs z + Qabs z * e2) * e1)%Q) by (apply Qmult_le_compat_r; auto).
  setoid_replace (Qabs z * (e1 + e2 + e1 * e2))%Q with ((Qabs z + Qabs z * e2) * e1 + Qabs z * e2)%Q by ring. lra.
Qed.

Lemma relq_weaken e e' x y : (e <= e')%Q -> relq e x y -> relq e' x y.
Proof. unfold relq. intros H. apply within_weaken. rewrite !(Qmult_comm (Qabs y)). apply Qmult_le_compat_r; [auto|apply Qabs_nonneg]. Qed.

Lemma relq_compat e x y x' y' : (x == x')%Q -> (y == y')%Q -> relq e x y -> relq e x' y'.
Proof. unfold relq. intros E1 E2. apply within_compat; auto. now rewrite E2. Qed.

Lemma relq_refl e x : (0 <= e)%Q -> relq e x x.
Proof.
  unfold relq, within. intros. setoid_replace (x - x)%Q with 0%Q by ring. change (Qabs 0) with 0%Q. apply Qmult_le_0_compat; [apply Qabs_nonneg|auto].
Qed.

(** * Normalization of signed values *)

Lemma norm_signed rm q : in_bits 32 q -> exists s r, norm_cast_fx rm 32 16 q = (r, s) /\ -16 <= s <= 16 /\ in_bits 16 r
  /\ relq (1 # 32768) (inject_Z r * pow2q s) (inject_Z q).
Proof.
  intros Hq. unfold norm_cast_fx. change (16 <? 32) with true. cbv iota zeta. change (32 - 16) with 16.
  pose proof (norm_fx_range 32 q ltac:(lia) Hq) as Rk. change (32 - 1) with 31 in Rk.
  set (k := norm_fx 32 q) in *. set (s := 16 - k). exists s, (cast_narrow rm 32 16 q s). split; [reflexivity|]. split; [unfold s; lia|].
  assert (E : cast_narrow rm 32 16 q s = sat 16 (scale_rnd rm q s)).
  { rewrite (cast_narrow_exact rm 32 16 q s) by (auto; unfold s; lia). unfold scale_rnd. reflexivity. }
  rewrite E. split; [apply sat_in_bits; lia|].
  destruct (Z.eq_dec q 0) as [->|H0].
  { assert (Z0 : scale_rnd rm 0 s = 0).
    { unfold scale_rnd. destruct (Z.leb_spec 0 s); [|reflexivity]. rewrite <- (Z.mul_0_l (2 ^ s)). now apply rnd_exact. }
    rewrite Z0. change (sat 16 0) with 0. unfold relq, within. setoid_replace (inject_Z 0 * pow2q s - inject_Z 0)%Q with 0%Q by (unfold inject_Z; ring). discriminate. }
  destruct (norm_fx_spec 32 q ltac:(lia) Hq H0) as (_ & B1 & B2). fold k in B1, B2.
  replace (k + 1) with (1 + k) in B2 by lia. rewrite pow2_split in B2 by lia. change (2 ^ 1) with 2 in B2.
  rewrite ib32 in B1. assert (B2' : ~ (-2147483648 <= q * (2 * 2 ^ k) <= 2147483647)) by (intros X; apply B2, ib32, X).
  clear B2. pose proof (pow2_gt0 k ltac:(lia)) as Pk.
  (* |q| 2^k is in [2^30, 2^31] *)
  assert (L : 2 ^ 30 <= Z.abs q * 2 ^ k <= 2 ^ 31) by (change (2 ^ 30) with 1073741824; change (2 ^ 31) with 2147483648; nia).
  destruct (Z_le_gt_dec 0 s) as [Hs|Hs].
  - assert (P : 2 ^ k * 2 ^ s = 2 ^ 16) by (rewrite <- pow2_split by (unfold s; lia); f_equal; unfold s; lia).
    pose proof (pow2_gt0 s Hs) as Ps. unfold scale_rnd. destruct (Z.leb_spec 0 s); [|lia].
    pose proof (rnd_nearest rm q s Hs) as N. set (r := rnd rm q s) in *.
    assert (NB : - 2 ^ s <= 2 * (q - r * 2 ^ s) <= 2 ^ s) by (destruct rm; unfold nearest, nearest_up, nearest_even in N; lia).
    assert (LQ : 2 ^ 14 * 2 ^ s <= Z.abs q <= 2 ^ 15 * 2 ^ s).
    { change (2 ^ 30) with (2 ^ 14 * 2 ^ 16) in L. change (2 ^ 31) with (2 ^ 15 * 2 ^ 16) in L. rewrite <- P in L. nia. }
    assert (LQ2 : 0 < q -> q < 2 ^ 15 * 2 ^ s).
    { intros. assert (q * 2 ^ k < 2 ^ 31) by (change (2 ^ 31) with 2147483648; lia). change (2 ^ 31) with (2 ^ 15 * 2 ^ 16) in *. rewrite <- P in *. nia. }
    change (2 ^ 14) with 16384 in *. change (2 ^ 15) with 32768 in *. set (w := 2 ^ s) in *.
    assert (RB : -32768 <= r <= 32768) by nia.
    assert (SE : Z.abs (sat 16 r * w - q) * 32768 <= Z.abs q).
    { assert (sat 16 r = Z.min r 32767) as -> by (unfold sat, clamp; change (smin 16) with (-32768); change (smax 16) with 32767; lia).
      destruct (Z.eq_dec r 32768) as [-> |]; [change (Z.min 32768 32767) with 32767|rewrite Z.min_l by lia]; nia. }
    unfold relq, within. rewrite pow2q_nonneg by lia. fold w. rewrite <- inject_Z_mult. unfold Qminus. rewrite <- inject_Z_opp, <- inject_Z_plus.
    replace (sat 16 r * w + - q) with (sat 16 r * w - q) by lia.
    change (Qabs (inject_Z (sat 16 r * w - q))) with (inject_Z (Z.abs (sat 16 r * w - q))). change (Qabs (inject_Z q)) with (inject_Z (Z.abs q)).
    apply (Qmult_le_r _ _ (inject_Z 32768)); [reflexivity|]. rewrite <- inject_Z_mult.
    setoid_replace (inject_Z (Z.abs q) * (1 # 32768) * inject_Z 32768)%Q with (inject_Z (Z.abs q)) by (unfold inject_Z; field). apply inj_le. exact SE.
  - unfold scale_rnd. destruct (Z.leb_spec 0 s); [lia|].
    assert (P : 2 ^ (- s) * 2 ^ 16 = 2 ^ k) by (rewrite <- pow2_split by lia; f_equal; unfold s; lia).
    assert (SB : sat 16 (q * 2 ^ (- s)) = q * 2 ^ (- s)).
    { apply sat_id, ib16. rewrite <- P in B1. change (2 ^ 16) with 65536 in B1. pose proof (pow2_gt0 (- s) ltac:(lia)). nia. }
    rewrite SB. apply (relq_compat _ (inject_Z q) (inject_Z q)); [|reflexivity|apply relq_refl; discriminate].
    rewrite inject_Z_mult, <- pow2q_nonneg by lia. rewrite <- Qmult_assoc, (Qmult_comm (pow2q (- s))), pow2q_opp. ring.
Qed.

(** * The multipliers *)

Lemma identity_spec rm i o : qpar_ok i -> qpar_ok o -> (qrs i / qrs o <= inject_Z (2 ^ 14))%Q ->
  let p := leaky_identity rm i o in
  2 ^ 14 <= rq_scale p < 2 ^ 15 /\ 0 <= rq_shift p <= 300 /\ rq_offset p = q_zp o /\ relq (1 # 16384) (fxval (rq_shift p) (rq_scale p)) (qrs i / qrs o).
Proof.
  intros Hi Ho Hr. pose proof (requant_ratio rm i o Hi Ho) as R. cbv zeta in R. destruct (requant_eq rm i o Hi Ho) as (E1 & E2 & _).
  destruct (requant_core i o ltac:(apply Hi) ltac:(apply Ho)) as (C1 & _ & _ & _ & C5).
  pose proof (qrs_pos _ Hi) as Pi. pose proof (qrs_pos _ Ho) as Po. fold (qrs i) in R. fold (qrs o) in R.
  set (p0 := define_requant_params rm i o) in *. destruct R as [R1 R2].
  assert (RP : (0 < qrs i / qrs o)%Q) by (unfold Qdiv; apply Qmult_lt_0_compat; [auto|now apply Qinv_lt_0_compat]).
  set (ratio := (qrs i / qrs o)%Q) in *.
  assert (Sh : 0 <= rq_shift p0 <= 300).
  { split.
    - destruct (Z_le_gt_dec 0 (rq_shift p0)) as [|G]; [assumption|exfalso].
      assert (F : (inject_Z (2 ^ 15) <= fxval (rq_shift p0) (rq_scale p0))%Q).
      { rewrite fxval_neg by lia. apply inj_le. pose proof (pow2_le 1 (- rq_shift p0) ltac:(lia) ltac:(lia)). change (2 ^ 1) with 2 in *.
        change (2 ^ 15) with 32768. change (2 ^ 14) with 16384 in R1. nia. }
      unfold within in R2. apply Qabs_Qle_condition in R2. change (inject_Z (2 ^ 15)) with 32768%Q in F. change (inject_Z (2 ^ 14)) with 16384%Q in Hr. lra.
    - rewrite E2. destruct Hi as (_ & Fi & _), Ho as (_ & Fo & _). rewrite ib8 in Fi, Fo. lia. }
  assert (EP : leaky_identity rm i o = mkRequant (rq_scale p0) (rq_shift p0) (q_zp o)).
  { assert (W : wrap 16 (q_scale o) = q_scale o) by (apply wrap_id; [lia|]; apply ib16; destruct Ho; lia).
    assert (ES : leaky_identity rm i o = mkRequant (asl_fx 16 (rq_scale p0) (max_fx (- rq_shift p0) 0)) (max_fx (rq_shift p0) 0) (q_zp o)).
    { unfold p0, leaky_identity, define_requant_params. rewrite W. destruct (norm_cast_fx rm 32 16 _) as [sc ns]. cbn [rq_scale rq_shift]. reflexivity. }
    rewrite ES. assert (max_fx (- rq_shift p0) 0 = 0) as -> by (unfold max_fx; rewrite Z.gtb_ltb; destruct (Z.ltb_spec 0 (- rq_shift p0)); lia).
    assert (max_fx (rq_shift p0) 0 = rq_shift p0) as -> by (unfold max_fx; rewrite Z.gtb_ltb; destruct (Z.ltb_spec 0 (rq_shift p0)); lia).
    f_equal. change (2 ^ 14) with 16384 in R1. change (2 ^ 15) with 32768 in R1. 
    rewrite asl_fx_pos by (try apply ib16; lia). rewrite Z.pow_0_r, Z.mul_1_r. apply sat_id. apply ib16. lia. }
  rewrite EP. cbn [rq_scale rq_shift rq_offset]. split; [lia|]. split; [lia|]. split; [reflexivity|].
  unfold relq. revert R2. apply within_compat; [rewrite Qabs_pos by lra; reflexivity|reflexivity|reflexivity].
Qed.

(** The factor of negative elements. *)
Lemma alpha_spec rm i s o a : qpar_ok i -> qpar_ok o -> (qrs i / qrs o <= inject_Z (2 ^ 14))%Q ->
  0 < q_scale s <= 32767 -> in_bits 8 (q_frac s) -> -16384 <= q_zp s <= 16383 -> in_bits 8 a ->
  let p := leaky_alpha rm s o (leaky_identity rm i o) a in
  in_bits 16 (rq_scale p) /\ rq_offset p = q_zp o
  /\ relq (17 # 131072) (fxval (rq_shift p) (rq_scale p)) (qrs i / qrs o * sa_real s a).
Proof.
  intros Hi Ho Hr Hs Fs Zs Ha. destruct (identity_spec rm i o Hi Ho Hr) as (I1 & I2 & _ & I4). set (idp := leaky_identity rm i o) in *.
  rewrite ib8 in Ha, Fs. change (2 ^ 14) with 16384 in I1. change (2 ^ 15) with 32768 in I1.
  unfold leaky_alpha. rewrite (wrap_id 16 (a - q_zp s)) by (try apply ib16; lia).
  set (v := (a - q_zp s) * q_scale s). assert (Bv : Z.abs v <= 2 ^ 30) by (change (2 ^ 30) with 1073741824; unfold v; nia).
  change (2 ^ 30) with 1073741824 in Bv.
  assert (V : cast_narrow rm 64 32 v 0 = v).
  { rewrite cast_narrow_spec by (try apply ib64; lia). change (asr_rnd_fx rm 64 v 0) with v. apply sat_id, ib32. lia. }
  rewrite V. destruct (norm_signed rm v ltac:(apply ib32; lia)) as (n1 & al & E1 & N1 & B1 & W1). rewrite E1. rewrite ib16 in B1.
  destruct (norm_signed rm (rq_scale idp * al) ltac:(apply ib32; nia)) as (n2 & sc & E2 & N2 & B2 & W2). rewrite E2.
  cbn [rq_scale rq_shift rq_offset]. split; [exact B2|]. split; [reflexivity|].
  rewrite wrap_id by (try apply ib16; lia).
  (* sc 2^n2 ~ scale * al ; al 2^n1 ~ v ; scale 2^-shift ~ ratio *)
  assert (T1 : relq (1 # 32768) (fxval (rq_shift idp + q_frac s - n1 - n2) sc) (fxval (rq_shift idp + q_frac s - n1) (rq_scale idp * al))).
  { pose proof (relq_mul (1 # 32768) 0 _ _ _ _ ltac:(discriminate) ltac:(discriminate) W2 (relq_refl 0 (pow2q (- (rq_shift idp + q_frac s - n1))) ltac:(discriminate))) as M.
    apply (relq_weaken _ (1 # 32768)) in M; [|vm_compute; discriminate]. revert M. apply relq_compat; [|reflexivity].
    unfold fxval. rewrite <- Qmult_assoc, <- pow2q_plus. replace (n2 + - (rq_shift idp + q_frac s - n1)) with (- (rq_shift idp + q_frac s - n1 - n2)) by lia. reflexivity. }
  assert (T2 : relq (1 # 32768) (fxval (q_frac s - n1) al) (sa_real s a)).
  { pose proof (relq_mul (1 # 32768) 0 _ _ _ _ ltac:(discriminate) ltac:(discriminate) W1 (relq_refl 0 (pow2q (- q_frac s)) ltac:(discriminate))) as M.
    apply (relq_weaken _ (1 # 32768)) in M; [|vm_compute; discriminate]. revert M. apply relq_compat.
    - unfold fxval. rewrite <- Qmult_assoc, <- pow2q_plus. replace (n1 + - q_frac s) with (- (q_frac s - n1)) by lia. reflexivity.
    - unfold sa_real, saval, v. reflexivity. }
  pose proof (relq_mul (1 # 16384) (1 # 32768) _ _ _ _ ltac:(discriminate) ltac:(discriminate) I4 T2) as T3.
  assert (X : (fxval (rq_shift idp + q_frac s - n1) (rq_scale idp * al) == fxval (rq_shift idp) (rq_scale idp) * fxval (q_frac s - n1) al)%Q).
  { rewrite <- fxval_mul. replace (rq_shift idp + (q_frac s - n1)) with (rq_shift idp + q_frac s - n1) by lia. reflexivity. }
  apply (relq_compat _ _ _ (fxval (rq_shift idp + q_frac s - n1) (rq_scale idp * al)) (qrs i / qrs o * sa_real s a)) in T3; [|symmetry; exact X|reflexivity].
  pose proof (relq_trans (1 # 32768) _ _ _ _ ltac:(discriminate) T1 T3) as T. revert T. apply relq_weaken. vm_compute. discriminate.
Qed.

(** * One element *)

Lemma sa8_one_eq rm p d zp : in_bits 16 (rq_scale p) -> -255 <= d <= 255 -> rq_offset p = zp -> in_bits 8 zp ->
  cast_narrow rm 32 8 (add_fx 32 (asr_rnd_fx rm 32 (rq_scale p * d) (rq_shift p)) (rq_offset p)) 0 = sat 8 (scale_rnd rm (rq_scale p * d) (rq_shift p) + zp).
Proof.
  intros Hs Hd -> Hz. rewrite ib16 in Hs. rewrite ib8 in Hz. set (v := rq_scale p * d). set (k := rq_shift p).
  assert (Bv : Z.abs v <= 8355840) by (unfold v; nia).
  assert (E : asr_rnd_fx rm 32 v k = sat 32 (scale_rnd rm v k)).
  { unfold scale_rnd. destruct (Z.leb_spec 0 k).
    - rewrite asr_rnd_fx_spec; [|lia|apply ib32; lia|apply small_rnd_safe; [lia|change (2 ^ (32 - 2)) with 1073741824; lia|lia]].
      unfold rshift_spec. destruct (Z.leb_spec 0 k); [|lia].
      rewrite sat_id; [reflexivity|]. apply ib32. pose proof (rnd_nearest rm v k ltac:(lia)) as N. pose proof (pow2_gt0 k ltac:(lia)).
      set (r := rnd rm v k) in *. assert (- 2 ^ k <= 2 * (v - r * 2 ^ k) <= 2 ^ k) by (destruct rm; unfold nearest, nearest_up, nearest_even in N; lia). nia.
    - destruct (asr_rnd_fx_total rm 32 v k ltac:(lia) ltac:(apply ib32; lia)) as (_ & _ & T). rewrite T by lia. reflexivity. }
  rewrite E. set (r := scale_rnd rm v k).
  rewrite (add_fx_spec 32) by (try apply sat_in_bits; try apply ib32; lia).
  rewrite cast_narrow_spec by (try apply sat_in_bits; lia).
  change (asr_rnd_fx rm 32 (sat 32 (sat 32 r + zp)) 0) with (sat 32 (sat 32 r + zp)).
  unfold sat, clamp. change (smin 32) with (-2147483648). change (smax 32) with 2147483647. change (smin 8) with (-128). change (smax 8) with 127. lia.
Qed.

(** The real value of the activation. *)
Definition leaky_real (alpha x : Q) : Q := if Qle_bool 0 x then x else (alpha * x)%Q.

(** Quantization parameters as their types and the checks allow, with an input step of at most 2^14 output steps. *)
Definition leaky_scales (i o : qpar) : Prop := (qrs i <= inject_Z (2 ^ 14) * qrs o)%Q.

(** C38 (SA8), one element: the result is the real activation in units of the output, clipped to 8 bits, with an error below
    1/2 + 1/28. *)
Theorem leaky_sa8_value rm i s o a x :
  chk_leaky_quant i s o = true -> qpar_typed i -> qpar_typed s -> qpar_typed o -> leaky_scales i o -> in_bits 8 a -> in_bits 8 x ->
  within ((1 # 2) + (1 # 28))
    (inject_Z (leaky_sa8_one rm (q_zp i) (leaky_identity rm i o) (leaky_alpha rm s o (leaky_identity rm i o) a) x))
    (qclamp (- (128)) 127 (leaky_real (sa_real s a) (sa_real i x) / real_scale (q_scale o) (q_frac o) + inject_Z (q_zp o))).
Proof.
  intros Hc Ti Ts To Hr Ha Hx. change (real_scale (q_scale o) (q_frac o)) with (qrs o).
  unfold chk_leaky_quant in Hc. cbn [forallb] in Hc. rewrite !andb_true_iff, !Z.ltb_lt, !Z.leb_le in Hc.
  assert (Hi : qpar_ok i) by (apply qpar_typed_ok; auto; lia). assert (Ho : qpar_ok o) by (apply qpar_typed_ok; auto; lia).
  pose proof (qrs_pos _ Hi) as Pi. pose proof (qrs_pos _ Ho) as Po.
  assert (Hr' : (qrs i / qrs o <= inject_Z (2 ^ 14))%Q) by (apply Qle_shift_div_r; auto).
  destruct Ts as [Ts1 Ts2]. rewrite ib16 in Ts1.
  destruct (identity_spec rm i o Hi Ho Hr') as (I1 & I2 & I3 & I4).
  destruct (alpha_spec rm i s o a Hi Ho Hr' ltac:(lia) Ts2 ltac:(lia) Ha) as (A1 & A2 & A3).
  set (idp := leaky_identity rm i o) in *. set (alp := leaky_alpha rm s o idp a) in *.
  destruct (off_bits x (q_zp i) Hx ltac:(apply Hi)) as [D1 D2]. assert (Zo : in_bits 8 (q_zp o)) by apply Ho.
  change (2 ^ 14) with 16384 in I1. change (2 ^ 15) with 32768 in I1.
  unfold leaky_sa8_one. rewrite D1.
  assert (SX : (sa_real i x == inject_Z (x - q_zp i) * qrs i)%Q) by apply sa_real_eq.
  set (d := x - q_zp i) in *.
  assert (Sel : Qle_bool 0 (sa_real i x) = (x >=? q_zp i)).
  { apply eq_true_iff_eq. rewrite Qle_bool_iff, Z.geb_le, SX. split; intros G.
    - destruct (Z_le_gt_dec (q_zp i) x) as [|L]; [assumption|exfalso]. assert (N : (inject_Z d <= -(1))%Q) by (change (-(1))%Q with (inject_Z (-1)); apply inj_le; unfold d; lia).
      assert ((inject_Z d * qrs i <= -(1) * qrs i)%Q) by (apply Qmult_le_compat_r; lra). lra.
    - apply Qmult_le_0_compat; [|lra]. change 0%Q with (inject_Z 0). apply inj_le. unfold d; lia. }
  unfold leaky_real. rewrite Sel. destruct (x >=? q_zp i).
  - rewrite (sa8_one_eq rm idp d (q_zp o)) by (auto; try apply ib16; lia).
    assert (T : within ((1 # 2) + (1 # 32)) (inject_Z (sat 8 (scale_rnd rm (rq_scale idp * d) (rq_shift idp) + q_zp o))) (qclamp (- (128)) 127 (inject_Z d * (qrs i / qrs o) + inject_Z (q_zp o)))).
    { apply clamp_err with (x := (inject_Z d * fxval (rq_shift idp) (rq_scale idp))%Q); [exact Zo|discriminate|discriminate| |].
      - pose proof (relq_mul 0 (1 # 16384) _ _ _ _ ltac:(discriminate) ltac:(discriminate) (relq_refl 0 (inject_Z d) ltac:(discriminate)) I4) as M.
        apply (relq_weaken _ (13 # 131072)) in M; [exact M|vm_compute; discriminate].
      - left. pose proof (scale_rnd_within rm (rq_scale idp * d) (rq_shift idp)) as W. revert W. apply within_compat; [reflexivity| |reflexivity].
        rewrite Z.mul_comm. apply fxval_mul_l. }
    apply (within_weaken _ ((1 # 2) + (1 # 28))) in T; [|discriminate]. revert T. apply within_compat; [reflexivity|reflexivity|]. apply qclamp_compat.
    rewrite SX. field. lra.
  - rewrite (sa8_one_eq rm alp d (q_zp o)) by (auto; lia).
    assert (T : within ((1 # 2) + (1 # 28)) (inject_Z (sat 8 (scale_rnd rm (rq_scale alp * d) (rq_shift alp) + q_zp o))) (qclamp (- (128)) 127 (inject_Z d * (qrs i / qrs o * sa_real s a) + inject_Z (q_zp o)))).
    { apply clamp_err2 with (x := (inject_Z d * fxval (rq_shift alp) (rq_scale alp))%Q); [exact Zo|discriminate|discriminate| |].
      - pose proof (relq_mul 0 (17 # 131072) _ _ _ _ ltac:(discriminate) ltac:(discriminate) (relq_refl 0 (inject_Z d) ltac:(discriminate)) A3) as M.
        apply (relq_weaken _ (17 # 131072)) in M; [exact M|vm_compute; discriminate].
      - left. pose proof (scale_rnd_within rm (rq_scale alp * d) (rq_shift alp)) as W. revert W. apply within_compat; [reflexivity| |reflexivity].
        rewrite Z.mul_comm. apply fxval_mul_l. }
    revert T. apply within_compat; [reflexivity|reflexivity|]. apply qclamp_compat. rewrite SX. field. lra.
Qed.

(** C38 (leaky ReLU, SA8). *)
Theorem leaky_relu_sa8_correct rm i s o tin tslope tout imm m :
  chk_leaky_quant i s o = true -> qpar_typed i -> qpar_typed s -> qpar_typed o -> leaky_scales i o ->
  chk_leaky_relu tin tslope tout = ST_OK -> t_rank tin <> 0 ->
  fits32 tin -> fits32 tout -> backed tin m -> backed tout m -> unary_ok tin tout -> operand_ok tslope m ->
  mem_bits 8 m -> in_bits 8 imm ->
  exists m', leaky_relu_sa8 rm i s o tin tslope tout imm m = Some m'
    /\ (forall c, valid (t_shape tout) c -> exists r, m' (t_data tout + addr (t_stride tout) c) = Some r
         /\ within ((1 # 2) + (1 # 28)) (inject_Z r)
              (qclamp (- (128)) 127 (leaky_real (sa_real s (elt_arg m tslope imm [])) (sa_real i (rd m (t_data tin + addr (t_stride tin) c)))
                                      / real_scale (q_scale o) (q_frac o) + inject_Z (q_zp o))))
    /\ frame_ok tout m m'.
Proof.
  intros Hq Ti Ts To Hr Hc R FI FO BI BO U OS Hm Hi. unfold chk_leaky_relu in Hc. destruct (chk_relu tin tout) eqn:C; try discriminate.
  destruct (scalar_slope tslope m imm Hc OS) as (a & Ea & Va).
  unfold leaky_relu_sa8. rewrite Ea. cbn [bind]. rewrite Va.
  assert (Ba : in_bits 8 a) by (rewrite <- Va; apply elt_arg_bits; auto; lia).
  destruct (map_tensor_correct (leaky_sa8_one rm (q_zp i) (leaky_identity rm i o) (leaky_alpha rm s o (leaky_identity rm i o) a)) tin tout m C R FI FO BI BO U) as (m' & E & V & F).
  exists m'. split; [exact E|]. split; [|exact F]. intros c Hv. eexists. split; [now apply V|]. apply leaky_sa8_value; auto. apply rd_bits; auto. lia.
Qed.

(** C38 (PReLU, SA8). *)
Theorem prelu_sa8_correct rm i s o tin tslope tout axis imm m :
  chk_leaky_quant i s o = true -> qpar_typed i -> qpar_typed s -> qpar_typed o -> leaky_scales i o ->
  chk_prelu tin tslope tout axis = ST_OK -> t_rank tin <> 0 -> 0 <= axis ->
  fits32 tin -> fits32 tslope -> fits32 tout -> backed tin m -> backed tslope m -> backed tout m -> unary_ok tin tout -> slope_ok tslope tout axis ->
  mem_bits 8 m ->
  exists m', prelu_sa8 rm i s o tin tslope tout axis imm m = Some m'
    /\ (forall c, valid (t_shape tout) c -> exists r, m' (t_data tout + addr (t_stride tout) c) = Some r
         /\ within ((1 # 2) + (1 # 28)) (inject_Z r)
              (qclamp (- (128)) 127 (leaky_real (sa_real s (rd m (slope_addr tslope axis (nth (Z.to_nat axis) c 0)))) (sa_real i (rd m (t_data tin + addr (t_stride tin) c)))
                                      / real_scale (q_scale o) (q_frac o) + inject_Z (q_zp o))))
    /\ frame_ok tout m m'.
Proof.
  intros Hq Ti Ts To Hr Hc R Ha FI FS FO BI BS BO U SO Hm. unfold prelu_sa8. destruct (Z.eqb_spec axis (-1)); [lia|].
  destruct (prelu_loop (fun a => leaky_sa8_one rm (q_zp i) (leaky_identity rm i o) (leaky_alpha rm s o (leaky_identity rm i o) a)) tin tslope tout axis m)
    as (m' & E & V & F); auto.
  exists m'. split; [exact E|]. split; [|exact F]. intros c Hv. eexists. split; [now apply V|]. apply leaky_sa8_value; auto; apply rd_bits; auto; lia.
Qed.

(** Without the limit on the scales negative elements can be wrong: with an input step of 2^22 output steps and a slope of -2^-16,
    -1 step should give 64, but the multiplier of the identity was saturated and the result is 0. *)
Theorem leaky_sa8_scales_refuted : exists rm i s o a x, chk_leaky_quant i s o = true /\ qpar_typed i /\ qpar_typed s /\ qpar_typed o /\ in_bits 8 a /\ in_bits 8 x
  /\ (leaky_real (sa_real s a) (sa_real i x) / real_scale (q_scale o) (q_frac o) == 64)%Q
  /\ leaky_sa8_one rm (q_zp i) (leaky_identity rm i o) (leaky_alpha rm s o (leaky_identity rm i o) a) x = 0.
Proof.
  exists RM_UP, (mkQ 16384 (-8) 0), (mkQ 1 16 0), (mkQ 16384 14 0), (-1), (-1).
  split; [reflexivity|]. do 3 (split; [unfold qpar_typed; cbn; rewrite ib8, ib16; lia|]). split; [apply ib8; lia|]. split; [apply ib8; lia|].
  split; vm_compute; reflexivity.
Qed.

(** * Non-vacuity *)

Definition lk_i : qpar := mkQ 20000 18 3.
Definition lk_s : qpar := mkQ 30000 22 (-100).
Definition lk_o : qpar := mkQ 24000 19 (-7).
Example lk_hyps : chk_leaky_quant lk_i lk_s lk_o = true /\ qpar_typed lk_i /\ qpar_typed lk_s /\ qpar_typed lk_o /\ leaky_scales lk_i lk_o.
Proof. split; [reflexivity|]. do 3 (split; [unfold qpar_typed; cbn; rewrite ib8, ib16; lia|]). vm_compute. discriminate. Qed.

(** 40 is (40 - 3) * 1.6667 - 7 = 54.67; -40 with the slope (20 + 100) * 30000 / 2^22 = 0.858 is -43 * 1.6667 * 0.858 - 7 = -68.5 *)
Example lk_run : map (leaky_sa8_one RM_UP (q_zp lk_i) (leaky_identity RM_UP lk_i lk_o) (leaky_alpha RM_UP lk_s lk_o (leaky_identity RM_UP lk_i lk_o) 20)) [40; 3; -40; -128]
  = [55; -7; -69; -128].
Proof. reflexivity. Qed.
