(** Conversion between integer tensors and float tensors (C80). *)
From Coq Require Import ZArith Reals List Lia Lra Bool.
From Flocq Require Import Core Relative IEEE754.BinarySingleNaN IEEE754.Binary IEEE754.Bits.
From Verif Require Import Base FxMath FxMathProofs Tensor TensorProofs ArgMax ArgMaxProofs MovProofs PermuteProofs Quant QuantProofs
  PoolKernels DotProdProofs ConvTheorems Eltwise EltwiseProofs Relu ReluProofs LutProofs L2Proofs Convert ConvertProofs FloatConv.
Import ListNotations.
Open Scope Z_scope.

(** * Specification *)

(** The single precision number nearest to a real number, ties to even. *)
Definition rnd32 (x : R) : R := round radix2 (FLT_exp (-149) 24) ZnearestE x.

(** The step between the values of an integer format: the scale divided by two to the number of fractional bits. *)
Definition fl_step (q : qpar) : R := (IZR (q_scale q) * bpow radix2 (- q_frac q))%R.

(** The real value that [x] stands for. *)
Definition fl_real (q : qpar) (x : Z) : R := (IZR (x - q_zp q) * fl_step q)%R.

(** The value of a float *)
Definition fval (v : binary32) : R := B2R 24 128 v.
Definition ffin (v : binary32) : bool := is_finite 24 128 v.

(** Formats whose scale is not rounded to zero or to infinity. *)
Definition fl_ok (q : qpar) : Prop := 1 <= q_scale q <= 32767 /\ -88 <= q_frac q <= 127 /\ in_bits 16 (q_zp q).

(** * Single operations *)

Local Instance vexp32 : Valid_exp (FLT_exp (-149) 24) := FLT_exp_valid (-149) 24 (prec_gt_0_ := f_prec).

Lemma fmt32 m e : Z.abs m <= 2 ^ 24 -> -149 <= e -> generic_format radix2 (FLT_exp (-149) 24) (IZR m * bpow radix2 e).
Proof.
  intros Hm He. apply generic_format_FLT. destruct (Z.eq_dec (Z.abs m) (2 ^ 24)) as [E|N].
  - exists (Float radix2 (Z.sgn m) (e + 24)).
    + unfold F2R. cbn [Fnum Fexp]. rewrite bpow_plus. replace m with (Z.sgn m * 2 ^ 24) at 1 by lia. rewrite mult_IZR. change (bpow radix2 24) with (IZR (2 ^ 24)). ring.
    + cbn [Fnum]. change (Zpower radix2 24) with (2 ^ 24). lia.
    + cbn [Fexp]. lia.
  - exists (Float radix2 m e); [reflexivity| |exact He]. cbn [Fnum]. change (Zpower radix2 24) with (2 ^ 24). lia.
Qed.

Lemma rnd32_exact x : generic_format radix2 (FLT_exp (-149) 24) x -> rnd32 x = x.
Proof. intros H. unfold rnd32. apply round_generic; [apply valid_rnd_N|exact H]. Qed.

Lemma rnd32_small x : (Rabs x <= bpow radix2 127)%R -> Rlt_bool (Rabs (rnd32 x)) (bpow radix2 128) = true.
Proof.
  intros H. apply Rlt_bool_true. apply Rle_lt_trans with (bpow radix2 127).
  - apply abs_round_le_generic; [apply vexp32|apply valid_rnd_N| |exact H]. apply generic_format_bpow'; [apply vexp32|]. unfold FLT_exp. cbn. lia.
  - apply bpow_lt. lia.
Qed.

Lemma f_of_int_val z : Z.abs z <= 2 ^ 24 -> fval (f_of_int z) = IZR z /\ ffin (f_of_int z) = true.
Proof.
  intros H. pose proof (binary_normalize_correct 24 128 f_prec f_prec_emax mode_NE z 0 false) as P.
  assert (E : F2R (Float radix2 z 0) = IZR z) by (unfold F2R; cbn [Fnum Fexp bpow]; ring).
  rewrite E in P. change (round radix2 (SpecFloat.fexp 24 128) (BinarySingleNaN.round_mode mode_NE) (IZR z)) with (rnd32 (IZR z)) in P.
  assert (G : rnd32 (IZR z) = IZR z). { apply rnd32_exact. replace (IZR z) with (IZR z * bpow radix2 0)%R by (cbn [bpow]; ring). apply fmt32; lia. }
  rewrite rnd32_small in P.
  - destruct P as (P1 & P2 & _). rewrite G in P1. split; [exact P1|exact P2].
  - rewrite <- abs_IZR. apply Rle_trans with (IZR (2 ^ 24)); [now apply IZR_le|]. change (IZR (2 ^ 24)) with (bpow radix2 24). apply bpow_le. lia.
Qed.

Lemma f_ldexp_val x e : (Rabs (fval x * bpow radix2 e) <= bpow radix2 127)%R -> fval (f_ldexp x e) = rnd32 (fval x * bpow radix2 e) /\ ffin (f_ldexp x e) = ffin x.
Proof.
  intros H. pose proof (Bldexp_correct 24 128 f_prec f_prec_emax mode_NE x e) as P.
  change (round radix2 (SpecFloat.fexp 24 128) (BinarySingleNaN.round_mode mode_NE) (B2R 24 128 x * bpow radix2 e)) with (rnd32 (fval x * bpow radix2 e)) in P.
  rewrite rnd32_small in P by exact H. destruct P as (P1 & P2 & _). split; [exact P1|exact P2].
Qed.

Lemma f_mult_val x y : (Rabs (fval x * fval y) <= bpow radix2 127)%R -> fval (b32_mult mode_NE x y) = rnd32 (fval x * fval y) /\ ffin (b32_mult mode_NE x y) = ffin x && ffin y.
Proof.
  intros H. pose proof (Bmult_correct 24 128 eq_refl eq_refl binop_nan_pl32 mode_NE x y) as P.
  change (round radix2 (SpecFloat.fexp 24 128) (BinarySingleNaN.round_mode mode_NE) (B2R 24 128 x * B2R 24 128 y)) with (rnd32 (fval x * fval y)) in P.
  rewrite rnd32_small in P by exact H. destruct P as (P1 & P2 & _). split; [exact P1|exact P2].
Qed.

Lemma f_div_val x y : fval y <> 0%R -> (Rabs (fval x / fval y) <= bpow radix2 127)%R -> fval (b32_div mode_NE x y) = rnd32 (fval x / fval y) /\ ffin (b32_div mode_NE x y) = ffin x.
Proof.
  intros Hy H. pose proof (Bdiv_correct 24 128 eq_refl eq_refl binop_nan_pl32 mode_NE x y Hy) as P.
  change (round radix2 (SpecFloat.fexp 24 128) (BinarySingleNaN.round_mode mode_NE) (B2R 24 128 x / B2R 24 128 y)) with (rnd32 (fval x / fval y)) in P.
  rewrite rnd32_small in P by exact H. destruct P as (P1 & P2 & _). split; [exact P1|exact P2].
Qed.

Lemma f_plus_val x y : ffin x = true -> ffin y = true -> (Rabs (fval x + fval y) <= bpow radix2 127)%R ->
  fval (b32_plus mode_NE x y) = rnd32 (fval x + fval y) /\ ffin (b32_plus mode_NE x y) = true.
Proof.
  intros Fx Fy H. pose proof (Bplus_correct 24 128 eq_refl eq_refl binop_nan_pl32 mode_NE x y Fx Fy) as P.
  change (round radix2 (SpecFloat.fexp 24 128) (BinarySingleNaN.round_mode mode_NE) (B2R 24 128 x + B2R 24 128 y)) with (rnd32 (fval x + fval y)) in P.
  rewrite rnd32_small in P by exact H. destruct P as (P1 & P2 & _). split; [exact P1|exact P2].
Qed.

(** One rounding: a relative error of 2^-24, and below the normal numbers an absolute one of 2^-150. *)
Definition e24 : R := bpow radix2 (-24).
Lemma rnd32_err x : exists eps eta, (Rabs eps <= e24)%R /\ (Rabs eta <= bpow radix2 (-150))%R /\ rnd32 x = (x * (1 + eps) + eta)%R.
Proof.
  destruct (error_N_FLT radix2 (-149) 24 f_prec (fun n => negb (Z.even n)) x) as (eps & eta & H1 & H2 & _ & H4). exists eps, eta.
  assert (E : forall k, (/ 2 * bpow radix2 k)%R = bpow radix2 (k - 1)). { intros k. unfold Z.sub. rewrite Z.add_comm, bpow_plus. reflexivity. }
  rewrite E in H1, H2. split; [exact H1|]. split; [exact H2|exact H4].
Qed.

(** * From integers *)

Lemma deq_scale_val q : fl_ok q -> fval (deq_scale q) = fl_step q /\ ffin (deq_scale q) = true.
Proof.
  intros (Hs & Hf & _). unfold deq_scale. destruct (f_of_int_val (q_scale q)) as (V & F); [lia|].
  assert (B : (Rabs (fval (f_of_int (q_scale q)) * bpow radix2 (- q_frac q)) <= bpow radix2 127)%R).
  { rewrite V, Rabs_mult, <- abs_IZR, (Rabs_pos_eq (bpow _ _)) by apply bpow_ge_0.
    apply Rle_trans with (bpow radix2 15 * bpow radix2 88)%R; [|rewrite <- bpow_plus; apply bpow_le; lia].
    apply Rmult_le_compat; [apply IZR_le; lia|apply bpow_ge_0| |apply bpow_le; lia]. change (bpow radix2 15) with (IZR 32768). apply IZR_le. lia. }
  destruct (f_ldexp_val _ _ B) as (V2 & F2). rewrite F2, F. split; [|reflexivity]. rewrite V2, V. apply rnd32_exact. apply fmt32; lia.
Qed.

(** C80: a dequantized element is the single precision number nearest to its real value. *)
Theorem dequantize_nearest q x : fl_ok q -> Z.abs (x - q_zp q) <= 2 ^ 24 ->
  ffin (dequantize_elem q x) = true /\ fval (dequantize_elem q x) = rnd32 (fl_real q x).
Proof.
  intros Hq Hx. destruct (deq_scale_val q Hq) as (V & F). destruct Hq as (Hs & Hf & Hz). unfold dequantize_elem.
  assert (S : sub_fx 32 x (q_zp q) = x - q_zp q). { change (2 ^ 24) with 16777216 in Hx. rewrite ib16 in Hz. rewrite sub_fx_spec; [|lia|apply ib32; lia|apply ib32; lia]. apply sat_id. apply ib32. lia. }
  rewrite S. destruct (f_of_int_val (x - q_zp q) Hx) as (V1 & F1).
  assert (B : (Rabs (fval (f_of_int (x - q_zp q)) * fval (deq_scale q)) <= bpow radix2 127)%R).
  { rewrite V, V1. unfold fl_step. rewrite !Rabs_mult, <- !abs_IZR, (Rabs_pos_eq (bpow _ _)) by apply bpow_ge_0.
    apply Rle_trans with (bpow radix2 24 * (bpow radix2 15 * bpow radix2 88))%R; [|rewrite <- !bpow_plus; apply bpow_le; lia].
    apply Rmult_le_compat; [apply IZR_le; lia|apply Rmult_le_pos; [apply IZR_le; lia|apply bpow_ge_0]|change (bpow radix2 24) with (IZR (2 ^ 24)); now apply IZR_le|].
    apply Rmult_le_compat; [apply IZR_le; lia|apply bpow_ge_0| |apply bpow_le; lia]. change (bpow radix2 15) with (IZR 32768). apply IZR_le. lia. }
  destruct (f_mult_val _ _ B) as (V2 & F2). rewrite F2, F, F1. split; [reflexivity|]. rewrite V2, V, V1. reflexivity.
Qed.

(** With a scale of one, as in the FX formats, nothing is lost. *)
Theorem dequantize_exact q x : fl_ok q -> q_scale q = 1 -> Z.abs (x - q_zp q) <= 2 ^ 24 -> fval (dequantize_elem q x) = fl_real q x.
Proof.
  intros Hq Hs Hx. destruct (dequantize_nearest q x Hq Hx) as (_ & V). rewrite V. apply rnd32_exact. unfold fl_real, fl_step. rewrite Hs. rewrite Rmult_1_l.
  destruct Hq as (_ & Hf & _). apply fmt32; lia.
Qed.

(** * To integers *)

Lemma rnd32_near x : (Rabs (rnd32 x - x) <= Rabs x * / 16777216 + / 1099511627776)%R.
Proof.
  destruct (rnd32_err x) as (eps & eta & H1 & H2 & ->). replace (x * (1 + eps) + eta - x)%R with (x * eps + eta)%R by ring.
  eapply Rle_trans; [apply Rabs_triang|]. rewrite Rabs_mult. apply Rplus_le_compat.
  - apply Rmult_le_compat_l; [apply Rabs_pos|]. exact H1.
  - eapply Rle_trans; [exact H2|]. change (/ 1099511627776)%R with (bpow radix2 (-40)). apply bpow_le. lia.
Qed.

Lemma rnd32_pos x : (0 <= x)%R -> (0 <= rnd32 x)%R.
Proof. intros H. apply round_ge_generic; [apply vexp32|apply valid_rnd_N|apply generic_format_0|exact H]. Qed.
Lemma rnd32_neg x : (x <= 0)%R -> (rnd32 x <= 0)%R.
Proof. intros H. apply round_le_generic; [apply vexp32|apply valid_rnd_N|apply generic_format_0|exact H]. Qed.

Lemma f_half_val b : fval (f_half b) = (if b then - / 2 else / 2)%R /\ ffin (f_half b) = true.
Proof.
  unfold f_half. destruct (f_of_int_val (if b then -1 else 1)) as (V & F); [destruct b; cbn; lia|].
  assert (E : (fval (f_of_int (if b then -1 else 1)) * bpow radix2 (-1))%R = (IZR (if b then -1 else 1) * bpow radix2 (-1))%R) by now rewrite V.
  assert (EV : (IZR (if b then -1 else 1) * bpow radix2 (-1) = if b then - / 2 else / 2)%R) by (destruct b; change (bpow radix2 (-1)) with (/ 2)%R; lra).
  destruct (f_ldexp_val (f_of_int (if b then -1 else 1)) (-1)) as (V2 & F2).
  - rewrite E, EV. apply Rle_trans with 1%R; [destruct b; apply Rabs_le; lra|]. change 1%R with (bpow radix2 0). apply bpow_le. lia.
  - rewrite V2, F2, F, E. split; [|reflexivity]. rewrite rnd32_exact; [exact EV|]. apply fmt32; [destruct b; cbn; lia|lia].
Qed.

Lemma trunc_val r : IZR (Btrunc 24 128 r) = IZR (Ztrunc (fval r)).
Proof. rewrite (Btrunc_correct 24 128 eq_refl). apply round_FIX_IZR. Qed.

(** The product with a factor that is right up to a relative error of 1.01 * 2^-24. *)
Lemma float_scale_close v s X : ffin v = true -> ffin s = true -> (0 < fval s)%R -> (Rabs X <= 2147482624)%R ->
  (Rabs (fval v * fval s - X) <= Rabs X * (101 / 100 * / 16777216))%R ->
  exists t, float_scale v s = Some t /\ (Rabs (IZR t - X) <= / 2 + (Rabs X + 1) * / 4194304)%R.
Proof.
  intros Fv Fs Hs HX HY. unfold float_scale. set (Y := (fval v * fval s)%R) in *. set (A := Rabs X) in *. pose proof (Rabs_pos X : (0 <= A)%R) as HA.
  assert (AY : (Rabs Y <= A * (1 + 101 / 100 * / 16777216))%R). { replace Y with (X + (Y - X))%R by ring. eapply Rle_trans; [apply Rabs_triang|]. fold A. lra. }
  assert (B127 : (4294967296 <= bpow radix2 127)%R). { change 4294967296%R with (bpow radix2 32). apply bpow_le. lia. }
  destruct (f_mult_val v s) as (Vp & Fp); [fold Y; lra|]. fold Y in Vp. rewrite Fv, Fs in Fp. set (pf := b32_mult mode_NE v s) in *. set (p := rnd32 Y) in *.
  pose proof (rnd32_near Y) as NP. fold p in NP.
  assert (NPX : (Rabs (p - X) <= A * (202 / 100 * / 16777216) + / 1099511627776)%R).
  { replace (p - X)%R with ((p - Y) + (Y - X))%R by ring. eapply Rle_trans; [apply Rabs_triang|]. lra. }
  assert (AP : (Rabs p <= A * (1 + 202 / 100 * / 16777216) + / 1099511627776)%R).
  { replace p with (X + (p - X))%R by ring. eapply Rle_trans; [apply Rabs_triang|]. fold A. lra. }
  destruct (f_of_int_val 0) as (V0 & F0); [cbn; lia|].
  unfold b32_compare. rewrite (Bcompare_correct 24 128 v (f_of_int 0) Fv F0). change (B2R 24 128 (f_of_int 0)) with (fval (f_of_int 0)). rewrite V0. change (B2R 24 128 v) with (fval v).
  assert (G : forall b : bool, (if b then p <= 0 else 0 <= p)%R ->
    exists t, (let r := b32_plus mode_NE pf (f_half b) in let t := Btrunc 24 128 r in if is_finite 24 128 r && (smin 32 <=? t) && (t <=? smax 32) then Some t else None) = Some t
      /\ (Rabs (IZR t - X) <= / 2 + (Rabs X + 1) * / 4194304)%R).
  { intros b Hb. destruct (f_half_val b) as (Vh & Fh). set (h := (if b then - / 2 else / 2)%R) in *. assert (Ah : (Rabs h = / 2)%R) by (unfold h; destruct b; [rewrite Rabs_left|rewrite Rabs_right]; lra).
    assert (APH : (Rabs (p + h) <= Rabs p + / 2)%R) by (eapply Rle_trans; [apply Rabs_triang|lra]).
    destruct (f_plus_val pf (f_half b) Fp Fh) as (Vr & Fr); [rewrite Vp, Vh; lra|]. rewrite Vp, Vh in Vr. set (rf := b32_plus mode_NE pf (f_half b)) in *.
    pose proof (trunc_val rf) as Ht. set (t := Btrunc 24 128 rf) in *. rewrite Vr in Ht. set (r := rnd32 (p + h)) in *.
    pose proof (rnd32_near (p + h)) as NR. fold r in NR.
    assert (NRX : (Rabs (r - h - X) <= (A + 1) * / 4194304)%R).
    { replace (r - h - X)%R with ((r - (p + h)) + (p - X))%R by ring. eapply Rle_trans; [apply Rabs_triang|]. lra. }
    assert (NT : (Rabs (IZR t - (r - h)) <= / 2)%R).
    { rewrite Ht. unfold h in *. destruct b.
      - assert (r <= 0)%R by (apply rnd32_neg; lra). rewrite Ztrunc_ceil by lra. pose proof (Zceil_ub r). pose proof (Zceil_lb r). apply Rabs_le. lra.
      - assert (0 <= r)%R by (apply rnd32_pos; lra). rewrite Ztrunc_floor by lra. pose proof (Zfloor_lb r). pose proof (Zfloor_ub r). apply Rabs_le. lra. }
    assert (NTX : (Rabs (IZR t - X) <= / 2 + (A + 1) * / 4194304)%R).
    { replace (IZR t - X)%R with ((IZR t - (r - h)) + (r - h - X))%R by ring. eapply Rle_trans; [apply Rabs_triang|]. lra. }
    assert (T1 : (Rabs (IZR t) <= 2147483647)%R).
    { replace (IZR t) with (X + (IZR t - X))%R by ring. eapply Rle_trans; [apply Rabs_triang|]. fold A. lra. }
    rewrite <- abs_IZR in T1. apply le_IZR in T1. cbv zeta. change (is_finite 24 128 rf) with (ffin rf). rewrite Fr. exists t. split; [|exact NTX].
    unfold smin, smax. change (2 ^ (32 - 1)) with 2147483648. fold t. replace (- (2147483648) <=? t) with true by (symmetry; apply Z.leb_le; lia). replace (t <=? 2147483648 - 1) with true by (symmetry; apply Z.leb_le; lia). reflexivity. }
  destruct (Rcompare_spec (fval v) 0) as [L|L|L].
  - apply (G true). apply rnd32_neg. unfold Y. assert (0 <= (- fval v) * fval s)%R by (apply Rmult_le_pos; lra). lra.
  - apply (G true). apply rnd32_neg. unfold Y. rewrite L. lra.
  - apply (G false). apply rnd32_pos. unfold Y. apply Rmult_le_pos; lra.
Qed.

Lemma quant_scale_val q : fl_ok q -> ffin (quant_scale q) = true /\ (0 < fval (quant_scale q))%R /\ exists e, (Rabs e <= 101 / 100 * / 16777216)%R /\ fval (quant_scale q) = (/ fl_step q * (1 + e))%R.
Proof.
  intros (Hs & Hf & _). unfold quant_scale. destruct (f_of_int_val 1) as (V1 & F1); [cbn; lia|]. destruct (f_of_int_val (q_scale q)) as (V & F); [lia|].
  set (S := IZR (q_scale q)) in *. assert (HS : (1 <= S <= 32767)%R) by (split; apply IZR_le; lia).
  assert (HI : (/ 32768 <= 1 / S <= 1)%R). { split; [|apply Rmult_le_reg_r with S; [lra|]; field_simplify; lra]. unfold Rdiv. rewrite Rmult_1_l. apply Rinv_le; lra. }
  assert (B127 : (1 <= bpow radix2 127)%R). { change 1%R with (bpow radix2 0). apply bpow_le. lia. }
  destruct (f_div_val (f_of_int 1) (f_of_int (q_scale q))) as (V2 & F2); [rewrite V; lra|rewrite V1, V, Rabs_right; lra|].
  rewrite V1, V in V2. set (d := b32_div mode_NE (f_of_int 1) (f_of_int (q_scale q))) in *.
  destruct (rnd32_err (1 / S)) as (eps & eta & He & Ha & ER).
  assert (Hr : (/ 65536 <= rnd32 (1 / S) <= 1)%R).
  { split.
    - apply round_ge_generic; [apply vexp32|apply valid_rnd_N| |lra]. replace (/ 65536)%R with (IZR 1 * bpow radix2 (-16))%R by (change (bpow radix2 (-16)) with (/ 65536)%R; ring). apply fmt32; cbn; lia.
    - apply round_le_generic; [apply vexp32|apply valid_rnd_N| |lra]. replace 1%R with (IZR 1 * bpow radix2 0)%R by (cbn [bpow]; ring). apply fmt32; cbn; lia. }
  assert (G : generic_format radix2 (FLT_exp (-149) 24) (rnd32 (1 / S) * bpow radix2 (q_frac q))).
  { assert (G0 : generic_format radix2 (FLT_exp (-149) 24) (rnd32 (1 / S))) by (apply generic_format_round; [apply vexp32|apply valid_rnd_N]).
    assert (M : -15 <= mag radix2 (rnd32 (1 / S)) <= 1).
    { split; [apply mag_ge_bpow|apply mag_le_bpow; [lra|]]; rewrite Rabs_right by lra; [change (bpow radix2 (-15 - 1)) with (/ 65536)%R; lra|change (bpow radix2 1) with 2%R; lra]. }
    set (w := rnd32 (1 / S)) in *. unfold generic_format in G0. set (mw := Ztrunc (scaled_mantissa radix2 (FLT_exp (-149) 24) w)) in *.
    rewrite G0. unfold F2R. cbn [Fnum Fexp]. rewrite Rmult_assoc, <- bpow_plus. set (e := cexp radix2 (FLT_exp (-149) 24) w) in *.
    assert (Ee : e = mag radix2 w - 24) by (unfold e, cexp, FLT_exp; lia).
    apply fmt32; [|lia].
    assert (Bw : (Rabs (IZR mw) <= bpow radix2 24)%R).
    { apply Rmult_le_reg_r with (bpow radix2 e); [apply bpow_gt_0|]. rewrite <- bpow_plus. rewrite <- (Rabs_pos_eq (bpow radix2 e)) at 1 by apply bpow_ge_0. rewrite <- Rabs_mult.
      replace (IZR mw * bpow radix2 e)%R with w by (rewrite G0 at 1; unfold F2R; reflexivity). rewrite Ee. replace (24 + (mag radix2 w - 24)) with (mag radix2 w : Z) by lia. apply Rlt_le. apply bpow_mag_gt. }
    rewrite <- abs_IZR in Bw. change (bpow radix2 24) with (IZR (2 ^ 24)) in Bw. now apply le_IZR in Bw. }
  pose proof (bpow_gt_0 radix2 (q_frac q)) as Pf.
  destruct (f_ldexp_val d (q_frac q)) as (V3 & F3).
  - rewrite V2, Rabs_mult, (Rabs_right (rnd32 _)), (Rabs_right (bpow _ _)) by lra. apply Rle_trans with (1 * bpow radix2 127)%R; [|lra]. apply Rmult_le_compat; [lra|lra|lra|apply bpow_le; lia].
  - rewrite F3, F2, F1. split; [reflexivity|]. rewrite V3, V2, rnd32_exact by exact G. split; [apply Rmult_lt_0_compat; lra|].
    exists (eps + eta * S)%R. split.
    + eapply Rle_trans; [apply Rabs_triang|]. rewrite Rabs_mult, (Rabs_right S) by lra. change e24 with (/ 16777216)%R in He.
      assert (HE : (Rabs eta * S <= / 1237940039285380274899124224 * 32767)%R).
      { apply Rmult_le_compat; [apply Rabs_pos|lra| |lra]. eapply Rle_trans; [exact Ha|]. change (/ 1237940039285380274899124224)%R with (bpow radix2 (-90)). apply bpow_le. lia. }
      lra.
    + rewrite ER. unfold fl_step. fold S. rewrite bpow_opp. field. split; lra.
Qed.

(** C80: quantization to an integer format. [X] is the value in steps of the format: the result is within half a step of it, up to a
    relative error of 2^-22, plus the zero point, limited to the range of the format. *)
Theorem quantize_close rm no q v : no = 8 \/ no = 16 \/ no = 32 -> fl_ok q -> ffin v = true ->
  let X := (fval v / fl_step q)%R in (Rabs X <= IZR (2 ^ 31 - 1024))%R ->
  exists t, quantize_elem rm no q v = Some (sat no (t + q_zp q)) /\ (Rabs (IZR t - X) <= / 2 + (Rabs X + 1) * / IZR (2 ^ 22))%R.
Proof.
  intros Hn Hq Fv X HX. destruct (quant_scale_val q Hq) as (Fs & Ps & e & He & Vs). pose proof Hq as (Hsc & _ & Hz).
  assert (Pst : (0 < fl_step q)%R). { unfold fl_step. apply Rmult_lt_0_compat; [apply IZR_lt; lia|apply bpow_gt_0]. }
  destruct (float_scale_close v (quant_scale q) X Fv Fs Ps HX) as (t & Et & Nt).
  - rewrite Vs. replace (fval v * (/ fl_step q * (1 + e)) - X)%R with (X * e)%R by (unfold X; field; lra). rewrite Rabs_mult. apply Rmult_le_compat_l; [apply Rabs_pos|exact He].
  - exists t. split; [|exact Nt]. unfold quantize_elem. rewrite Et. cbn [bind]. f_equal.
    assert (Ht : in_bits 32 t).
    { unfold float_scale in Et. destruct (_ && _ && _) eqn:C in Et; [|discriminate]. apply andb_true_iff in C. destruct C as [C C2]. apply andb_true_iff in C. destruct C as [_ C1].
      apply Z.leb_le in C1, C2. assert (E : Btrunc 24 128 (b32_plus mode_NE (b32_mult mode_NE v (quant_scale q)) (f_half match b32_compare v (f_of_int 0) with Some Gt => false | _ => true end)) = t) by congruence.
      rewrite E in C1, C2. split; assumption. }
    rewrite add_fx_spec; [|lia|exact Ht|]. 2:{ rewrite ib16 in Hz. apply ib32. lia. }
    rewrite conv_cast_sat; [|exact Hn|apply sat_in_bits; lia]. apply sat_sat. destruct Hn as [ -> |[ -> | -> ]]; lia.
Qed.

(** C80: quantizing a dequantized element gives it back, for the formats with 8 and 16 bits. *)
Theorem quantize_dequantize rm no q x : no = 8 \/ no = 16 -> fl_ok q -> in_bits no x -> quantize_elem rm no q (dequantize_elem q x) = Some x.
Proof.
  intros Hn Hq Hx. pose proof Hq as (Hs & Hf & Hz). rewrite ib16 in Hz.
  assert (Hx16 : -32768 <= x <= 32767). { destruct Hn as [ -> | -> ]; [rewrite ib8 in Hx; lia|rewrite ib16 in Hx; lia]. }
  set (n := x - q_zp q) in *. assert (Hn16 : Z.abs n <= 65536) by (unfold n; lia).
  destruct (dequantize_nearest q x Hq) as (Fv & Vv); [fold n; change (2 ^ 24) with 16777216; lia|].
  assert (Pst : (0 < fl_step q)%R). { unfold fl_step. apply Rmult_lt_0_compat; [apply IZR_lt; lia|apply bpow_gt_0]. }
  set (v := dequantize_elem q x) in *. set (X := (fval v / fl_step q)%R).
  assert (AN : (Rabs (IZR n) <= 65536)%R) by (rewrite <- abs_IZR; now apply IZR_le).
  assert (NX : (Rabs (X - IZR n) <= / 128)%R).
  { destruct (rnd32_err (fl_real q x)) as (eps & eta & He & Ha & ER). change e24 with (/ 16777216)%R in He. unfold X. rewrite Vv, ER. unfold fl_real. fold n.
    replace ((IZR n * fl_step q * (1 + eps) + eta) / fl_step q - IZR n)%R with (IZR n * eps + eta * / fl_step q)%R by (field; lra).
    eapply Rle_trans; [apply Rabs_triang|]. rewrite !Rabs_mult.
    assert (H1 : (Rabs (IZR n) * Rabs eps <= 65536 * / 16777216)%R) by (apply Rmult_le_compat; auto using Rabs_pos).
    assert (H2 : (Rabs eta * Rabs (/ fl_step q) <= bpow radix2 (-150) * bpow radix2 127)%R).
    { apply Rmult_le_compat; auto using Rabs_pos. rewrite Rabs_right by (apply Rle_ge, Rlt_le, Rinv_0_lt_compat; exact Pst). unfold fl_step. rewrite bpow_opp.
      assert (S1 : (1 <= IZR (q_scale q))%R) by (apply IZR_le; lia). pose proof (bpow_gt_0 radix2 (q_frac q)).
      apply Rle_trans with (bpow radix2 (q_frac q)); [|apply bpow_le; lia].
      replace (/ (IZR (q_scale q) * / bpow radix2 (q_frac q)))%R with (bpow radix2 (q_frac q) * / IZR (q_scale q))%R by (field; lra).
      rewrite <- (Rmult_1_r (bpow radix2 (q_frac q))) at 2. apply Rmult_le_compat_l; [lra|]. rewrite <- Rinv_1. apply Rinv_le; lra. }
    rewrite <- bpow_plus in H2. change (bpow radix2 (-150 + 127)) with (/ 8388608)%R in H2. lra. }
  assert (AX : (Rabs X <= 65537)%R). { replace X with (IZR n + (X - IZR n))%R by ring. eapply Rle_trans; [apply Rabs_triang|]. lra. }
  destruct (quantize_close rm no q v) as (t & Et & Nt); [tauto|exact Hq|exact Fv|fold X; change (IZR (2 ^ 31 - 1024)) with 2147482624%R; lra|]. fold X in Nt. rewrite Et.
  change (IZR (2 ^ 22)) with 4194304%R in Nt.
  assert (E : t = n).
  { assert (D : (Rabs (IZR t - IZR n) < 1)%R). { replace (IZR t - IZR n)%R with ((IZR t - X) + (X - IZR n))%R by ring. eapply Rle_lt_trans; [apply Rabs_triang|]. lra. }
    rewrite <- minus_IZR, <- abs_IZR in D. apply lt_IZR in D. lia. }
  rewrite E. unfold n. replace (x - q_zp q + q_zp q) with x by ring. now rewrite sat_id.
Qed.

(** * Tensors *)

Lemma chk_float_facts ts td : chk_float ts td = ST_OK -> chk_tensor ts = ST_OK /\ chk_tensor td = ST_OK /\ t_shape ts = t_shape td.
Proof.
  unfold chk_float. intros H. destruct (chk_tensor ts); try discriminate. destruct (chk_tensor td); try discriminate.
  destruct (same_shape ts td) eqn:S; [|discriminate]. apply same_shape_eq in S. auto.
Qed.

(** The loops of one conversion: every element of the output is [f] of the element of the input, by the format of its place; nothing else changes. *)
Lemma float_loop_correct t f ts td m g :
  chk_tensor ts = ST_OK -> chk_tensor td = ST_OK -> t_shape ts = t_shape td -> t_shape (qt_t t) = t_shape ts -> axis_ok t ->
  fits32 ts -> fits32 td -> backed ts m -> backed td m -> unary_ok ts td ->
  (forall c, valid (t_shape ts) c -> f (fmt t c) (rd m (t_data ts + addr (t_stride ts) c)) = Some (g c)) ->
  exists m', float_loop t f ts td m = Some m'
    /\ (forall c, valid (t_shape ts) c -> m' (t_data td + addr (t_stride td) c) = Some (g c)) /\ frame_ok td m m'.
Proof.
  intros C1 C2 ES ET AS FI FO BI BO U HF. unfold float_loop. rewrite ET. set (sh := t_shape ts) in *.
  pose proof FI as (A1 & _). pose proof FO as (A2 & _). destruct (chk_tensor_pos ts C1 A1) as (H4 & Hp & _). fold sh in H4, Hp, A1. rewrite <- ES in A2.
  set (ax := if el_sa (qt_el t) && (t_qdim (qt_t t) >=? 0) then t_qdim (qt_t t) else -1).
  assert (Hax : ax < Z.of_nat (length sh) /\ (ax < 0 -> ax = -1)).
  { unfold ax. unfold axis_ok, t_rank in AS. rewrite ET in AS. rewrite Z.geb_leb. destruct (el_sa (qt_el t)); cbn [andb]; [|lia]. specialize (AS eq_refl). destruct (Z.leb_spec 0 (t_qdim (qt_t t))); lia. }
  destruct Hax as [Hax Hax1].
  assert (Ed : fl_dim t = am_dim ax sh).
  { unfold fl_dim, am_dim, ax, t_rank. rewrite ET. destruct (el_sa (qt_el t) && (t_qdim (qt_t t) >=? 0)) eqn:E1; [apply andb_true_iff in E1; destruct E1 as [_ E1]; now rewrite E1|reflexivity]. }
  set (n := fl_num t).
  assert (En : n = if ax >=? 0 then nth (Z.to_nat ax) sh 0 else 1).
  { unfold n, fl_num. rewrite Ed. unfold am_dim. rewrite ET.
    assert (G : forall a, 0 <= a < Z.of_nat (length sh) -> nth (Z.to_nat (a + (4 - Z.of_nat (length sh)))) (pad_front 4 1 sh) 0 = nth (Z.to_nat a) sh 0).
    { intros a Ha. unfold pad_front. rewrite app_nth2; rewrite repeat_length; [|lia].
      replace (Z.to_nat (a + (4 - Z.of_nat (length sh))) - (4 - length sh))%nat with (Z.to_nat a) by lia. reflexivity. }
    destruct (el_sa (qt_el t) && (t_qdim (qt_t t) >=? 0)) eqn:E1.
    - assert (Xax : ax = t_qdim (qt_t t)) by (unfold ax; rewrite ?E1; reflexivity). apply andb_true_iff in E1. destruct E1 as [_ E1]. rewrite Xax in *. rewrite E1. rewrite Z.geb_leb in E1. apply Z.leb_le in E1. apply G. lia.
    - assert (Xax : ax = -1) by (unfold ax; rewrite ?E1; reflexivity). rewrite Xax. reflexivity. }
  rewrite Ed. fold n. set (k4 := (4 - length sh)%nat). change (pad_front 4 1 sh) with (repeat 1 k4 ++ sh).
  assert (Es1 : pad_front 4 0 (t_stride ts) = repeat 0 k4 ++ t_stride ts) by (unfold pad_front, k4; rewrite <- A1; reflexivity).
  assert (Es2 : pad_front 4 0 (t_stride td) = repeat 0 k4 ++ t_stride td) by (unfold pad_front, k4; rewrite <- A2; reflexivity).
  rewrite Es1, Es2.
  rewrite (foldM_nested (fun k c m0 => do x <- load m0 (t_data ts + addr (repeat 0 k4 ++ t_stride ts) c); do y <- f (q_at t k) x;
     store m0 (t_data td + addr (repeat 0 k4 ++ t_stride td) c) y)).
  set (L := flat_map _ _).
  assert (HL : forall p, In p L <-> exists c, valid sh c /\ p = ((if ax >=? 0 then nth (Z.to_nat ax) c 0 else 0), repeat 0 k4 ++ c)).
  { intros [k q]. unfold L. rewrite in_flat_map. split.
    - intros (k' & Hk & Hq). apply in_map_iff in Hq. destruct Hq as (q' & E & Hq). inversion E; subst k' q'. apply in_zrange in Hk.
      destruct (am_slice_box sh ax k H4 Hp Hax) as (_ & X2 & _ & _). { intros; rewrite En, Z.geb_leb in Hk; destruct (Z.leb_spec 0 ax); lia. }
      apply in_am_box in Hq; [|reflexivity]. destruct (X2 q Hq) as (c & -> & Hc & Hk2). exists c. split; [exact Hc|]. f_equal.
      rewrite Z.geb_leb in *. destruct (Z.leb_spec 0 ax); [now rewrite Hk2|lia].
    - intros (c & Hc & E). inversion E; subst k q. exists (if ax >=? 0 then nth (Z.to_nat ax) c 0 else 0).
      assert (Hk : 0 <= (if ax >=? 0 then nth (Z.to_nat ax) c 0 else 0) < n).
      { rewrite En. rewrite Z.geb_leb. destruct (Z.leb_spec 0 ax); [|lia]. rewrite (nth_indep sh 0 1) by lia. apply (nth_valid sh c); auto; lia. }
      split; [apply in_zrange; lia|]. apply in_map. apply in_am_box; [reflexivity|].
      destruct (am_slice_box sh ax (if ax >=? 0 then nth (Z.to_nat ax) c 0 else 0) H4 Hp Hax) as (_ & _ & X3 & _).
      { intros; rewrite En, Z.geb_leb in Hk; rewrite Z.geb_leb; destruct (Z.leb_spec 0 ax); lia. }
      apply X3; [exact Hc|]. intros G. rewrite Z.geb_leb. destruct (Z.leb_spec 0 ax); [reflexivity|lia]. }
  assert (ND : NoDup L).
  { unfold L. clear. apply NoDup_flat_map; [apply zrange_NoDup| |].
    - intros k _. apply FinFun.Injective_map_NoDup; [intros a b E; congruence|apply am_box_NoDup].
    - intros x y b _ _ P1 P2. apply in_map_iff in P1, P2. destruct P1 as (x1 & E & _). destruct P2 as (y1 & E2 & _). congruence. }
  assert (HQ : forall c, q_at t (if ax >=? 0 then nth (Z.to_nat ax) c 0 else 0) = fmt t c).
  { intros c. unfold q_at, fmt, ax. rewrite Z.geb_leb. destruct (el_sa (qt_el t)); cbn [andb]; [|reflexivity]. destruct (Z.leb_spec 0 (t_qdim (qt_t t))) as [G|G].
    - rewrite Z.geb_leb. destruct (Z.leb_spec 0 (t_qdim (qt_t t))); [reflexivity|lia].
    - reflexivity. }
  assert (AI : forall c, valid sh c -> allocated m (t_data ts + addr (t_stride ts) c)) by (apply chk_backed; auto).
  assert (AO : forall c, valid sh c -> allocated m (t_data td + addr (t_stride td) c)) by (rewrite ES; apply chk_backed; auto).
  destruct (chk_tensor_nested td FO C2) as (NO & _). rewrite <- ES in NO.
  destruct (foldM_inplace (fun p => t_data td + addr (repeat 0 k4 ++ t_stride td) (snd p))
     (fun p => match f (q_at t (fst p)) (rd m (t_data ts + addr (repeat 0 k4 ++ t_stride ts) (snd p))) with Some y => y | None => 0 end)
     (fun p a => a = t_data ts + addr (repeat 0 k4 ++ t_stride ts) (snd p))
     (fun p m0 => do x <- load m0 (t_data ts + addr (repeat 0 k4 ++ t_stride ts) (snd p)); do y <- f (q_at t (fst p)) x;
        store m0 (t_data td + addr (repeat 0 k4 ++ t_stride td) (snd p)) y) L m) as (m' & E & V & F); auto.
  - intros p m1 Hp1 Hr. apply HL in Hp1. destruct Hp1 as (c & Hc & ->). cbn [fst snd] in *. rewrite !addr_pad in *. unfold load. rewrite (Hr _ eq_refl). rewrite HQ. pose proof (HF c Hc) as HFc. unfold rd in *.
    specialize (AI c Hc). unfold allocated in AI. destruct (m (t_data ts + addr (t_stride ts) c)) as [x|]; [|contradiction]. cbn [bind]. rewrite HFc. reflexivity.
  - intros p Hp1. apply HL in Hp1. destruct Hp1 as (c & Hc & ->). cbn [snd]. rewrite addr_pad. auto.
  - intros p q Hp1 Hq1 E. apply HL in Hp1, Hq1. destruct Hp1 as (c & Hc & ->). destruct Hq1 as (c' & Hc' & ->). cbn [snd] in E. rewrite !addr_pad in E.
    assert (c = c') as -> by (apply (nested_inj sh (t_stride td)); auto; lia). reflexivity.
  - intros p q Hp1 Hq1 Hne E. apply HL in Hp1, Hq1. destruct Hp1 as (c & Hc & ->). destruct Hq1 as (c' & Hc' & ->). cbn [snd] in E. rewrite !addr_pad in E.
    assert (Hcc : c <> c') by (intros ->; now apply Hne). unfold unary_ok in U. rewrite <- ES in U. apply (U c c' Hc Hc' Hcc). lia.
  - exists m'. split; [unfold bind in E |- *; rewrite E; reflexivity|]. split.
    + intros c Hc. set (k := if ax >=? 0 then nth (Z.to_nat ax) c 0 else 0). pose proof (V (k, repeat 0 k4 ++ c)) as Vc. cbn [fst snd] in Vc. rewrite !addr_pad in Vc.
      unfold k in Vc. rewrite HQ in Vc. rewrite (HF c Hc) in Vc. apply Vc. apply HL. exists c. auto.
    + intros a Ha. apply F. intros p Hp1. apply HL in Hp1. destruct Hp1 as (c & Hc & ->). cbn [snd]. rewrite addr_pad. intros E2. apply (Ha c); [rewrite <- ES; exact Hc|]. now symmetry.
Qed.

(** C80: integer tensor to float tensor: every element of the output is the float nearest to the real value of the element of the input. *)
Theorem dequantize_tensor_correct t tf m :
  chk_float (qt_t t) tf = ST_OK -> axis_ok t -> fits32 (qt_t t) -> fits32 tf -> backed (qt_t t) m -> backed tf m -> unary_ok (qt_t t) tf ->
  (forall c, valid (t_shape (qt_t t)) c -> fl_ok (fmt t c) /\ Z.abs (rd m (t_data (qt_t t) + addr (t_stride (qt_t t)) c) - q_zp (fmt t c)) <= 2 ^ 24) ->
  exists m', dequantize_tensor t tf m = (ST_OK, Some m')
    /\ (forall c, valid (t_shape (qt_t t)) c -> exists v, m' (t_data tf + addr (t_stride tf) c) = Some (f_bits v)
          /\ v = dequantize_elem (fmt t c) (rd m (t_data (qt_t t) + addr (t_stride (qt_t t)) c))
          /\ ffin v = true /\ fval v = rnd32 (fl_real (fmt t c) (rd m (t_data (qt_t t) + addr (t_stride (qt_t t)) c))))
    /\ frame_ok tf m m'.
Proof.
  intros H AX FI FO BI BO U HX. destruct (chk_float_facts _ _ H) as (C1 & C2 & S). unfold dequantize_tensor. rewrite H. unfold dequantize_run.
  destruct (float_loop_correct t (fun q x => Some (f_bits (dequantize_elem q x))) (qt_t t) tf m
    (fun c => f_bits (dequantize_elem (fmt t c) (rd m (t_data (qt_t t) + addr (t_stride (qt_t t)) c))))) as (m' & E & V & F); auto.
  exists m'. rewrite E. split; [reflexivity|]. split; [|exact F]. intros c Hc. eexists. split; [apply V; exact Hc|]. split; [reflexivity|]. destruct (HX c Hc) as (G1 & G2). now apply dequantize_nearest.
Qed.

(** The format of the elements of an integer tensor *)
Definition quantized_as (no : Z) (q : qpar) (v : binary32) (y : Z) : Prop :=
  exists t, y = sat no (t + q_zp q) /\ (Rabs (IZR t - fval v / fl_step q) <= / 2 + (Rabs (fval v / fl_step q) + 1) * / IZR (2 ^ 22))%R.

(** C80: float tensor to integer tensor: every element of the output is within half a step (and a relative error of 2^-22) of the value of the element of the input, or at the end of the range. *)
Theorem quantize_tensor_correct rm tf t m :
  chk_float tf (qt_t t) = ST_OK -> axis_ok t -> fits32 tf -> fits32 (qt_t t) -> backed tf m -> backed (qt_t t) m -> unary_ok tf (qt_t t) ->
  (forall c, valid (t_shape (qt_t t)) c -> let v := f_of_bits (rd m (t_data tf + addr (t_stride tf) c)) in
     fl_ok (fmt t c) /\ ffin v = true /\ (Rabs (fval v / fl_step (fmt t c)) <= IZR (2 ^ 31 - 1024))%R) ->
  exists m', quantize_tensor rm tf t m = (ST_OK, Some m')
    /\ (forall c, valid (t_shape (qt_t t)) c -> exists y, m' (t_data (qt_t t) + addr (t_stride (qt_t t)) c) = Some y
          /\ quantize_elem rm (el_bits (qt_el t)) (fmt t c) (f_of_bits (rd m (t_data tf + addr (t_stride tf) c))) = Some y
          /\ quantized_as (el_bits (qt_el t)) (fmt t c) (f_of_bits (rd m (t_data tf + addr (t_stride tf) c))) y)
    /\ frame_ok (qt_t t) m m'.
Proof.
  intros H AX FI FO BI BO U HX. destruct (chk_float_facts _ _ H) as (C1 & C2 & S). unfold quantize_tensor. rewrite H. unfold quantize_run.
  set (fr c := f_of_bits (rd m (t_data tf + addr (t_stride tf) c))) in *.
  assert (HE : forall c, valid (t_shape (qt_t t)) c -> exists y, quantize_elem rm (el_bits (qt_el t)) (fmt t c) (fr c) = Some y /\ quantized_as (el_bits (qt_el t)) (fmt t c) (fr c) y).
  { intros c Hc. destruct (HX c Hc) as (G1 & G2 & G3). destruct (quantize_close rm (el_bits (qt_el t)) (fmt t c) (fr c)) as (y & E & N); auto; [destruct (qt_el t); auto|]. eexists. split; [exact E|]. exists y. auto. }
  destruct (float_loop_correct t (fun q x => quantize_elem rm (el_bits (qt_el t)) q (f_of_bits x)) tf (qt_t t) m
    (fun c => match quantize_elem rm (el_bits (qt_el t)) (fmt t c) (fr c) with Some y => y | None => 0 end)) as (m' & E & V & F); auto.
  - intros c Hc. rewrite S in Hc. fold (fr c). destruct (HE c Hc) as (y & -> & _). reflexivity.
  - exists m'. rewrite E. split; [reflexivity|]. split; [|exact F]. intros c Hc. destruct (HE c Hc) as (y & Ey & Ny). exists y. rewrite S in V. rewrite (V c Hc). fold (fr c). rewrite Ey. auto.
Qed.

(** The memory of the output stays allocated. *)
Lemma frame_backed t1 m m' : frame_ok t1 m m' -> (forall c, valid (t_shape t1) c -> m' (t_data t1 + addr (t_stride t1) c) <> None) -> forall a, allocated m a -> allocated m' a.
Proof.
  intros F V a Ha. destruct (Classical_Prop.classic (exists c, valid (t_shape t1) c /\ a = t_data t1 + addr (t_stride t1) c)) as [(c & Hc & ->)|N]; [now apply V|].
  unfold allocated. rewrite F; [exact Ha|]. intros c Hc E. apply N. exists c. auto.
Qed.

(** C80: an integer tensor written to a float tensor and read back into a tensor of the same format has the same elements. *)
Theorem float_roundtrip rm t tf t2 m :
  chk_float (qt_t t) tf = ST_OK -> chk_float tf (qt_t t2) = ST_OK -> axis_ok t -> axis_ok t2 ->
  fits32 (qt_t t) -> fits32 tf -> fits32 (qt_t t2) -> backed (qt_t t) m -> backed tf m -> backed (qt_t t2) m -> unary_ok (qt_t t) tf -> unary_ok tf (qt_t t2) ->
  qt_el t = qt_el t2 -> (el_bits (qt_el t) = 8 \/ el_bits (qt_el t) = 16) ->
  (forall c, valid (t_shape (qt_t t)) c -> fmt t2 c = fmt t c /\ fl_ok (fmt t c) /\ in_bits (el_bits (qt_el t)) (rd m (t_data (qt_t t) + addr (t_stride (qt_t t)) c))) ->
  exists m1 m2, dequantize_tensor t tf m = (ST_OK, Some m1) /\ quantize_tensor rm tf t2 m1 = (ST_OK, Some m2)
    /\ (forall c, valid (t_shape (qt_t t)) c -> m2 (t_data (qt_t t2) + addr (t_stride (qt_t t2)) c) = m (t_data (qt_t t) + addr (t_stride (qt_t t)) c))
    /\ (forall a, (forall c, valid (t_shape tf) c -> a <> t_data tf + addr (t_stride tf) c) -> (forall c, valid (t_shape (qt_t t2)) c -> a <> t_data (qt_t t2) + addr (t_stride (qt_t t2)) c) -> m2 a = m a).
Proof.
  intros H1 H2 AX AX2 FI FF FO BI BF BO U1 U2 ET EB HX. destruct (chk_float_facts _ _ H1) as (C1 & C2 & S1). destruct (chk_float_facts _ _ H2) as (_ & C3 & S2).
  destruct (dequantize_tensor_correct t tf m) as (m1 & E1 & V1 & F1); auto.
  { intros c Hc. destruct (HX c Hc) as (_ & Hq & Hb). split; [exact Hq|]. destruct Hq as (_ & _ & Hz). rewrite ib16 in Hz. change (2 ^ 24) with 16777216. destruct EB as [EB|EB]; rewrite EB in Hb; [rewrite ib8 in Hb|rewrite ib16 in Hb]; lia. }
  assert (AL : forall a, allocated m a -> allocated m1 a).
  { apply (frame_backed tf); [exact F1|]. intros c Hc. rewrite <- S1 in Hc. destruct (V1 c Hc) as (v & -> & _). discriminate. }
  assert (RB : forall c, valid (t_shape (qt_t t)) c -> f_of_bits (rd m1 (t_data tf + addr (t_stride tf) c)) = dequantize_elem (fmt t c) (rd m (t_data (qt_t t) + addr (t_stride (qt_t t)) c))).
  { intros c Hc. destruct (V1 c Hc) as (v & E & -> & _). unfold rd at 1. rewrite E. apply (binary_float_of_bits_of_binary_float 23 8). }
  assert (SS : t_shape (qt_t t2) = t_shape (qt_t t)) by congruence.
  destruct (float_loop_correct t2 (fun q x => quantize_elem rm (el_bits (qt_el t2)) q (f_of_bits x)) tf (qt_t t2) m1
    (fun c => rd m (t_data (qt_t t) + addr (t_stride (qt_t t)) c))) as (m2 & E2 & V2 & F2); auto.
  - intros a A1 A2. apply AL. now apply BF.
  - intros a A1 A2. apply AL. now apply BO.
  - intros c Hc. rewrite <- S1 in Hc. rewrite RB by exact Hc. destruct (HX c Hc) as (-> & Hq & Hb). rewrite <- ET. now apply quantize_dequantize.
  - exists m1, m2. split; [exact E1|]. split; [unfold quantize_tensor, quantize_run; rewrite H2, E2; reflexivity|]. rewrite <- S1 in V2. split.
    + intros c Hc. rewrite (V2 c Hc). pose proof (chk_backed (qt_t t) m FI C1 BI c Hc) as AC. unfold allocated in AC. unfold rd. destruct (m (t_data (qt_t t) + addr (t_stride (qt_t t)) c)); [reflexivity|contradiction].
    + intros a A1 A2. rewrite F2 by exact A2. now apply F1.
Qed.

(** * What goes wrong *)

(** A value far beyond the range of the format is not limited to it: the conversion to int32_t is undefined, for finite values as for infinities. *)
Theorem quantize_range_refuted : exists q v, fl_ok q /\ ffin v = true /\ fval v = IZR (2 ^ 40)
  /\ quantize_elem RM_UP 8 q v = None /\ quantize_elem RM_CONV 8 q v = None /\ quantize_elem RM_UP 8 q f_inf = None.
Proof.
  exists (mkQ 1 7 0), (f_ldexp (f_of_int 1) 40). split; [repeat split; discriminate|]. destruct (f_of_int_val 1) as (V & F); [cbn; lia|].
  destruct (f_ldexp_val (f_of_int 1) 40) as (V2 & F2).
  - rewrite V, Rmult_1_l, Rabs_pos_eq by apply bpow_ge_0. apply bpow_le. lia.
  - split; [rewrite F2; exact F|]. split; [|vm_compute; auto]. rewrite V2, V. rewrite rnd32_exact; [change (bpow radix2 40) with (IZR (2 ^ 40)); apply Rmult_1_l|apply fmt32; cbn; lia].
Qed.

(** The result need not be the nearest: adding one half in single precision rounds a value below one half up to one. *)
Theorem quantize_nearest_refuted : exists q v, fl_ok q /\ ffin v = true /\ (0 < fval v / fl_step q < / 2)%R
  /\ quantize_elem RM_UP 8 q v = Some 1 /\ quantize_elem RM_CONV 8 q v = Some 1.
Proof.
  exists (mkQ 1 0 0), (f_ldexp (f_of_int 16777215) (-25)). split; [repeat split; discriminate|]. destruct (f_of_int_val 16777215) as (V & F); [cbn; lia|].
  destruct (f_ldexp_val (f_of_int 16777215) (-25)) as (V2 & F2).
  - rewrite V. apply Rle_trans with 1%R; [change (bpow radix2 (-25)) with (/ 33554432)%R; apply Rabs_le; lra|]. change 1%R with (bpow radix2 0). apply bpow_le. lia.
  - split; [rewrite F2; exact F|]. split; [|vm_compute; auto]. rewrite V2, V. rewrite rnd32_exact by (apply fmt32; cbn; lia). unfold fl_step. cbn [q_scale q_frac Z.opp]. change (bpow radix2 (-25)) with (/ 33554432)%R. change (bpow radix2 0) with 1%R. lra.
Qed.

(** With the smallest number of fractional bits that the type of the parameter can hold, zero becomes a NaN. *)
Theorem dequantize_scale_refuted : exists q, q_scale q = 1 /\ in_bits 8 (q_frac q) /\ q_zp q = 0 /\ fl_real q 0 = 0%R /\ ffin (dequantize_elem q 0) = false.
Proof.
  exists (mkQ 1 (-128) 0). split; [reflexivity|]. split; [split; discriminate|]. split; [reflexivity|]. split; [unfold fl_real; cbn [q_zp Z.sub]; apply Rmult_0_l|]. vm_compute. reflexivity.
Qed.

(** * Instances *)

Example fl_elem_ex : fl_ok (mkQ 205 11 3) /\ f_bits (dequantize_elem (mkQ 205 11 3) 100) = 1092311552
  /\ quantize_elem RM_UP 8 (mkQ 205 11 3) (f_of_bits 1092311552) = Some 100 /\ quantize_elem RM_UP 8 (mkQ 205 11 3) (f_of_bits 1109393408) = Some 127
  /\ quantize_elem RM_UP 8 (mkQ 205 11 3) (f_of_bits 3212836864) = Some (-7).
Proof. split; [repeat split; discriminate|]. repeat split; vm_compute; reflexivity. Qed.

(** A tensor with a scale per row, to floats and back. *)
Definition fx_t : qtensor := mkQT (mkTensor 0 10 1 [2; 3] [4; 1] true 0 0) EL_SA_8 (fun k => if k =? 0 then mkQ 205 11 3 else mkQ 1 4 (-2)).
Definition fx_f : tensor := mkTensor 20 40 4 [2; 3] [3; 1] false (-1) 0.
Definition fx_t2 : qtensor := mkQT (mkTensor 40 10 1 [2; 3] [3; 1] true 0 0) EL_SA_8 (fun k => if k =? 0 then mkQ 205 11 3 else mkQ 1 4 (-2)).
Definition fx_mem : mem := fun a => if (0 <=? a) && (a <? 100) then Some (17 * a - 50) else None.

Example float_roundtrip_ex : exists m1 m2, dequantize_tensor fx_t fx_f fx_mem = (ST_OK, Some m1) /\ quantize_tensor RM_UP fx_f fx_t2 m1 = (ST_OK, Some m2)
  /\ map (fun c => m2 (40 + addr [3; 1] c)) (coords [2; 3]) = [Some (-50); Some (-33); Some (-16); Some 18; Some 35; Some 52].
Proof.
  assert (BK : forall t, 0 <= t_data t -> 1 <= t_esz t -> t_data t + t_cap t <= 100 -> backed t fx_mem).
  { intros t D1 D2 D3 a H1 H2. assert (a + 1 <= t_cap t) by nia. unfold allocated, fx_mem. destruct (Z.leb_spec 0 (t_data t + a)); [|lia]. destruct (Z.ltb_spec (t_data t + a) 100); [discriminate|lia]. }
  destruct (float_roundtrip RM_UP fx_t fx_f fx_t2 fx_mem) as (m1 & m2 & E1 & E2 & V & _).
  - reflexivity.
  - reflexivity.
  - intros _; reflexivity.
  - intros _; reflexivity.
  - split; [reflexivity|]. split; [cbn; lia|]. split; [repeat constructor; cbn; discriminate|compute; discriminate].
  - split; [reflexivity|]. split; [cbn; lia|]. split; [repeat constructor; cbn; discriminate|compute; discriminate].
  - split; [reflexivity|]. split; [cbn; lia|]. split; [repeat constructor; cbn; discriminate|compute; discriminate].
  - apply BK; cbn; lia.
  - apply BK; cbn; lia.
  - apply BK; cbn; lia.
  - intros c c' H1 H2 _ E. cbn [qt_t fx_t fx_f t_shape t_stride t_data] in *. destruct c as [|a [|b [|]]]; cbn [valid] in H1; try tauto. destruct c' as [|a' [|b' [|]]]; cbn [valid] in H2; try tauto. cbn [addr] in E. lia.
  - intros c c' H1 H2 _ E. cbn [qt_t fx_t2 fx_f t_shape t_stride t_data] in *. destruct c as [|a [|b [|]]]; cbn [valid] in H1; try tauto. destruct c' as [|a' [|b' [|]]]; cbn [valid] in H2; try tauto. cbn [addr] in E. lia.
  - reflexivity.
  - left; reflexivity.
  - intros c Hc. cbn [qt_t fx_t t_shape t_stride t_data] in *. destruct c as [|a [|b [|]]]; cbn [valid] in Hc; try tauto. split; [reflexivity|].
    assert (Ha : a = 0 \/ a = 1) by lia. assert (Hb : b = 0 \/ b = 1 \/ b = 2) by lia.
    destruct Ha as [ -> | -> ]; (split; [repeat split; discriminate|]); destruct Hb as [ -> |[ -> | -> ]]; vm_compute; split; discriminate.
  - exists m1, m2. split; [exact E1|]. split; [exact E2|]. change (coords [2; 3]) with [[0; 0]; [0; 1]; [0; 2]; [1; 0]; [1; 1]; [1; 2]]. cbn [map].
    assert (W : forall a b, 0 <= a < 2 -> 0 <= b < 3 -> m2 (40 + addr [3; 1] [a; b]) = fx_mem (addr [4; 1] [a; b])).
    { intros a b Ha Hb. apply (V [a; b]). cbn [valid qt_t fx_t t_shape]. lia. }
    rewrite !W by lia. reflexivity.
Qed.
