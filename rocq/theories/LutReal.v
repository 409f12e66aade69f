(** C67: the activation kernels and softmax against the real functions. *)
From Coq Require Import ZArith Reals List Lia Lra Psatz Bool.
From Verif Require Import Base FxMath FxMathProofs Tensor TensorProofs ArgMax MovProofs PermuteProofs Quant QuantProofs QSpec QuantCastProofs
  PoolKernels DotProdProofs ConvTheorems Eltwise EltwiseProofs EltwiseSa8Proofs Relu ReluProofs Lut LutProofs Softmax SoftmaxProofs RealBounds.
Import ListNotations.
Open Scope Z_scope.

(** * The entries of the tables *)

Definition exp_n (E : list (Z * Z)) (n : Z) : Z * Z := nth (Z.to_nat n) E (0, 0).

(** [t] is 32768 sigmoid(n/32) rounded, [n] >= 0 and [E] the bounds for exp(-n/32). *)
Definition sig_entry (E : Z * Z) (t : Z) : bool :=
  let '(lo, hi) := E in (1 <=? t) && ((2 * t - 1) * (ONE + hi) <=? 65536 * ONE) && (65536 * ONE <=? (2 * t + 1) * (ONE + lo)).
Definition sigmoid_chk (E : list (Z * Z)) : bool :=
  forallb (fun i => let t := nth (Z.to_nat i) sigmoid_table 0 in
    if 160 <=? i then sig_entry (exp_n E (2 * (i - 160))) t else sig_entry (exp_n E (2 * (160 - i))) (32768 - t)) (zrange 0 320).

Definition tanh_entry (E : Z * Z) (t : Z) : bool :=
  let '(lo, hi) := E in (0 <=? t) && (t <=? 32767) && ((65535 + 2 * t) * hi <=? (65537 - 2 * t) * ONE) && ((65535 - 2 * t) * ONE <=? (65537 + 2 * t) * lo).
Definition tanh_chk (E : list (Z * Z)) : bool :=
  forallb (fun i => let t := nth (Z.to_nat i) tanh_table 0 in
    if 172 <=? i then tanh_entry (exp_n E (2 * (i - 172))) t else tanh_entry (exp_n E (2 * (172 - i))) (- t)) (zrange 0 344).

Definition exp_entry (E : Z * Z) (t : Z) : bool :=
  let '(lo, hi) := E in ((2 * t - 1) * ONE <=? 65536 * lo) && (65536 * hi <=? (2 * t + 1) * ONE).
Definition expneg_chk (E : list (Z * Z)) : bool :=
  forallb (fun i => exp_entry (exp_n E (356 - i)) (nth (Z.to_nat i) expneg_table 0)) (zrange 0 356).

Definition all_chk (E : list (Z * Z)) : bool := sigmoid_chk E && tanh_chk E && expneg_chk E.

Lemma tables_chk : all_chk (exp_tab 360) = true.
Proof. vm_compute. reflexivity. Qed.

Lemma tables_chk_split : sigmoid_chk (exp_tab 360) = true /\ tanh_chk (exp_tab 360) = true /\ expneg_chk (exp_tab 360) = true.
Proof. destruct (andb_prop _ _ tables_chk) as [H H3]. destruct (andb_prop _ _ H) as [H1 H2]. exact (conj H1 (conj H2 H3)). Qed.
Opaque exp_tab sigmoid_chk tanh_chk expneg_chk.

Open Scope R_scope.

(** The error of an entry, in units of 2^-15. *)
Lemma sig_entry_ok n E t : encl n E -> sig_entry E t = true -> Rabs (IZR t - 32768 * sigmoid (INR n / 32)) <= 1 / 2.
Proof.
  intros (_ & HL & HH) H. destruct E as [lo hi]. cbn [fst snd] in *. unfold sig_entry in H. apply andb_prop in H. destruct H as [H H2]. apply andb_prop in H. destruct H as [H0 H1].
  apply Z.leb_le in H0, H1, H2. apply IZR_le in H0, H1, H2. rewrite !mult_IZR, !plus_IZR in *. rewrite ?minus_IZR, ?mult_IZR in *. fold rone in H1, H2.
  unfold sigmoid. set (e := exp (- (INR n / 32))) in *. assert (P : 0 < e) by apply exp_pos. pose proof rone_pos as PR. set (T := IZR t) in *. clearbody T.
  assert (A1 : (2 * T - 1) * (1 + e) <= 65536).
  { apply Rmult_le_reg_r with rone; [exact PR|]. eapply Rle_trans; [|exact H1]. replace ((2 * T - 1) * (1 + e) * rone) with ((2 * T - 1) * (rone + rone * e)) by ring. apply Rmult_le_compat_l; lra. }
  assert (A2 : 65536 <= (2 * T + 1) * (1 + e)).
  { apply Rmult_le_reg_r with rone; [exact PR|]. eapply Rle_trans; [exact H2|]. replace ((2 * T + 1) * (1 + e) * rone) with ((2 * T + 1) * (rone + rone * e)) by ring. apply Rmult_le_compat_l; lra. }
  set (s := / (1 + e)). assert (S : s * (1 + e) = 1) by (unfold s; apply Rinv_l; lra). assert (S0 : 0 < s) by (apply Rinv_0_lt_compat; lra).
  assert (B1 : (2 * T - 1) * (1 + e) * s <= 65536 * s) by (apply Rmult_le_compat_r; lra). assert (B2 : 65536 * s <= (2 * T + 1) * (1 + e) * s) by (apply Rmult_le_compat_r; lra).
  replace ((2 * T - 1) * (1 + e) * s) with ((2 * T - 1) * (s * (1 + e))) in B1 by ring. replace ((2 * T + 1) * (1 + e) * s) with ((2 * T + 1) * (s * (1 + e))) in B2 by ring. rewrite S in B1, B2.
  apply Rabs_le. lra.
Qed.

Lemma tanh_entry_ok n E t : encl n E -> tanh_entry E t = true -> Rabs (IZR t - 32768 * (2 * sigmoid (INR n / 32) - 1)) <= 1 / 2.
Proof.
  intros (_ & HL & HH) H. destruct E as [lo hi]. cbn [fst snd] in *. unfold tanh_entry in H. apply andb_prop in H. destruct H as [H H2]. apply andb_prop in H. destruct H as [H H1].
  apply andb_prop in H. destruct H as [H0 H0'].
  apply Z.leb_le in H0, H0', H1, H2. apply IZR_le in H0, H0', H1, H2. rewrite !mult_IZR in *. rewrite ?minus_IZR, ?plus_IZR, ?mult_IZR in *. fold rone in H1, H2.
  unfold sigmoid. set (e := exp (- (INR n / 32))) in *. assert (P : 0 < e) by apply exp_pos. pose proof rone_pos as PR. set (T := IZR t) in *. clearbody T.
  assert (A1 : (65535 + 2 * T) * e <= 65537 - 2 * T).
  { apply Rmult_le_reg_r with rone; [exact PR|]. eapply Rle_trans; [|exact H1]. replace ((65535 + 2 * T) * e * rone) with ((65535 + 2 * T) * (rone * e)) by ring. apply Rmult_le_compat_l; lra. }
  assert (A2 : 65535 - 2 * T <= (65537 + 2 * T) * e).
  { apply Rmult_le_reg_r with rone; [exact PR|]. eapply Rle_trans; [exact H2|]. replace ((65537 + 2 * T) * e * rone) with ((65537 + 2 * T) * (rone * e)) by ring. apply Rmult_le_compat_l; lra. }
  set (s := / (1 + e)). assert (S : s * (1 + e) = 1) by (unfold s; apply Rinv_l; lra). assert (S0 : 0 < s) by (apply Rinv_0_lt_compat; lra).
  assert (B1 : ((65535 + 2 * T) * e) * s <= (65537 - 2 * T) * s) by (apply Rmult_le_compat_r; lra). assert (B2 : (65535 - 2 * T) * s <= ((65537 + 2 * T) * e) * s) by (apply Rmult_le_compat_r; lra).
  assert (Se : e * s = 1 - s) by lra. rewrite !Rmult_assoc, Se in B1, B2.
  apply Rabs_le. lra.
Qed.

Lemma exp_entry_ok n E t : encl n E -> exp_entry E t = true -> Rabs (IZR t - 32768 * exp (- (INR n / 32))) <= 1 / 2.
Proof.
  intros (_ & HL & HH) H. destruct E as [lo hi]. cbn [fst snd] in *. unfold exp_entry in H. apply andb_prop in H. destruct H as [H1 H2].
  apply Z.leb_le in H1, H2. apply IZR_le in H1, H2. rewrite !mult_IZR in *. rewrite ?minus_IZR, ?plus_IZR, ?mult_IZR in *. fold rone in H1, H2.
  set (e := exp (- (INR n / 32))) in *. pose proof rone_pos as PR. set (T := IZR t) in *. clearbody T.
  assert (A1 : 2 * T - 1 <= 65536 * e) by (apply Rmult_le_reg_r with rone; [exact PR|]; lra).
  assert (A2 : 65536 * e <= 2 * T + 1) by (apply Rmult_le_reg_r with rone; [exact PR|]; lra).
  apply Rabs_le. lra.
Qed.

Lemma INR_Z n : (0 <= n)%Z -> INR (Z.to_nat n) = IZR n.
Proof. intros. rewrite INR_IZR_INZ, Z2Nat.id by assumption. reflexivity. Qed.

Theorem sigmoid_entries i : (0 <= i < 320)%Z -> Rabs (IZR (tab sigmoid_lut i) - 32768 * sigmoid (IZR (i - 160) / 16)) <= 1 / 2.
Proof.
  intros Hi. destruct tables_chk_split as (H & _ & _). Transparent sigmoid_chk. unfold sigmoid_chk in H. rewrite forallb_forall in H. specialize (H i). rewrite in_zrange in H. specialize (H Hi). cbv beta zeta in H.
  unfold sigmoid_lut. rewrite tab_const by lia. set (t := nth (Z.to_nat i) sigmoid_table 0%Z) in *. unfold exp_n in H. destruct (Z.leb_spec 160 i) as [G|G].
  - apply (sig_entry_ok (Z.to_nat (2 * (i - 160)))) in H; [|apply exp_tab_ok; lia]. rewrite INR_Z in H by lia. rewrite mult_IZR in H.
    replace (2 * IZR (i - 160) / 32) with (IZR (i - 160) / 16) in H by field. exact H.
  - apply (sig_entry_ok (Z.to_nat (2 * (160 - i)))) in H; [|apply exp_tab_ok; lia]. rewrite INR_Z in H by lia. rewrite mult_IZR in H.
    replace (2 * IZR (160 - i) / 32) with (- (IZR (i - 160) / 16)) in H by (rewrite !minus_IZR; field). rewrite sigmoid_opp, minus_IZR, Rabs_minus_sym in H.
    match goal with |- Rabs ?a <= _ => match type of H with Rabs ?b <= _ => replace a with b by ring end end. exact H.
Qed.

Theorem tanh_entries i : (0 <= i < 344)%Z -> Rabs (IZR (tab tanh_lut i) - 32768 * tanh (IZR (i - 172) / 32)) <= 1 / 2.
Proof.
  intros Hi. destruct tables_chk_split as (_ & H & _). Transparent tanh_chk. unfold tanh_chk in H. rewrite forallb_forall in H. specialize (H i). rewrite in_zrange in H. specialize (H Hi). cbv beta zeta in H.
  unfold tanh_lut. rewrite tab_const by lia. set (t := nth (Z.to_nat i) tanh_table 0%Z) in *. unfold exp_n in H. rewrite tanh_sigmoid. destruct (Z.leb_spec 172 i) as [G|G].
  - apply (tanh_entry_ok (Z.to_nat (2 * (i - 172)))) in H; [|apply exp_tab_ok; lia]. rewrite INR_Z in H by lia. rewrite mult_IZR in H.
    replace (2 * IZR (i - 172) / 32) with (2 * (IZR (i - 172) / 32)) in H by field. exact H.
  - apply (tanh_entry_ok (Z.to_nat (2 * (172 - i)))) in H; [|apply exp_tab_ok; lia]. rewrite INR_Z in H by lia. rewrite mult_IZR in H.
    replace (2 * IZR (172 - i) / 32) with (- (2 * (IZR (i - 172) / 32))) in H by (rewrite !minus_IZR; field). rewrite sigmoid_opp, opp_IZR, <- Rabs_Ropp in H.
    match goal with |- Rabs ?a <= _ => match type of H with Rabs ?b <= _ => replace a with b by ring end end. exact H.
Qed.

(** exp(0) = 1 is stored as 32767. *)
Theorem expneg_entries i : (0 <= i <= 356)%Z -> Rabs (IZR (tab expneg_lut i) - 32768 * exp (IZR (i - 356) / 32)) <= (if (i =? 356)%Z then 1 else 1 / 2).
Proof.
  intros Hi. destruct (Z.eqb_spec i 356) as [->|N].
  - change (tab expneg_lut 356) with 32767%Z. change (IZR (356 - 356)) with 0. replace (0 / 32) with 0 by field. rewrite exp_0. rewrite Rabs_left; lra.
  - destruct tables_chk_split as (_ & _ & H). Transparent expneg_chk. unfold expneg_chk in H. rewrite forallb_forall in H. specialize (H i). rewrite in_zrange in H. specialize (H ltac:(lia)). cbv beta in H.
    unfold expneg_lut. rewrite tab_const by lia. unfold exp_n in H. apply (exp_entry_ok (Z.to_nat (356 - i))) in H; [|apply exp_tab_ok; lia]. rewrite INR_Z in H by lia.
    replace (- (IZR (356 - i) / 32)) with (IZR (i - 356) / 32) in H by (rewrite !minus_IZR; field). exact H.
Qed.

(** * Real values *)

(** The real number of the integer [x] with [f] fractional bits. *)
Definition real_of (f x : Z) : R := IZR x * powerRZ 2 (- f).

Lemma p2_pos k : 0 < powerRZ 2 k.
Proof. apply powerRZ_lt. lra. Qed.

Lemma p2_add a b : powerRZ 2 (a + b) = powerRZ 2 a * powerRZ 2 b.
Proof. apply powerRZ_add. lra. Qed.

Lemma p2_IZR k : (0 <= k)%Z -> powerRZ 2 k = IZR (2 ^ k).
Proof. intros H. rewrite <- (Z2Nat.id k) by exact H. rewrite <- pow_powerRZ, pow_IZR. reflexivity. Qed.

Lemma p2_inv k : powerRZ 2 k * powerRZ 2 (- k) = 1.
Proof. rewrite <- p2_add, Z.add_opp_diag_r. reflexivity. Qed.

Lemma real_of_split d f x : real_of (d + f) x = IZR x * powerRZ 2 (- d) * powerRZ 2 (- f).
Proof. unfold real_of. rewrite Z.opp_add_distr, p2_add. ring. Qed.

(** * Between two entries *)

Lemma segment_real l f e q s d x r : (1 <= d <= 30)%Z -> in_table l d x -> table_value l d x r ->
  let i := (x / 2 ^ d + l_off l)%Z in let h := powerRZ 2 (- l_fi l) in let a := IZR (i - l_off l) * h in
  Rabs (IZR (tab l i) - 32768 * f a) <= e -> Rabs (IZR (tab l (i + 1)) - 32768 * f (a + h)) <= e -> (Z.abs (tab l i - tab l (i + 1)) <= s)%Z ->
  (forall u, 0 <= u <= 1 -> Rabs (f (a + u * h) - ((1 - u) * f a + u * f (a + h))) <= q) ->
  Rabs (IZR r - 32768 * f (real_of (d + l_fi l) x)) <= e + 1 / 2 + IZR s / 32768 + 32768 * q.
Proof.
  intros Hd Hin TV i h a E1 E2 Hs Hq.
  set (D := (2 ^ d)%Z). assert (PD : (0 < D)%Z) by (apply pow2_gt0; lia). set (m := (x mod D)%Z).
  assert (MB : (0 <= m < D)%Z) by (apply Z.mod_pos_bound; exact PD). assert (DM : x = (D * (x / D) + m)%Z) by (apply Z.div_mod; lia).
  assert (Z0 : (2 * 32768 * Z.abs (r * D - (tab l i * (D - m) + tab l (i + 1) * m)) <= 32768 * D + 2 * s * D)%Z).
  { unfold table_value in TV. cbv zeta in TV. destruct TV as [_ TV]. specialize (TV Hin ltac:(lia)). fold D in TV.
    rewrite Z.add_mod, Z.mod_mul, Z.add_0_r, Z.mod_mod in TV by lia. fold m in TV. rewrite Z.div_add in TV by lia. fold D in i. fold i in TV.
    replace (Z.max 0 (Z.min i (l_len l - 2))) with i in TV.
    2:{ destruct Hin as [G1 G2]. fold D in G1, G2. assert (0 <= i /\ i < l_len l - 1)%Z; [|lia]. unfold i. clear - G1 G2 DM MB PD. set (y := (x / D)%Z) in *. clearbody y. split; nia. }
    assert (SD : (0 <= s * D)%Z) by (apply Z.mul_nonneg_nonneg; lia). destruct (Z.leb_spec d 15) as [G|G]; [lia|]. assert (ED : D = (2 ^ (d - 15) * 32768)%Z) by (unfold D; replace d with (d - 15 + 15)%Z at 1 by lia; rewrite Z.pow_add_r by lia; reflexivity).
    set (P := (2 ^ (d - 15))%Z) in *. assert (0 < P)%Z by (apply pow2_gt0; lia). set (T := Z.abs (tab l i - tab l (i + 1))) in *. set (A := Z.abs (r * D - _)) in *. clearbody P T A. nia. }
  assert (PR : 0 < IZR D) by (apply IZR_lt; exact PD). set (u := IZR m / IZR D).
  assert (U : 0 <= u <= 1).
  { unfold u. split; [apply Rmult_le_pos; [apply IZR_le; lia|left; now apply Rinv_0_lt_compat]|]. apply Rmult_le_reg_r with (IZR D); [exact PR|]. unfold Rdiv. rewrite Rmult_assoc, Rinv_l by lra. rewrite Rmult_1_l, Rmult_1_r. apply IZR_le. lia. }
  assert (EU : IZR m = u * IZR D) by (unfold u; field; lra).
  assert (EX : real_of (d + l_fi l) x = a + u * h).
  { rewrite real_of_split. fold h. unfold a. replace (i - l_off l)%Z with (x / D)%Z by (unfold i; fold D; lia).
    assert (I : IZR D * powerRZ 2 (- d) = 1) by (unfold D; rewrite <- p2_IZR by lia; apply p2_inv). rewrite DM at 1. rewrite plus_IZR, mult_IZR, EU.
    replace ((IZR D * IZR (x / D) + u * IZR D) * powerRZ 2 (- d) * h) with ((IZR (x / D) + u) * h * (IZR D * powerRZ 2 (- d))) by ring. rewrite I. ring. }
  rewrite EX. specialize (Hq u U).
  set (T := IZR (tab l i)) in *. set (T' := IZR (tab l (i + 1))) in *.
  assert (Z1 : Rabs (IZR r - ((1 - u) * T + u * T')) <= 1 / 2 + IZR s / 32768).
  { apply IZR_le in Z0. rewrite plus_IZR, !mult_IZR, abs_IZR, minus_IZR, plus_IZR, !mult_IZR, minus_IZR, EU in Z0. fold T T' in Z0.
    replace (IZR r * IZR D - (T * (IZR D - u * IZR D) + T' * (u * IZR D))) with ((IZR r - ((1 - u) * T + u * T')) * IZR D) in Z0 by ring.
    rewrite Rabs_mult, (Rabs_right (IZR D)) in Z0 by lra. apply Rmult_le_reg_r with (IZR D); [exact PR|]. lra. }
  set (A := f a) in *. set (A' := f (a + h)) in *. set (B := f (a + u * h)) in *. clearbody A A' B T T' u. clear - U E1 E2 Hq Z1.
  assert (Z2 : Rabs ((1 - u) * (T - 32768 * A) + u * (T' - 32768 * A')) <= e).
  { eapply Rle_trans; [apply Rabs_triang|]. rewrite !Rabs_mult, (Rabs_right (1 - u)), (Rabs_right u) by lra.
    assert ((1 - u) * Rabs (T - 32768 * A) <= (1 - u) * e) by (apply Rmult_le_compat_l; lra). assert (u * Rabs (T' - 32768 * A') <= u * e) by (apply Rmult_le_compat_l; lra). lra. }
  apply Rabs_bounds in Z1, Z2, Hq. apply Rabs_le. set (W := u * (T' - 32768 * A')) in *. set (V := (1 - u) * (T - 32768 * A)) in *.
  assert (E : IZR r - 32768 * B = (IZR r - ((1 - u) * T + u * T')) + (V + W) - 32768 * (B - ((1 - u) * A + u * A'))) by (unfold V, W; ring).
  rewrite E. lra.
Qed.

(** * Anywhere *)

(** Beyond the ends the result lies between the first or last two entries. *)
Lemma table_low l d x r : lut_ok l -> lut_mono l -> table_spec l d x r -> (IZR x * powerRZ 2 (- d) < IZR (- l_off l))%R -> (tab l 0 <= r <= tab l 1)%Z.
Proof.
  intros (Hlen & _) Hm H Hx. pose proof (Hm 0%Z ltac:(lia) ltac:(lia)) as M0. change (0 + 1)%Z with 1%Z in M0. unfold table_spec in H. destruct (Z.ltb_spec 0 d) as [G|G].
  - assert (Hp : (x + l_off l * 2 ^ d < 0)%Z).
    { apply lt_IZR. rewrite plus_IZR, mult_IZR, <- p2_IZR by lia. pose proof (p2_pos d) as P. pose proof (p2_inv d) as I. apply (Rmult_lt_compat_r (powerRZ 2 d)) in Hx; [|exact P].
      rewrite opp_IZR, Rmult_assoc, (Rmult_comm (powerRZ 2 (- d))), I in Hx. lra. }
    destruct H as [H _]. pose proof (Z.div_lt_upper_bound (x + l_off l * 2 ^ d) (2 ^ d) 0 (pow2_gt0 d ltac:(lia)) ltac:(lia)).
    replace (Z.max 0 (Z.min ((x + l_off l * 2 ^ d) / 2 ^ d) (l_len l - 2))) with 0%Z in H by lia. change (0 + 1)%Z with 1%Z in H. lia.
  - assert (Hp : (x * 2 ^ (- d) + l_off l < 0)%Z).
    { apply lt_IZR. rewrite plus_IZR, mult_IZR, <- p2_IZR by lia. rewrite opp_IZR in Hx. lra. }
    replace (Z.max 0 (Z.min (x * 2 ^ (- d) + l_off l) (l_len l - 1))) with 0%Z in H by lia. lia.
Qed.

Lemma table_high l d x r : lut_ok l -> lut_mono l -> table_spec l d x r -> (IZR (l_len l - 1 - l_off l) <= IZR x * powerRZ 2 (- d))%R -> (tab l (l_len l - 2) <= r <= tab l (l_len l - 1))%Z.
Proof.
  intros (Hlen & _) Hm H Hx. pose proof (Hm (l_len l - 2)%Z ltac:(lia) ltac:(lia)) as M0. replace (l_len l - 2 + 1)%Z with (l_len l - 1)%Z in M0 by lia. unfold table_spec in H. destruct (Z.ltb_spec 0 d) as [G|G].
  - assert (Hp : ((l_len l - 1) * 2 ^ d <= x + l_off l * 2 ^ d)%Z).
    { apply le_IZR. rewrite plus_IZR, !mult_IZR, <- p2_IZR by lia. pose proof (p2_pos d) as P. pose proof (p2_inv d) as I. apply (Rmult_le_compat_r (powerRZ 2 d)) in Hx; [|lra].
      rewrite minus_IZR, Rmult_assoc, (Rmult_comm (powerRZ 2 (- d))), I in Hx. lra. }
    destruct H as [H _]. pose proof (Z.div_le_lower_bound (x + l_off l * 2 ^ d) (2 ^ d) (l_len l - 1) (pow2_gt0 d ltac:(lia)) ltac:(lia)).
    replace (Z.max 0 (Z.min ((x + l_off l * 2 ^ d) / 2 ^ d) (l_len l - 2))) with (l_len l - 2)%Z in H by lia. replace (l_len l - 2 + 1)%Z with (l_len l - 1)%Z in H by lia. lia.
  - assert (Hp : (l_len l - 1 <= x * 2 ^ (- d) + l_off l)%Z).
    { apply le_IZR. rewrite plus_IZR, mult_IZR, <- p2_IZR by lia. rewrite minus_IZR in Hx. lra. }
    replace (Z.max 0 (Z.min (x * 2 ^ (- d) + l_off l) (l_len l - 1))) with (l_len l - 1)%Z in H by lia. lia.
Qed.

(** The points between the entries. *)
Lemma table_inside l d x : (1 <= d)%Z -> (IZR (- l_off l) <= IZR x * powerRZ 2 (- d))%R -> (IZR x * powerRZ 2 (- d) < IZR (l_len l - 1 - l_off l))%R -> in_table l d x.
Proof.
  intros Hd H1 H2. pose proof (p2_pos d) as P. pose proof (p2_inv d) as I. split.
  - apply le_IZR. rewrite plus_IZR, mult_IZR, <- p2_IZR by lia. apply (Rmult_le_compat_r (powerRZ 2 d)) in H1; [|lra]. rewrite opp_IZR, Rmult_assoc, (Rmult_comm (powerRZ 2 (- d))), I in H1. lra.
  - apply lt_IZR. rewrite plus_IZR, !mult_IZR, <- p2_IZR by lia. apply (Rmult_lt_compat_r (powerRZ 2 d)) in H2; [|lra]. rewrite minus_IZR, Rmult_assoc, (Rmult_comm (powerRZ 2 (- d))), I in H2. lra.
Qed.

(** The table [l] is the function [f] within [B] everywhere: entries within [e], steps at most [s], [q] the error of linear interpolation. *)
Definition tabulates (l : lut) (f : R -> R) (e q : R) (s : Z) (B : R) : Prop :=
  let h := powerRZ 2 (- l_fi l) in
  lut_ok l /\ lut_mono l
  /\ (forall i, (0 <= i < l_len l)%Z -> Rabs (IZR (tab l i) - 32768 * f (IZR (i - l_off l) * h)) <= e)
  /\ (forall i, (0 <= i)%Z -> (i + 1 < l_len l)%Z -> (Z.abs (tab l i - tab l (i + 1)) <= s)%Z)
  /\ (forall a u, 0 <= u <= 1 -> Rabs (f (a + u * h) - ((1 - u) * f a + u * f (a + h))) <= q)
  /\ e + 1 / 2 + IZR s / 32768 + 32768 * q <= B /\ e <= B
  /\ (forall y r, y <= IZR (- l_off l) * h -> (tab l 0 <= r <= tab l 1)%Z -> Rabs (IZR r - 32768 * f y) <= B)
  /\ (forall y r, IZR (l_len l - 1 - l_off l) * h <= y -> (tab l (l_len l - 2) <= r <= tab l (l_len l - 1))%Z -> Rabs (IZR r - 32768 * f y) <= B).

Lemma tabulates_spec l f e q s B d x r : tabulates l f e q s B -> (d <= 30)%Z -> table_spec l d x r ->
  Rabs (IZR r - 32768 * f (real_of (d + l_fi l) x)) <= B.
Proof.
  intros (Hl & Hm & HE & HS & HQ & HB & HeB & HLo & HHi) Hd H. set (h := powerRZ 2 (- l_fi l)) in *. assert (Ph : 0 < h) by apply p2_pos.
  assert (EX : real_of (d + l_fi l) x = IZR x * powerRZ 2 (- d) * h) by apply real_of_split.
  destruct (Rlt_le_dec (IZR x * powerRZ 2 (- d)) (IZR (- l_off l))) as [G1|G1].
  { apply HLo; [|now apply (table_low l d x)]. rewrite EX. apply Rmult_le_compat_r; lra. }
  destruct (Rlt_le_dec (IZR x * powerRZ 2 (- d)) (IZR (l_len l - 1 - l_off l))) as [G2|G2].
  2:{ apply HHi; [|now apply (table_high l d x)]. rewrite EX. apply Rmult_le_compat_r; lra. }
  unfold table_spec in H. destruct (Z.ltb_spec 0 d) as [G|G].
  - pose proof (table_inside l d x ltac:(lia) G1 G2) as Hin. eapply Rle_trans; [|exact HB].
    assert (IR : (0 <= x / 2 ^ d + l_off l < l_len l - 1)%Z).
    { destruct Hin as [J1 J2]. pose proof (pow2_gt0 d ltac:(lia)) as PD. pose proof (Z.div_mod x (2 ^ d) ltac:(lia)) as DM. pose proof (Z.mod_pos_bound x (2 ^ d) PD) as MB.
      set (D := (2 ^ d)%Z) in *. set (y := (x / D)%Z) in *. set (mm := (x mod D)%Z) in *. clear - J1 J2 PD DM MB. clearbody D y mm. split; nia. }
    apply segment_real; [lia|exact Hin|exact H|..].
    + apply HE. lia.
    + fold h. replace (IZR (x / 2 ^ d + l_off l - l_off l) * h + h) with (IZR (x / 2 ^ d + l_off l + 1 - l_off l) * h) by (rewrite !minus_IZR, !plus_IZR; ring). apply HE. lia.
    + apply HS; lia.
    + intros u Hu. apply HQ. exact Hu.
  - eapply Rle_trans; [|exact HeB]. assert (EV : IZR x * powerRZ 2 (- d) = IZR (x * 2 ^ (- d))) by (rewrite mult_IZR, <- p2_IZR by lia; reflexivity).
    rewrite EV in *. apply le_IZR in G1. apply lt_IZR in G2. set (v := (x * 2 ^ (- d))%Z) in *. replace (Z.max 0 (Z.min (v + l_off l) (l_len l - 1))) with (v + l_off l)%Z in H by lia.
    rewrite H, EX. replace (IZR v) with (IZR (v + l_off l - l_off l)) by (f_equal; lia). apply HE. lia.
Qed.

Lemma tabulates_value l f e q s B d x r : tabulates l f e q s B -> (1 <= d <= 30)%Z -> table_value l d x r ->
  Rabs (IZR r - 32768 * f (real_of (d + l_fi l) x)) <= B.
Proof. intros H Hd Hv. apply (tabulates_spec l f e q s B); auto; [lia|]. unfold table_spec. destruct (Z.ltb_spec 0 d); [exact Hv|lia]. Qed.

(** * Sigmoid and hyperbolic tangent *)

Lemma steps_chk t fi fo off s : forallb (fun '(a, b) => Z.abs (a - b) <=? s)%Z (combine t (tl t)) = true ->
  forall i, (0 <= i)%Z -> (i + 1 < Z.of_nat (length t))%Z -> (Z.abs (tab (const_lut t fi fo off) i - tab (const_lut t fi fo off) (i + 1)) <= s)%Z.
Proof.
  intros H i H0 H1. rewrite !tab_const by lia. rewrite forallb_forall in H. specialize (H _ (pair_in t i H0 H1)). cbv beta iota in H. now apply Z.leb_le.
Qed.

Lemma p2_m4 : powerRZ 2 (Z.opp 4) = / 16. Proof. cbn [powerRZ Z.opp]. change (Pos.to_nat 4) with 4%nat. cbn [pow]. field. Qed.
Lemma p2_m5 : powerRZ 2 (Z.opp 5) = / 32. Proof. cbn [powerRZ Z.opp]. change (Pos.to_nat 5) with 5%nat. cbn [pow]. field. Qed.

Lemma sigmoid_tabulates : tabulates sigmoid_lut sigmoid (1 / 2) (963 / 10000 * (/ 16 * / 16) / 8) 512 (13 / 5).
Proof.
  unfold tabulates. change (l_fi sigmoid_lut) with 4%Z. change (l_off sigmoid_lut) with 160%Z. change (l_len sigmoid_lut) with 320%Z. rewrite p2_m4.
  destruct library_tables_ok as ((L1 & _ & L2) & _). split; [exact L1|]. split; [exact L2|]. split; [|split; [|split; [|split; [|split; [|split]]]]].
  - intros i Hi. exact (sigmoid_entries i Hi).
  - intros i H0 H1. apply (steps_chk sigmoid_table 4 15 160 512); [vm_compute; reflexivity|exact H0|exact H1].
  - intros a u Hu. apply sigmoid_interpolation; [lra|exact Hu].
  - lra.
  - lra.
  - intros y r Hy Hr. change (tab sigmoid_lut 0) with 1%Z in Hr. change (tab sigmoid_lut 1) with 2%Z in Hr. destruct Hr as [R1 R2]. apply IZR_le in R1, R2.
    apply sigmoid_le in Hy. pose proof (sigmoid_range y). pose proof (Rabs_bounds _ _ (sigmoid_entries 0 ltac:(lia))) as B. change (tab sigmoid_lut 0) with 1%Z in B.
    change (IZR (0 - 160) / 16) with (IZR (Z.opp 160) * / 16) in B. apply Rabs_le. lra.
  - intros y r Hy Hr. change (tab sigmoid_lut (320 - 2)) with 32766%Z in Hr. change (tab sigmoid_lut (320 - 1)) with 32766%Z in Hr. destruct Hr as [R1 R2]. apply IZR_le in R1, R2.
    apply sigmoid_le in Hy. pose proof (sigmoid_range y). pose proof (Rabs_bounds _ _ (sigmoid_entries 319 ltac:(lia))) as B. change (tab sigmoid_lut 319) with 32766%Z in B.
    change (IZR (319 - 160) / 16) with (IZR (320 - 1 - 160) * / 16) in B. apply Rabs_le. lra.
Qed.

Lemma tanh_range x : -1 < tanh x < 1.
Proof. rewrite tanh_sigmoid. pose proof (sigmoid_range (2 * x)). lra. Qed.

Lemma tanh_le x y : x <= y -> tanh x <= tanh y.
Proof. intros H. rewrite !tanh_sigmoid. pose proof (sigmoid_le (2 * x) (2 * y) ltac:(lra)). lra. Qed.

Lemma tanh_lipschitz x y : Rabs (tanh x - tanh y) <= Rabs (x - y).
Proof.
  rewrite !tanh_sigmoid. pose proof (sigmoid_lipschitz (2 * x) (2 * y)) as H. replace (2 * x - 2 * y) with (2 * (x - y)) in H by ring. rewrite Rabs_mult, (Rabs_right 2) in H by lra.
  replace (2 * sigmoid (2 * x) - 1 - (2 * sigmoid (2 * y) - 1)) with (2 * (sigmoid (2 * x) - sigmoid (2 * y))) by ring. rewrite Rabs_mult, (Rabs_right 2) by lra. lra.
Qed.

Lemma tanh_tabulates : tabulates tanh_lut tanh (1 / 2) (2 * (963 / 10000 * (/ 16 * / 16) / 8)) 1024 (33 / 8).
Proof.
  unfold tabulates. change (l_fi tanh_lut) with 5%Z. change (l_off tanh_lut) with 172%Z. change (l_len tanh_lut) with 344%Z. rewrite p2_m5.
  destruct library_tables_ok as (_ & (L1 & _ & L2) & _). split; [exact L1|]. split; [exact L2|]. split; [|split; [|split; [|split; [|split; [|split]]]]].
  - intros i Hi. exact (tanh_entries i Hi).
  - intros i H0 H1. apply (steps_chk tanh_table 5 15 172 1024); [vm_compute; reflexivity|exact H0|exact H1].
  - intros a u Hu. rewrite !tanh_sigmoid. pose proof (sigmoid_interpolation (2 * a) (/ 16) u ltac:(lra) Hu) as H.
    replace (2 * a + u * / 16) with (2 * (a + u * / 32)) in H by field. replace (2 * a + / 16) with (2 * (a + / 32)) in H by field.
    match type of H with Rabs ?b <= ?c => match goal with |- Rabs ?a <= _ => replace a with (2 * b) by ring; rewrite Rabs_mult, (Rabs_right 2) by lra; apply Rmult_le_compat_l; [lra|exact H] end end.
  - lra.
  - lra.
  - intros y r Hy Hr. change (tab tanh_lut 0) with (-32767)%Z in Hr. change (tab tanh_lut 1) with (-32767)%Z in Hr. destruct Hr as [R1 R2]. apply IZR_le in R1, R2.
    apply tanh_le in Hy. pose proof (tanh_range y). pose proof (Rabs_bounds _ _ (tanh_entries 0 ltac:(lia))) as B. change (tab tanh_lut 0) with (-32767)%Z in B.
    change (IZR (0 - 172) / 32) with (IZR (Z.opp 172) * / 32) in B. apply Rabs_le. lra.
  - intros y r Hy Hr. change (tab tanh_lut (344 - 2)) with 32766%Z in Hr. change (tab tanh_lut (344 - 1)) with 32767%Z in Hr. destruct Hr as [R1 R2]. apply IZR_le in R1, R2.
    apply tanh_le in Hy. pose proof (tanh_range y). pose proof (Rabs_bounds _ _ (tanh_entries 343 ltac:(lia))) as B. change (tab tanh_lut 343) with 32767%Z in B.
    change (IZR (343 - 172) / 32) with (IZR (344 - 1 - 172) * / 32) in B. apply Rabs_le. lra.
Qed.

(** * The kernels *)

Lemma table_spec_bits l d x r : lut_ok l -> table_spec l d x r -> in_bits 16 r.
Proof.
  intros Hl H. pose proof Hl as (Hlen & _). assert (G : forall i, (0 <= i < l_len l)%Z -> in_bits 16 (tab l i)) by (intros i Hi; apply (tab_load l i Hl Hi)).
  unfold table_spec in H. destruct (0 <? d)%Z.
  - destruct H as [H _]. set (i := Z.max 0 (Z.min _ (l_len l - 2))) in H. pose proof (G i ltac:(lia)) as B1. pose proof (G (i + 1)%Z ltac:(lia)) as B2. rewrite ib16 in *. lia.
  - rewrite H. apply G. lia.
Qed.

Lemma rnd_real rm v k : (0 <= k)%Z -> Rabs (IZR (rnd rm v k) - IZR v * powerRZ 2 (- k)) <= 1 / 2.
Proof.
  intros Hk. pose proof (rnd_err rm v k Hk) as H. apply IZR_le in H. rewrite mult_IZR, abs_IZR, minus_IZR, mult_IZR, <- p2_IZR in H by lia.
  pose proof (p2_pos k) as P. pose proof (p2_inv k) as I. apply Rmult_le_reg_r with (powerRZ 2 k); [exact P|].
  rewrite <- (Rabs_right (powerRZ 2 k)) at 1 by lra. rewrite <- Rabs_mult.
  replace ((IZR (rnd rm v k) - IZR v * powerRZ 2 (- k)) * powerRZ 2 k) with (IZR (rnd rm v k) * powerRZ 2 k - IZR v * (powerRZ 2 k * powerRZ 2 (- k))) by ring. rewrite I, Rmult_1_r. lra.
Qed.

(** Clipping at the top. *)
Lemma clip_real w a d top : Rabs (IZR w - a) <= d -> Rabs (IZR (Z.min w top) - Rmin a (IZR top)) <= d.
Proof.
  intros H. apply Rabs_bounds in H. apply Rabs_le. unfold Rmin. destruct (Z.min_spec w top) as [[G ->]|[G ->]]; [apply IZR_lt in G|apply IZR_le in G]; destruct (Rle_dec a (IZR top)); lra.
Qed.

Lemma act_fx16_real rm l f e q s B fin tin tout m : tabulates l f e q s B -> lut_smooth l -> (fin - l_fi l <= 30)%Z ->
  chk_basic_activation tin tout = ST_OK -> t_rank tin <> 0%Z -> fits32 tin -> fits32 tout -> backed tin m -> backed tout m -> unary_ok tin tout -> mem_bits 16 m -> in_bits 8 fin ->
  exists m', act_fx rm 16 l fin tin tout m = Some m' /\ frame_ok tout m m' /\ forall c, valid (t_shape tout) c -> exists y,
    m' (t_data tout + addr (t_stride tout) c)%Z = Some y /\ Rabs (IZR y - 32768 * f (real_of fin (rd m (t_data tin + addr (t_stride tin) c)%Z))) <= B.
Proof.
  intros T Sm Hd Hc R0 FI FO BI BO U MB Hf. pose proof T as (Hl & _).
  destruct (act_fx_correct rm 16 l fin tin tout m (or_intror eq_refl) Hc R0 FI FO BI BO U MB Hl Sm Hf) as (m' & E & V & F).
  exists m'. split; [exact E|]. split; [exact F|]. intros c Vc. destruct (V c Vc) as (r & Hr & Er). exists r. change (16 - 16)%Z with 0%Z in Er.
  rewrite rnd_0, sat_id in Er by (try lia; apply (table_spec_bits l _ _ _ Hl Hr)). split; [exact Er|].
  apply (tabulates_spec _ _ _ _ _ _ _ _ _ T Hd) in Hr. replace (fin - l_fi l + l_fi l)%Z with fin in Hr by lia. exact Hr.
Qed.

Lemma act_fx8_real rm l f e q s B fin tin tout m : tabulates l f e q s B -> lut_smooth l -> (fin - l_fi l <= 30)%Z ->
  chk_basic_activation tin tout = ST_OK -> t_rank tin <> 0%Z -> fits32 tin -> fits32 tout -> backed tin m -> backed tout m -> unary_ok tin tout -> mem_bits 8 m -> in_bits 8 fin ->
  exists m', act_fx rm 8 l fin tin tout m = Some m' /\ frame_ok tout m m' /\ forall c, valid (t_shape tout) c -> exists y,
    m' (t_data tout + addr (t_stride tout) c)%Z = Some y /\ Rabs (IZR y - Rmin (128 * f (real_of fin (rd m (t_data tin + addr (t_stride tin) c)%Z))) 127) <= 1 / 2 + B / 256.
Proof.
  intros T Sm Hd Hc R0 FI FO BI BO U MB Hf. pose proof T as (Hl & _).
  destruct (act_fx_correct rm 8 l fin tin tout m (or_introl eq_refl) Hc R0 FI FO BI BO U MB Hl Sm Hf) as (m' & E & V & F).
  exists m'. split; [exact E|]. split; [exact F|]. intros c Vc. destruct (V c Vc) as (r & Hr & Er). eexists. split; [exact Er|]. change (16 - 8)%Z with 8%Z.
  pose proof (table_spec_bits l _ _ _ Hl Hr) as Br. rewrite ib16 in Br.
  apply (tabulates_spec _ _ _ _ _ _ _ _ _ T Hd) in Hr. replace (fin - l_fi l + l_fi l)%Z with fin in Hr by lia. set (v := f (real_of fin _)) in *. clearbody v.
  assert (W : (-128 <= rnd rm r 8)%Z) by (pose proof (rnd_err rm r 8 ltac:(lia)) as Q; change (2 ^ 8)%Z with 256%Z in Q; lia).
  replace (sat 8 (rnd rm r 8)) with (Z.min (rnd rm r 8) 127) by (unfold sat, clamp; change (smin 8) with (-128)%Z; change (smax 8) with 127%Z; lia).
  apply clip_real. pose proof (rnd_real rm r 8 ltac:(lia)) as Q. replace (powerRZ 2 (- (8))) with (/ 256) in Q by (cbn [powerRZ Z.opp]; change (Pos.to_nat 8) with 8%nat; cbn [pow]; field).
  apply Rabs_bounds in Hr, Q. apply Rabs_le. lra.
Qed.

(** The real number of an SA8 sample. *)
Definition sa_R (q : qpar) (x : Z) : R := real_of (q_frac q) ((x - q_zp q) * q_scale q).

Lemma scale_rnd_real rm x k : Rabs (IZR (scale_rnd rm x k) - IZR x * powerRZ 2 (- k)) <= 1 / 2.
Proof.
  unfold scale_rnd. destruct (Z.leb_spec 0 k); [now apply rnd_real|]. rewrite mult_IZR, <- p2_IZR by lia. rewrite Rminus_diag_eq by reflexivity. rewrite Rabs_R0. lra.
Qed.

Lemma sa_to_fx_real rm q f x : let z := sa_to_fx rm q f x in let v := sa_R q x * powerRZ 2 f in
  Rabs (IZR z - v) <= 1 / 2 \/ ((2000000000 <= z)%Z /\ 2000000000 <= v) \/ ((z <= -2000000000)%Z /\ v <= -2000000000).
Proof.
  intros z v. pose proof (scale_rnd_real rm ((x - q_zp q) * q_scale q) (q_frac q - f)) as H.
  replace (- (q_frac q - f))%Z with (- q_frac q + f)%Z in H by lia. rewrite p2_add, <- Rmult_assoc in H. fold (real_of (q_frac q) ((x - q_zp q) * q_scale q)) in H. fold (sa_R q x) in H. fold v in H.
  unfold z, sa_to_fx. set (w := scale_rnd rm ((x - q_zp q) * q_scale q) (q_frac q - f)) in *. clearbody w v. clear z.
  unfold sat, clamp. change (smin 32) with (-2147483648)%Z. change (smax 32) with 2147483647%Z. apply Rabs_bounds in H.
  destruct (Z_lt_le_dec w (-2147483648)) as [G|G].
  { right. right. split; [lia|]. apply IZR_lt in G. lra. }
  destruct (Z_lt_le_dec 2147483647 w) as [G'|G'].
  { right. left. split; [lia|]. apply IZR_lt in G'. lra. }
  left. replace (Z.max (-2147483648) (Z.min 2147483647 w)) with w by lia. apply Rabs_le. lra.
Qed.

Lemma tabulates_sa l f e q s B L rm qi x r : tabulates l f e q s B -> (Z.abs (l_len l) <= 1000)%Z -> (Z.abs (l_off l) <= 1000)%Z -> 0 <= L ->
  (forall a b, Rabs (f a - f b) <= L * Rabs (a - b)) -> table_value l 8 (sa_to_fx rm qi (l_fi l + 8) x) r ->
  Rabs (IZR r - 32768 * f (sa_R qi x)) <= B + 64 * L * powerRZ 2 (- l_fi l).
Proof.
  intros T H1 H2 HL0 HL TV. pose proof T as (Hl & Hm & _ & _ & _ & _ & HeB & HLo & HHi). set (h := powerRZ 2 (- l_fi l)) in *. assert (Ph : 0 < h) by apply p2_pos.
  assert (PL : 0 <= 64 * L * h) by (apply Rmult_le_pos; lra).
  pose proof (sa_to_fx_real rm qi (l_fi l + 8) x) as D. cbv zeta in D. set (z := sa_to_fx rm qi (l_fi l + 8) x) in *. clearbody z.
  assert (E8 : powerRZ 2 8 = 256) by (rewrite p2_IZR by lia; reflexivity). assert (E8' : powerRZ 2 (- (8)) = / 256) by (pose proof (p2_inv 8) as I; rewrite E8 in I; lra).
  assert (EV : sa_R qi x = sa_R qi x * powerRZ 2 (l_fi l + 8) * / 256 * h).
  { rewrite p2_add, E8. pose proof (p2_inv (l_fi l)) as I. fold h in I. replace (sa_R qi x * (powerRZ 2 (l_fi l) * 256) * / 256 * h) with (sa_R qi x * (powerRZ 2 (l_fi l) * h)) by field. rewrite I. ring. }
  set (v := sa_R qi x * powerRZ 2 (l_fi l + 8)) in *. assert (TS : table_spec l 8 z r) by exact TV. destruct D as [D|[[D1 D2]|[D1 D2]]].
  - pose proof (tabulates_value _ _ _ _ _ _ 8 z r T ltac:(lia) TV) as Q. rewrite real_of_split, E8' in Q. fold h in Q. specialize (HL (IZR z * / 256 * h) (sa_R qi x)).
    rewrite EV in HL at 2. replace (IZR z * / 256 * h - v * / 256 * h) with ((IZR z - v) * (/ 256 * h)) in HL by ring. rewrite Rabs_mult, (Rabs_right (/ 256 * h)) in HL by lra.
    assert (M : Rabs (IZR z - v) * (/ 256 * h) <= 1 / 2 * (/ 256 * h)) by (apply Rmult_le_compat_r; lra). apply (Rmult_le_compat_l L) in M; [|exact HL0].
    assert (N : Rabs (f (IZR z * / 256 * h) - f (sa_R qi x)) <= L * h / 512) by lra. apply Rabs_bounds in Q, N. apply Rabs_le. lra.
  - eapply Rle_trans; [apply HHi|lra].
    + rewrite EV. apply Rmult_le_compat_r; [lra|]. assert (IZR (l_len l - 1 - l_off l) <= 2000) by (apply IZR_le; lia). lra.
    + apply (table_high l 8 z); auto. rewrite E8'. apply IZR_le in D1. assert (IZR (l_len l - 1 - l_off l) <= 2000) by (apply IZR_le; lia). lra.
  - eapply Rle_trans; [apply HLo|lra].
    + rewrite EV. apply Rmult_le_compat_r; [lra|]. assert (-1000 <= IZR (- l_off l)) by (apply IZR_le; lia). lra.
    + apply (table_low l 8 z); auto. rewrite E8'. apply IZR_le in D1. assert (-1000 <= IZR (- l_off l)) by (apply IZR_le; lia). lra.
Qed.

(** mli_krn_sigm_fx16: the result is sigmoid of the real input within 2.6 units of the last place, for all inputs. *)
Theorem sigmoid_fx16_real rm fin tin tout m : (fin <= 34)%Z ->
  chk_basic_activation tin tout = ST_OK -> t_rank tin <> 0%Z -> fits32 tin -> fits32 tout -> backed tin m -> backed tout m -> unary_ok tin tout -> mem_bits 16 m -> in_bits 8 fin ->
  exists m', act_fx rm 16 sigmoid_lut fin tin tout m = Some m' /\ frame_ok tout m m' /\ forall c, valid (t_shape tout) c -> exists y,
    m' (t_data tout + addr (t_stride tout) c)%Z = Some y /\ Rabs (IZR y - 32768 * sigmoid (real_of fin (rd m (t_data tin + addr (t_stride tin) c)%Z))) <= 13 / 5.
Proof. intros Hf. apply (act_fx16_real rm _ _ _ _ _ _ fin tin tout m sigmoid_tabulates); [apply library_tables_ok|change (l_fi sigmoid_lut) with 4%Z; lia]. Qed.

Theorem tanh_fx16_real rm fin tin tout m : (fin <= 35)%Z ->
  chk_basic_activation tin tout = ST_OK -> t_rank tin <> 0%Z -> fits32 tin -> fits32 tout -> backed tin m -> backed tout m -> unary_ok tin tout -> mem_bits 16 m -> in_bits 8 fin ->
  exists m', act_fx rm 16 tanh_lut fin tin tout m = Some m' /\ frame_ok tout m m' /\ forall c, valid (t_shape tout) c -> exists y,
    m' (t_data tout + addr (t_stride tout) c)%Z = Some y /\ Rabs (IZR y - 32768 * tanh (real_of fin (rd m (t_data tin + addr (t_stride tin) c)%Z))) <= 33 / 8.
Proof. intros Hf. apply (act_fx16_real rm _ _ _ _ _ _ fin tin tout m tanh_tabulates); [apply library_tables_ok|change (l_fi tanh_lut) with 5%Z; lia]. Qed.

(** FX8: nearest representable value, up to 0.011 and 0.017 units. *)
Theorem sigmoid_fx8_real rm fin tin tout m : (fin <= 34)%Z ->
  chk_basic_activation tin tout = ST_OK -> t_rank tin <> 0%Z -> fits32 tin -> fits32 tout -> backed tin m -> backed tout m -> unary_ok tin tout -> mem_bits 8 m -> in_bits 8 fin ->
  exists m', act_fx rm 8 sigmoid_lut fin tin tout m = Some m' /\ frame_ok tout m m' /\ forall c, valid (t_shape tout) c -> exists y,
    m' (t_data tout + addr (t_stride tout) c)%Z = Some y /\ Rabs (IZR y - Rmin (128 * sigmoid (real_of fin (rd m (t_data tin + addr (t_stride tin) c)%Z))) 127) <= 511 / 1000.
Proof.
  intros Hf Hc R0 FI FO BI BO U MB Hb.
  destruct (act_fx8_real rm _ _ _ _ _ _ fin tin tout m sigmoid_tabulates ltac:(apply library_tables_ok) ltac:(change (l_fi sigmoid_lut) with 4%Z; lia) Hc R0 FI FO BI BO U MB Hb) as (m' & E & F & V).
  exists m'. split; [exact E|]. split; [exact F|]. intros c Vc. destruct (V c Vc) as (y & Ey & Hy). exists y. split; [exact Ey|]. eapply Rle_trans; [exact Hy|]. lra.
Qed.

Theorem tanh_fx8_real rm fin tin tout m : (fin <= 35)%Z ->
  chk_basic_activation tin tout = ST_OK -> t_rank tin <> 0%Z -> fits32 tin -> fits32 tout -> backed tin m -> backed tout m -> unary_ok tin tout -> mem_bits 8 m -> in_bits 8 fin ->
  exists m', act_fx rm 8 tanh_lut fin tin tout m = Some m' /\ frame_ok tout m m' /\ forall c, valid (t_shape tout) c -> exists y,
    m' (t_data tout + addr (t_stride tout) c)%Z = Some y /\ Rabs (IZR y - Rmin (128 * tanh (real_of fin (rd m (t_data tin + addr (t_stride tin) c)%Z))) 127) <= 517 / 1000.
Proof.
  intros Hf Hc R0 FI FO BI BO U MB Hb.
  destruct (act_fx8_real rm _ _ _ _ _ _ fin tin tout m tanh_tabulates ltac:(apply library_tables_ok) ltac:(change (l_fi tanh_lut) with 5%Z; lia) Hc R0 FI FO BI BO U MB Hb) as (m' & E & F & V).
  exists m'. split; [exact E|]. split; [exact F|]. intros c Vc. destruct (V c Vc) as (y & Ey & Hy). exists y. split; [exact Ey|]. eapply Rle_trans; [exact Hy|]. lra.
Qed.

(** SA8: the output has scale 1/256 and zero point -128 (sigmoid), scale 1/128 and zero point 0 (tanh). *)
Theorem sigmoid_sa8_real rm i tin tout m :
  chk_basic_activation tin tout = ST_OK -> t_rank tin <> 0%Z -> fits32 tin -> fits32 tout -> backed tin m -> backed tout m -> unary_ok tin tout -> mem_bits 8 m ->
  qpar_typed i -> chk_act_quant i = true ->
  exists m', act_sa8 rm sigm_sa8_out sigmoid_lut i tin tout m = Some m' /\ frame_ok tout m m' /\ forall c, valid (t_shape tout) c -> exists y,
    m' (t_data tout + addr (t_stride tout) c)%Z = Some y /\ Rabs (IZR (y + 128) - Rmin (256 * sigmoid (sa_R i (rd m (t_data tin + addr (t_stride tin) c)%Z))) 255) <= 529 / 1000.
Proof.
  intros Hc R0 FI FO BI BO U MB Hq Hqc. pose proof sigmoid_tabulates as T. pose proof T as (Hl & _).
  destruct (act_sa8_correct rm sigmoid_lut i sigm_sa8_out tin tout m Hc R0 FI FO BI BO U MB Hl ltac:(apply library_tables_ok) Hq Hqc (or_introl eq_refl) ltac:(discriminate)) as (m' & E & V & F).
  exists m'. split; [exact E|]. split; [exact F|]. intros c Vc. destruct (V c Vc) as (r & Hr & Er). eexists. split; [exact Er|].
  apply (tabulates_sa sigmoid_lut sigmoid _ _ _ _ (1 / 4) rm i _ r T) in Hr; [|discriminate|discriminate|lra|intros a b; pose proof (sigmoid_lipschitz a b); lra].
  change (l_fi sigmoid_lut) with 4%Z in Hr. rewrite p2_m4 in Hr. set (a := sa_R i _) in *. pose proof (sigmoid_range a) as Ra. set (v := sigmoid a) in *. clearbody v.
  change (l_fo sigmoid_lut - q_frac sigm_sa8_out)%Z with 7%Z. change (q_zp sigm_sa8_out) with (-128)%Z. apply Rabs_bounds in Hr.
  assert (R2 : (-4 <= r)%Z) by (apply le_IZR; lra). assert (W : (0 <= rnd rm r 7)%Z) by (pose proof (rnd_err rm r 7 ltac:(lia)) as Q; change (2 ^ 7)%Z with 128%Z in Q; lia).
  replace (sat 8 (rnd rm r 7 + -128) + 128)%Z with (Z.min (rnd rm r 7) 255) by (unfold sat, clamp; change (smin 8) with (-128)%Z; change (smax 8) with 127%Z; lia).
  apply clip_real. pose proof (rnd_real rm r 7 ltac:(lia)) as Q. replace (powerRZ 2 (- (7))) with (/ 128) in Q by (cbn [powerRZ Z.opp]; change (Pos.to_nat 7) with 7%nat; cbn [pow]; field).
  apply Rabs_bounds in Q. apply Rabs_le. lra.
Qed.

Theorem tanh_sa8_real rm i tin tout m :
  chk_basic_activation tin tout = ST_OK -> t_rank tin <> 0%Z -> fits32 tin -> fits32 tout -> backed tin m -> backed tout m -> unary_ok tin tout -> mem_bits 8 m ->
  qpar_typed i -> chk_act_quant i = true ->
  exists m', act_sa8 rm tanh_sa8_out tanh_lut i tin tout m = Some m' /\ frame_ok tout m m' /\ forall c, valid (t_shape tout) c -> exists y,
    m' (t_data tout + addr (t_stride tout) c)%Z = Some y /\ Rabs (IZR y - Rmin (128 * tanh (sa_R i (rd m (t_data tin + addr (t_stride tin) c)%Z))) 127) <= 524 / 1000.
Proof.
  intros Hc R0 FI FO BI BO U MB Hq Hqc. pose proof tanh_tabulates as T. pose proof T as (Hl & _).
  destruct (act_sa8_correct rm tanh_lut i tanh_sa8_out tin tout m Hc R0 FI FO BI BO U MB Hl ltac:(apply library_tables_ok) Hq Hqc (or_intror eq_refl) ltac:(discriminate)) as (m' & E & V & F).
  exists m'. split; [exact E|]. split; [exact F|]. intros c Vc. destruct (V c Vc) as (r & Hr & Er). eexists. split; [exact Er|].
  assert (Br : in_bits 16 r) by (apply (table_spec_bits tanh_lut 8 _ r Hl Hr)). rewrite ib16 in Br.
  apply (tabulates_sa tanh_lut tanh _ _ _ _ 1 rm i _ r T) in Hr; [|discriminate|discriminate|lra|intros a b; pose proof (tanh_lipschitz a b); lra].
  change (l_fi tanh_lut) with 5%Z in Hr. rewrite p2_m5 in Hr. set (a := sa_R i _) in *. set (v := tanh a) in *. clearbody v.
  change (l_fo tanh_lut - q_frac tanh_sa8_out)%Z with 8%Z. change (q_zp tanh_sa8_out) with 0%Z. apply Rabs_bounds in Hr.
  assert (W : (-128 <= rnd rm r 8)%Z) by (pose proof (rnd_err rm r 8 ltac:(lia)) as Q; change (2 ^ 8)%Z with 256%Z in Q; lia).
  replace (sat 8 (rnd rm r 8 + 0)) with (Z.min (rnd rm r 8) 127) by (unfold sat, clamp; change (smin 8) with (-128)%Z; change (smax 8) with 127%Z; lia).
  apply clip_real. pose proof (rnd_real rm r 8 ltac:(lia)) as Q. replace (powerRZ 2 (- (8))) with (/ 256) in Q by (cbn [powerRZ Z.opp]; change (Pos.to_nat 8) with 8%nat; cbn [pow]; field).
  apply Rabs_bounds in Q. apply Rabs_le. lra.
Qed.

(** * Softmax *)

Lemma exp_32 : exp (/ 32) <= 32 / 31.
Proof.
  pose proof (exp_ineq1_le (- / 32)) as H. pose proof (exp_pos (/ 32)) as P. assert (E : exp (/ 32) * exp (- / 32) = 1) by (rewrite <- exp_plus, Rplus_opp_r; apply exp_0). nra.
Qed.

Lemma expneg_zero d r : table_spec expneg_lut d 0 r -> r = 32767%Z.
Proof.
  intros H. unfold table_spec in H. change (l_off expneg_lut) with 356%Z in H. change (l_len expneg_lut) with 358%Z in H. destruct (Z.ltb_spec 0 d).
  - destruct H as [H _]. change (l_off expneg_lut) with 356%Z in H. change (l_len expneg_lut) with 358%Z in H. rewrite Z.add_0_l, Z.div_mul in H by (pose proof (pow2_gt0 d); lia).
    change (Z.max 0 (Z.min 356 (358 - 2))) with 356%Z in H. change (tab expneg_lut (356 + 1)) with 32767%Z in H. change (tab expneg_lut 356) with 32767%Z in H. lia.
  - rewrite Z.mul_0_l in H. exact H.
Qed.

(** The exponential of a value that is not positive: within 1.04 units plus 4.7 * 2^-15 of the exponential. *)
Lemma expneg_real d x r : (d <= 30)%Z -> (x <= 0)%Z -> table_spec expneg_lut d x r -> let y := exp (real_of (d + 5) x) in Rabs (IZR r - 32768 * y) <= 26 / 25 + 47 / 10 * y.
Proof.
  intros Hd Hx H y. destruct library_tables_ok as (_ & _ & (L1 & _ & L2) & _). pose proof exp_32 as X32.
  assert (EX : real_of (d + 5) x = IZR x * powerRZ 2 (- d) * / 32) by (rewrite real_of_split, p2_m5; reflexivity).
  assert (Py : 0 < y) by apply exp_pos. pose proof (p2_pos (- d)) as PD. set (w := IZR x * powerRZ 2 (- d)) in *.
  destruct (Z.eq_dec x 0) as [X0|X0].
  { assert (y = 1) by (unfold y; rewrite EX; unfold w; rewrite X0, !Rmult_0_l; apply exp_0). assert (r = 32767%Z) by (apply (expneg_zero d); subst x; exact H). subst r. rewrite H0, Rabs_left; lra. }
  assert (W0 : w < 0). { unfold w. assert (IZR x < 0) by (apply IZR_lt; lia). nra. }
  destruct (Rlt_le_dec w (IZR (-356))) as [G|G].
  { apply (table_low expneg_lut d x r L1 L2) in H; [|exact G]. change (tab expneg_lut 0) with 0%Z in H. change (tab expneg_lut 1) with 0%Z in H. replace r with 0%Z by lia.
    pose proof (Rabs_bounds _ _ (expneg_entries 0 ltac:(lia))) as B. change (0 =? 356)%Z with false in B. cbv iota in B. change (tab expneg_lut 0) with 0%Z in B. change (IZR (0 - 356)) with (IZR (-356)) in B.
    assert (y <= exp (IZR (-356) / 32)) by (unfold y; rewrite EX; apply exp_le; lra). apply Rabs_le. lra. }
  unfold table_spec in H. destruct (Z.ltb_spec 0 d) as [D|D].
  - assert (Hin : in_table expneg_lut d x).
    { apply table_inside; [lia|exact G|]. fold w. change (IZR (l_len expneg_lut - 1 - l_off expneg_lut)) with 1. lra. }
    pose proof (pow2_gt0 d ltac:(lia)) as P2. assert (IR : (0 <= x / 2 ^ d + 356 <= 355)%Z).
    { destruct Hin as [J _]. change (l_off expneg_lut) with 356%Z in J. pose proof (Z.div_lt_upper_bound x (2 ^ d) 0 P2 ltac:(lia)). pose proof (Z.div_le_lower_bound x (2 ^ d) (-356) P2 ltac:(lia)). lia. }
    set (i := (x / 2 ^ d + 356)%Z) in *. set (a := IZR (i - 356) * / 32).
    assert (HA : a <= w * / 32).
    { unfold a. apply Rmult_le_compat_r; [lra|]. replace (i - 356)%Z with (x / 2 ^ d)%Z by (unfold i; lia). unfold w.
      assert (Q : (2 ^ d * (x / 2 ^ d) <= x)%Z) by (apply Z.mul_div_le; lia). apply IZR_le in Q. rewrite mult_IZR, <- p2_IZR in Q by lia. pose proof (p2_inv d) as I. apply (Rmult_le_compat_r (powerRZ 2 (- d))) in Q; [|lra].
      replace (powerRZ 2 d * IZR (x / 2 ^ d) * powerRZ 2 (- d)) with (IZR (x / 2 ^ d) * (powerRZ 2 d * powerRZ 2 (- d))) in Q by ring. rewrite I in Q. lra. }
    assert (HY : exp (a + / 32) <= 32 / 31 * y).
    { apply Rle_trans with (exp (/ 32) * y); [|apply Rmult_le_compat_r; lra]. unfold y. rewrite <- exp_plus. apply exp_le. rewrite EX. lra. }
    set (e := if (i =? 355)%Z then 1 else 1 / 2).
    assert (S : Rabs (IZR r - 32768 * exp (real_of (d + l_fi expneg_lut) x)) <= e + 1 / 2 + IZR 1007 / 32768 + 32768 * (exp (a + / 32) * (/ 32 * / 32) / 8)).
    { apply segment_real; [lia|exact Hin|exact H|..]; change (l_off expneg_lut) with 356%Z; fold i; change (l_fi expneg_lut) with 5%Z; rewrite ?p2_m5.
      - eapply Rle_trans; [apply (expneg_entries i); lia|]. unfold e. destruct (Z.eqb_spec i 356); [lia|]. destruct (i =? 355)%Z; lra.
      - replace (IZR (i - 356) * / 32 + / 32) with (IZR (i + 1 - 356) / 32) by (rewrite !minus_IZR, plus_IZR; field).
        eapply Rle_trans; [apply (expneg_entries (i + 1)); lia|]. unfold e. destruct (Z.eqb_spec (i + 1) 356); destruct (Z.eqb_spec i 355); try lia; lra.
      - apply (steps_chk expneg_table 5 15 356 1007); [vm_compute; reflexivity|lia|]. change (Z.of_nat (length expneg_table)) with 358%Z. lia.
      - intros u Hu. fold a. apply exp_interpolation; [lra|exact Hu]. }
    change (d + l_fi expneg_lut)%Z with (d + 5)%Z in S. fold y in S. eapply Rle_trans; [exact S|].
    assert (He : e <= 1 / 2 + 1 / 2 * (32 / 31 * y)).
    { unfold e. destruct (Z.eqb_spec i 355) as [I5|I5]; [|lra]. assert (A1 : exp a <= y) by (unfold y; rewrite EX; apply exp_le; exact HA). assert (A2 : a = - / 32) by (unfold a; rewrite I5; change (IZR (355 - 356)) with (-1); lra).
      pose proof (exp_ineq1_le (- / 32)) as A3. rewrite A2 in A1. lra. }
    lra.
  - assert (EV : w = IZR (x * 2 ^ (- d))) by (unfold w; rewrite mult_IZR, <- p2_IZR by lia; reflexivity). rewrite EV in *. set (v := (x * 2 ^ (- d))%Z) in *. apply le_IZR in G. apply lt_IZR in W0.
    change (l_off expneg_lut) with 356%Z in H. change (l_len expneg_lut) with 358%Z in H. replace (Z.max 0 (Z.min (v + 356) (358 - 1))) with (v + 356)%Z in H by lia.
    pose proof (Rabs_bounds _ _ (expneg_entries (v + 356) ltac:(lia))) as B. destruct (Z.eqb_spec (v + 356) 356); [lia|]. rewrite <- H in B. replace (v + 356 - 356)%Z with v in B by lia.
    change (IZR v / 32) with (IZR v * / 32) in B. rewrite <- EX in B. fold y in B. apply Rabs_le. lra.
Qed.

Lemma exp_near a b t : 0 <= t -> t <= / 2 -> Rabs (a - b) <= t -> Rabs (exp a - exp b) <= t * / (1 - t) * exp b.
Proof.
  intros T0 T1 H. apply Rabs_bounds in H. pose proof (exp_pos b) as Pb. assert (E : exp a = exp (a - b) * exp b) by (rewrite <- exp_plus; f_equal; ring). rewrite E.
  replace (exp (a - b) * exp b - exp b) with ((exp (a - b) - 1) * exp b) by ring. rewrite Rabs_mult, (Rabs_right (exp b)) by lra. apply Rmult_le_compat_r; [lra|].
  pose proof (exp_ineq1_le (a - b)) as L. pose proof (exp_ineq1_le (- (a - b))) as U. pose proof (exp_pos (a - b)) as P. assert (I : exp (a - b) * exp (- (a - b)) = 1) by (rewrite <- exp_plus, Rplus_opp_r; apply exp_0).
  set (g := exp (a - b)) in *. set (g' := exp (- (a - b))) in *. assert (G1 : g * (1 - t) <= 1) by (rewrite <- I; apply Rmult_le_compat_l; lra).
  assert (K : t * / (1 - t) = / (1 - t) - 1) by (field; lra). assert (G2 : g <= / (1 - t)). { apply Rmult_le_reg_r with (1 - t); [lra|]. rewrite Rinv_l by lra. exact G1. }
  assert (G3 : t <= / (1 - t) - 1). { rewrite <- K. rewrite <- (Rmult_1_r t) at 1. apply Rmult_le_compat_l; [lra|]. rewrite <- Rinv_1. apply Rinv_le_contravar; lra. }
  apply Rabs_le. rewrite K. lra.
Qed.

(** The same for SA8 inputs. *)
Lemma expneg_sa_real rm q x r : (0 <= q_scale q)%Z -> (x <= q_zp q)%Z -> table_value expneg_lut 8 (sa_to_fx rm q 13 x) r ->
  let y := exp (sa_R q x) in Rabs (IZR r - 32768 * y) <= 26 / 25 + 68 / 10 * y.
Proof.
  intros Hs Hx TV y. assert (TS : table_spec expneg_lut 8 (sa_to_fx rm q 13 x) r) by exact TV. assert (Py : 0 < y) by apply exp_pos.
  pose proof (sa_to_fx_real rm q 13 x) as D. cbv zeta in D. set (z := sa_to_fx rm q 13 x) in *.
  assert (V0 : sa_R q x <= 0). { unfold sa_R, real_of. pose proof (p2_pos (- q_frac q)). assert (IZR ((x - q_zp q) * q_scale q) <= 0) by (apply IZR_le; nia). nra. }
  assert (E13 : powerRZ 2 13 = 8192) by (rewrite p2_IZR by lia; reflexivity). rewrite E13 in D. assert (E13' : powerRZ 2 (- (13)) = / 8192) by (pose proof (p2_inv 13) as I; rewrite E13 in I; lra).
  destruct D as [D|[[D1 D2]|[D1 D2]]]; [|lra|].
  - assert (Z0 : (z <= 0)%Z). { apply Rabs_bounds in D. assert (IZR z < 1) by lra. apply (lt_IZR z 1) in H. lia. }
    pose proof (expneg_real 8 z r ltac:(lia) Z0 TS) as Q. cbv zeta in Q. change (8 + 5)%Z with 13%Z in Q. unfold real_of in Q. rewrite E13' in Q. apply Rabs_bounds in D.
    pose proof (exp_near (IZR z * / 8192) (sa_R q x) (/ 16384) ltac:(lra) ltac:(lra) ltac:(apply Rabs_le; lra)) as N. fold y in N.
    set (y' := exp (IZR z * / 8192)) in *. replace (/ 16384 * / (1 - / 16384)) with (/ 16383) in N by field. apply Rabs_bounds in Q, N. apply Rabs_le. lra.
  - assert (HL : (tab expneg_lut 0 <= r <= tab expneg_lut 1)%Z).
    { destruct library_tables_ok as (_ & _ & (L1 & _ & L2) & _). apply (table_low expneg_lut 8 z); auto. change (IZR (- l_off expneg_lut)) with (-356). apply IZR_le in D1.
      replace (powerRZ 2 (- (8))) with (/ 256) by (cbn [powerRZ Z.opp]; change (Pos.to_nat 8) with 8%nat; cbn [pow]; field). lra. }
    change (tab expneg_lut 0) with 0%Z in HL. change (tab expneg_lut 1) with 0%Z in HL. replace r with 0%Z by lia.
    pose proof (Rabs_bounds _ _ (expneg_entries 0 ltac:(lia))) as B. change (0 =? 356)%Z with false in B. cbv iota in B. change (tab expneg_lut 0) with 0%Z in B. change (IZR (0 - 356)) with (IZR (-356)) in B.
    assert (y <= exp (IZR (-356) / 32)) by (unfold y; apply exp_le; lra). apply Rabs_le. lra.
Qed.

(** Softmax over the positions [sl] of the values [X]. *)
Definition rsum (l : list R) : R := fold_right Rplus 0 l.
Definition softmax (sl : list (list Z)) (X : list Z -> R) (c : list Z) : R := exp (X c) / rsum (map (fun c => exp (X c)) sl).

Lemma softmax_shift sl X a c : softmax sl X c = softmax sl (fun c => X c - a) c.
Proof.
  unfold softmax. assert (S : rsum (map (fun c => exp (X c - a)) sl) = exp (- a) * rsum (map (fun c => exp (X c)) sl)).
  { induction sl as [|b sl IH]; cbn [map rsum fold_right]; [ring|]. fold (rsum (map (fun c => exp (X c - a)) sl)) (rsum (map (fun c => exp (X c)) sl)). rewrite IH. unfold Rminus. rewrite exp_plus. ring. }
  rewrite S. unfold Rminus. rewrite exp_plus. pose proof (exp_pos (- a)) as P. set (s := rsum _). destruct (Req_dec s 0) as [->|N].
  - unfold Rdiv. rewrite Rmult_0_r, Rinv_0. ring.
  - field. split; lra.
Qed.

Lemma softmax_err unit k n T S E e Y al be : 0 < unit -> 0 <= k -> 0 <= al -> 0 <= be -> 0 <= n -> 2 * Rabs (Y * T - unit * E) <= T + k * E -> 0 <= E <= T -> 32767 <= T ->
  Rabs (E - 32768 * e) <= al + be * e -> Rabs (T - 32768 * S) <= n * al + be * S -> 0 < e <= 1 -> e <= S -> 1 <= S ->
  Rabs (Y - unit * (e / S)) <= (1 + k) / 2 + unit * (al * (n + 1) + 2 * be) / 32767.
Proof.
  intros Hu Hk Ha Hb Hn HY HE HT H1 H2 He HeS HS. set (g := e / S). assert (Eg : e = g * S) by (unfold g; field; lra).
  assert (G : 0 <= g <= 1). { unfold g. split; [apply Rmult_le_pos; [lra|left; apply Rinv_0_lt_compat; lra]|]. apply Rmult_le_reg_r with S; [lra|]. fold g. rewrite <- Eg. lra. }
  clearbody g. set (C := al * (n + 1) + 2 * be). assert (C0 : 0 <= C) by (unfold C; assert (0 <= al * (n + 1)) by (apply Rmult_le_pos; lra); lra).
  assert (H3 : Rabs (E - g * T) <= C).
  { replace (E - g * T) with ((E - 32768 * e) - g * (T - 32768 * S)) by (rewrite Eg; ring). unfold Rminus at 1. eapply Rle_trans; [apply Rabs_triang|]. rewrite Rabs_Ropp, Rabs_mult, (Rabs_right g) by lra.
    assert (M : g * Rabs (T - 32768 * S) <= g * (n * al + be * S)) by (apply Rmult_le_compat_l; lra). replace (g * (n * al + be * S)) with (g * (n * al) + be * e) in M by (rewrite Eg; ring).
    assert (M1 : g * (n * al) <= 1 * (n * al)) by (apply Rmult_le_compat_r; [apply Rmult_le_pos; lra|lra]). assert (M2 : be * e <= be * 1) by (apply Rmult_le_compat_l; lra). unfold C. lra. }
  apply Rmult_le_reg_r with T; [lra|]. rewrite <- (Rabs_right T) at 1 by lra. rewrite <- Rabs_mult.
  replace ((Y - unit * g) * T) with ((Y * T - unit * E) + unit * (E - g * T)) by ring. eapply Rle_trans; [apply Rabs_triang|]. rewrite (Rabs_mult unit), (Rabs_right unit) by lra.
  assert (M : unit * Rabs (E - g * T) <= unit * C) by (apply Rmult_le_compat_l; lra). assert (M1 : k * E <= k * T) by (apply Rmult_le_compat_l; lra).
  assert (M2 : unit * C <= unit * C / 32767 * T). { assert (0 <= unit * C) by (apply Rmult_le_pos; lra). replace (unit * C) with (unit * C / 32767 * 32767) at 1 by field. apply Rmult_le_compat_l; [|exact HT]. apply Rmult_le_pos; lra. }
  fold C. lra.
Qed.

Lemma sums_err (sl : list (list Z)) (E : list Z -> Z) (e : list Z -> R) al be :
  (forall c, In c sl -> Rabs (IZR (E c) - 32768 * e c) <= al + be * e c) ->
  Rabs (IZR (lsum (map E sl)) - 32768 * rsum (map e sl)) <= IZR (Z.of_nat (length sl)) * al + be * rsum (map e sl).
Proof.
  induction sl as [|c sl IH]; intros H; cbn [map lsum rsum fold_right length].
  - rewrite Rmult_0_l, Rmult_0_r, Rmult_0_r, Rminus_0_r, Rabs_R0. lra.
  - fold (lsum (map E sl)) (rsum (map e sl)). specialize (IH ltac:(intros c' Hc'; apply H; now right)). pose proof (H c ltac:(now left)) as Hc.
    rewrite plus_IZR, Nat2Z.inj_succ, succ_IZR. apply Rabs_bounds in IH, Hc. apply Rabs_le. lra.
Qed.

Lemma rsum_pos (sl : list (list Z)) (e : list Z -> R) c : (forall c, In c sl -> 0 < e c) -> In c sl -> e c <= rsum (map e sl).
Proof.
  induction sl as [|b sl IH]; intros H Hc; [contradiction|]. cbn [map rsum fold_right]. fold (rsum (map e sl)).
  assert (N : 0 <= rsum (map e sl)). { clear - H. assert (forall c, In c sl -> 0 < e c) by (intros; apply H; now right). clear H. induction sl as [|a sl IH]; cbn [map rsum fold_right]; [lra|]. fold (rsum (map e sl)). pose proof (H0 a ltac:(now left)). pose proof (IH ltac:(intros; apply H0; now right)). lra. }
  destruct Hc as [->|Hc]; [lra|]. pose proof (IH ltac:(intros; apply H; now right) Hc). pose proof (H b ltac:(now left)). lra.
Qed.

Lemma lsum_ge (sl : list (list Z)) (E : list Z -> Z) c : (forall c, In c sl -> (0 <= E c)%Z) -> In c sl -> (E c <= lsum (map E sl))%Z.
Proof.
  induction sl as [|b sl IH]; intros H Hc; [contradiction|]. cbn [map lsum fold_right]. fold (lsum (map E sl)).
  assert (N : (0 <= lsum (map E sl))%Z). { clear - H. assert (forall c, In c sl -> (0 <= E c)%Z) by (intros; apply H; now right). clear H. induction sl as [|a sl IH]; cbn [map lsum fold_right]; [lia|]. fold (lsum (map E sl)). pose proof (H0 a ltac:(now left)). pose proof (IH ltac:(intros; apply H0; now right)). lia. }
  destruct Hc as [->|Hc]; [lia|]. pose proof (IH ltac:(intros; apply H; now right) Hc). pose proof (H b ltac:(now left)). lia.
Qed.

(** Rounded softmax of approximate exponentials against the real one. *)
Lemma is_softmax_real unit k al be sl E Y (X : list Z -> R) (a : R) top c : (0 < unit)%Z -> (0 <= k)%Z -> 0 <= al -> 0 <= be -> is_softmax unit k sl E Y ->
  (forall c, In c sl -> (0 <= E c)%Z /\ Rabs (IZR (E c) - 32768 * exp (X c - a)) <= al + be * exp (X c - a)) -> (forall c, In c sl -> X c <= a) ->
  In top sl -> X top = a -> (32767 <= E top)%Z -> In c sl ->
  Rabs (IZR (Y c) - IZR unit * softmax sl X c) <= (1 + IZR k) / 2 + IZR unit * (al * (IZR (Z.of_nat (length sl)) + 1) + 2 * be) / 32767.
Proof.
  intros Hu Hk Ha Hb (Ht & HS) HE HX Htop Xtop Etop Hc. rewrite (softmax_shift sl X a c). unfold softmax. set (e := fun c => exp (X c - a)) in *.
  assert (Pe : forall c, In c sl -> 0 < e c) by (intros; apply exp_pos). destruct (HS c Hc) as [_ H].
  apply (softmax_err (IZR unit) (IZR k) _ (IZR (lsum (map E sl))) _ (IZR (E c))).
  - apply IZR_lt; lia.
  - apply IZR_le; lia.
  - exact Ha.
  - exact Hb.
  - apply IZR_le; lia.
  - apply IZR_le in H. rewrite mult_IZR, abs_IZR, minus_IZR, plus_IZR, !mult_IZR in H. exact H.
  - split; apply IZR_le; [now apply HE|]. apply lsum_ge; [intros; now apply HE|exact Hc].
  - apply IZR_le. eapply Z.le_trans; [exact Etop|]. apply lsum_ge; [intros; now apply HE|exact Htop].
  - now apply HE.
  - apply (sums_err sl E e). intros c' Hc'. now apply HE.
  - split; [now apply Pe|]. unfold e. rewrite <- exp_0. apply exp_le. specialize (HX c Hc). lra.
  - exact (rsum_pos sl e c Pe Hc).
  - pose proof (rsum_pos sl e top Pe Htop) as P. unfold e at 1 in P. rewrite Xtop, Rminus_diag_eq, exp_0 in P by reflexivity. exact P.
Qed.

(** mli_krn_softmax_fx16 with the library's table: [Y] / 2^15 is the softmax of the real inputs within 15 + 1.05 n units, n the number of elements of the slice. *)
Theorem softmax_fx16_real rm fin axis tin tout m : (fin <= 35)%Z ->
  chk_softmax tin tout axis = ST_OK -> t_rank tin <> 0%Z -> fits32 tin -> fits32 tout -> backed tin m -> backed tout m -> unary_ok tin tout ->
  mem_bits 16 m -> in_bits 8 fin ->
  (forall c, valid (t_shape tin) c -> (Z.of_nat (length (axis_slice axis (t_shape tin) c)) <= 65538)%Z) ->
  exists m', softmax_fx rm 16 fin expneg_lut axis tin tout m = Some m' /\ frame_ok tout m m'
    /\ forall c, valid (t_shape tin) c ->
       let X := fun c => real_of fin (rd m (t_data tin + addr (t_stride tin) c)%Z) in
       let Y := fun c => rd m' (t_data tout + addr (t_stride tout) c)%Z in
       let sl := axis_slice axis (t_shape tin) c in
       forall c', In c' sl -> Rabs (IZR (Y c') - 32768 * softmax sl X c') <= 15 + 21 / 20 * IZR (Z.of_nat (length sl)).
Proof.
  intros Hf Hc R0 FI FO BI BO U MB Hb Hlen.
  destruct (softmax_fx16_correct rm fin expneg_lut axis tin tout m Hc R0 FI FO BI BO U MB expneg_exp_lut Hb Hlen) as (m' & E & F & V).
  exists m'. split; [exact E|]. split; [exact F|]. intros c Vc X Y sl c' Hc'. destruct (V c Vc) as (mx & Ex & [M1 M2] & HE & HS & _). fold sl in M1, M2, HE, HS.
  apply in_map_iff in M1. destruct M1 as (top & Etop & Htop). change (l_fi expneg_lut) with 5%Z in HE.
  assert (N0 : 0 <= IZR (Z.of_nat (length sl))) by (apply IZR_le; lia).
  eapply Rle_trans; [apply (is_softmax_real (2 ^ 15) 8 (26 / 25) (47 / 10) sl Ex Y X (real_of fin mx) top c'); try lia; try lra; auto|].
  - intros c1 H1. destruct (HE c1 H1) as [P T]. split; [exact P|]. assert (L : (rd m (t_data tin + addr (t_stride tin) c1) <= mx)%Z) by (apply M2, in_map_iff; exists c1; auto).
    apply expneg_real in T; [|lia|lia]. replace (fin - 5 + 5)%Z with fin in T by lia. unfold X. replace (real_of fin (rd m (t_data tin + addr (t_stride tin) c1)) - real_of fin mx) with (real_of fin (rd m (t_data tin + addr (t_stride tin) c1) - mx)) by (unfold real_of; rewrite minus_IZR; ring). exact T.
  - intros c1 H1. assert (L : (rd m (t_data tin + addr (t_stride tin) c1) <= mx)%Z) by (apply M2, in_map_iff; exists c1; auto). unfold X, real_of. apply Rmult_le_compat_r; [left; apply p2_pos|now apply IZR_le].
  - unfold X. now rewrite Etop.
  - destruct (HE top Htop) as [_ T]. rewrite Etop, Z.sub_diag in T. apply expneg_zero in T. lia.
  - change (IZR (2 ^ 15)) with 32768. lra.
Qed.

(** mli_krn_softmax_sa8: scale 1/256, zero point -128. *)
Theorem softmax_sa8_real rm q axis tin tout m :
  chk_softmax tin tout axis = ST_OK -> t_rank tin <> 0%Z -> fits32 tin -> fits32 tout -> backed tin m -> backed tout m -> unary_ok tin tout ->
  mem_bits 8 m -> qpar_typed q -> chk_act_quant q = true ->
  (forall c, valid (t_shape tin) c -> (Z.of_nat (length (axis_slice axis (t_shape tin) c)) <= 65538)%Z) ->
  exists m', softmax_sa8 rm q expneg_lut axis tin tout m = Some m' /\ frame_ok tout m m'
    /\ forall c, valid (t_shape tin) c ->
       let X := fun c => sa_R q (rd m (t_data tin + addr (t_stride tin) c)%Z) in
       let Y := fun c => (rd m' (t_data tout + addr (t_stride tout) c) + 128)%Z in
       let sl := axis_slice axis (t_shape tin) c in
       forall c', In c' sl -> Rabs (IZR (Y c') - 256 * softmax sl X c') <= 162 / 100 + IZR (Z.of_nat (length sl)) / 120.
Proof.
  intros Hc R0 FI FO BI BO U MB Hq Hqc Hlen.
  destruct (softmax_sa8_correct rm q expneg_lut axis tin tout m Hc R0 FI FO BI BO U MB expneg_exp_lut Hq Hqc Hlen) as (m' & E & F & V).
  exists m'. split; [exact E|]. split; [exact F|]. intros c Vc X Y sl c' Hc'. destruct (V c Vc) as (mx & Ex & [M1 M2] & HE & HS & _). fold sl in M1, M2, HE, HS.
  apply in_map_iff in M1. destruct M1 as (top & Etop & Htop). change (l_fi expneg_lut + 8)%Z with 13%Z in HE. change (2 ^ q_frac softmax_out)%Z with 256%Z in HS. change (q_zp softmax_out) with (-128)%Z in HS.
  assert (N0 : 0 <= IZR (Z.of_nat (length sl))) by (apply IZR_le; lia). assert (Hs : (0 <= q_scale q)%Z) by (unfold chk_act_quant in Hqc; lia).
  eapply Rle_trans; [apply (is_softmax_real 256 2 (26 / 25) (68 / 10) sl Ex Y X (sa_R q mx) top c'); try lia; try lra; auto|].
  - intros c1 H1. destruct (HE c1 H1) as [P T]. split; [exact P|]. assert (L : (rd m (t_data tin + addr (t_stride tin) c1) <= mx)%Z) by (apply M2, in_map_iff; exists c1; auto).
    apply expneg_sa_real in T; [|exact Hs|exact L]. unfold X. replace (sa_R q (rd m (t_data tin + addr (t_stride tin) c1)) - sa_R q mx) with (sa_R (mkQ (q_scale q) (q_frac q) mx) (rd m (t_data tin + addr (t_stride tin) c1)))
      by (unfold sa_R, real_of; cbn [q_scale q_frac q_zp]; rewrite !mult_IZR, !minus_IZR; ring). exact T.
  - intros c1 H1. assert (L : (rd m (t_data tin + addr (t_stride tin) c1) <= mx)%Z) by (apply M2, in_map_iff; exists c1; auto). unfold X, sa_R, real_of. apply Rmult_le_compat_r; [left; apply p2_pos|]. apply IZR_le. nia.
  - unfold X. now rewrite Etop.
  - destruct (HE top Htop) as [_ T]. rewrite Etop in T. unfold sa_to_fx in T. cbn [q_zp q_scale q_frac] in T. rewrite Z.sub_diag, Z.mul_0_l in T.
    assert (Z0 : scale_rnd rm 0 (q_frac q - 13) = 0%Z). { pose proof (scale_rnd_real rm 0 (q_frac q - 13)) as Q. rewrite Rmult_0_l, Rminus_0_r in Q. apply Rabs_bounds in Q. assert (Q1 : IZR (scale_rnd rm 0 (q_frac q - 13)) < 1) by lra. assert (Q2 : -1 < IZR (scale_rnd rm 0 (q_frac q - 13))) by lra. apply (lt_IZR _ 1) in Q1. apply (lt_IZR (-1)) in Q2. lia. }
    rewrite Z0 in T. change (sat 32 0) with 0%Z in T. assert (T' : table_spec expneg_lut 8 0 (Ex top)) by exact T. apply expneg_zero in T'. lia.
  - lra.
Qed.

(** * Examples *)

(** Inputs 0, 1, -1, 16, -16 and 0.49 of a 2 x 3 tensor with row stride 4; the element [1; 2] is 1000 / 2^11. *)
Example lr_sigmoid : exists m', act_fx RM_UP 16 sigmoid_lut 11 la_t la_t la_mem = Some m' /\ rd m' 6 = 20306%Z /\ Rabs (20306 - 32768 * sigmoid (1000 / 2048)) <= 13 / 5.
Proof.
  destruct la_hyps as (H1 & H2 & H3 & H4 & H5 & H6 & _).
  destruct (sigmoid_fx16_real RM_UP 11 la_t la_t la_mem ltac:(lia) H1 H2 H3 H3 H4 H4 H5 H6 ltac:(rewrite ib8; lia)) as (m' & E & _ & V).
  destruct (V [1; 2]%Z ltac:(repeat constructor; lia)) as (y & Ey & Hy). change (t_data la_t + addr (t_stride la_t) [1; 2])%Z with 6%Z in Ey, Hy. change (rd la_mem 6) with 1000%Z in Hy.
  assert (R : rd m' 6 = 20306%Z) by (pose proof la_run as Q; rewrite E in Q; cbn [bind] in Q; injection Q; auto).
  exists m'. split; [exact E|]. split; [exact R|]. unfold rd in R. rewrite Ey in R. subst y. unfold real_of in Hy.
  replace (1000 * powerRZ 2 (- (11))) with (1000 / 2048) in Hy; [exact Hy|]. cbn [powerRZ Z.opp]. change (Pos.to_nat 11) with 11%nat. cbn [pow]. field.
Qed.
Example lr_tanh8 : exists m', act_sa8 RM_CONV tanh_sa8_out tanh_lut la_q la_t8 la_t8 la_mem8 = Some m' /\ frame_ok la_t8 la_mem8 m'.
Proof.
  destruct la_hyps8 as (H1 & H2 & H3 & H4 & H5 & H6 & H7 & H8).
  destruct (tanh_sa8_real RM_CONV la_q la_t8 la_t8 la_mem8 H1 H2 H3 H3 H4 H4 H5 H6 H7 H8) as (m' & E & F & _). eauto.
Qed.
(** The error bound of three elements is 18.2 * 2^-15. *)
Example lr_softmax : exists m', softmax_fx RM_UP 16 11 expneg_lut 0 sx_t sx_t sx_mem = Some m'
  /\ Rabs (21797 - 32768 * (exp 1 / (exp 1 + (exp 0 + (exp (-1) + 0))))) <= 182 / 10.
Proof.
  destruct sx_hyps as (H1 & H2 & H3 & H4 & H5 & H6 & _ & H8 & H9 & _).
  destruct (softmax_fx16_real RM_UP 11 0 sx_t sx_t sx_mem ltac:(lia) H1 H2 H3 H3 H4 H4 H5 H6 H8 H9) as (m' & E & _ & V).
  exists m'. split; [exact E|]. specialize (V [0; 0]%Z ltac:(repeat constructor; lia)). cbv zeta in V. change (axis_slice 0 (t_shape sx_t) [0; 0]%Z) with [[0; 0]; [1; 0]; [2; 0]]%Z in V.
  specialize (V [0; 0]%Z ltac:(now left)). unfold softmax in V. cbn [map rsum fold_right length] in V. cbv beta in V. change (t_data sx_t + addr (t_stride sx_t) [0; 0])%Z with 0%Z in V.
  assert (R : rd m' 0 = 21797%Z) by (pose proof sx_run as Q; rewrite E in Q; cbn [bind] in Q; injection Q; auto). rewrite R in V.
  change (rd sx_mem (t_data sx_t + addr (t_stride sx_t) [0; 0]%Z)) with 2048%Z in V. change (rd sx_mem (t_data sx_t + addr (t_stride sx_t) [1; 0]%Z)) with 0%Z in V. change (rd sx_mem (t_data sx_t + addr (t_stride sx_t) [2; 0]%Z)) with (-2048)%Z in V.
  change (rd sx_mem 0) with 2048%Z in V. assert (P : powerRZ 2 (- (11)) = / 2048) by (cbn [powerRZ Z.opp]; change (Pos.to_nat 11) with 11%nat; cbn [pow]; field). unfold real_of in V. rewrite P in V.
  replace (2048 * / 2048) with 1 in V by field. replace (0 * / 2048) with 0 in V by field. replace (-2048 * / 2048) with (-1) in V by field. change (IZR (Z.of_nat 3)) with 3 in V. eapply Rle_trans; [exact V|]. lra.
Qed.
