(** Specification and proofs for the fixed-point arithmetic (properties C01-C04). *)
From Coq Require Import ZArith List Lia Bool.
From Verif Require Import Base FxMath.
Open Scope Z_scope.

(** * Specifications, independent of the model *)

(** r is the integer nearest to x/2^k, ties going up. *)
Definition nearest_up (x k r : Z) : Prop := - 2 ^ k <= 2 * (x - r * 2 ^ k) < 2 ^ k.
(** r is the integer nearest to x/2^k, ties going to the even neighbour. *)
Definition nearest_even (x k r : Z) : Prop :=
  - 2 ^ k <= 2 * (x - r * 2 ^ k) <= 2 ^ k
  /\ (Z.abs (2 * (x - r * 2 ^ k)) = 2 ^ k -> Z.Even r).
Definition nearest (rm : rmode) (x k r : Z) : Prop :=
  match rm with RM_UP => nearest_up x k r | RM_CONV => nearest_even x k r end.

(** The rounding function that the nearest relation determines. *)
Definition rnd (rm : rmode) (x k : Z) : Z :=
  match rm with
  | RM_UP => (2 * x + 2 ^ k) / (2 * 2 ^ k)
  | RM_CONV =>
      let q := x / 2 ^ k in let f := 2 * (x mod 2 ^ k) in
      if f <? 2 ^ k then q else if f >? 2 ^ k then q + 1 else if Z.even q then q else q + 1
  end.

Lemma nearest_unique rm x k r r' : 0 <= k -> nearest rm x k r -> nearest rm x k r' -> r = r'.
Proof.
  intros Hk. pose proof (pow2_gt0 k Hk) as Hp. set (p := 2 ^ k) in *.
  destruct rm; unfold nearest, nearest_up, nearest_even; fold p.
  - intros. nia.
  - intros [H1 E1] [H2 E2].
    destruct (Z.eq_dec r r') as [|Hne]; [assumption|exfalso].
    assert (D : (r - r') * p = (x - r' * p) - (x - r * p)) by ring.
    assert (-p <= (r - r') * p <= p) by lia.
    assert (r - r' = 1 \/ r - r' = -1) as [Hd|Hd] by nia.
    + assert (Hxr : 2 * (x - r * p) = - p) by nia. assert (2 * (x - r' * p) = p) by nia.
      destruct E1 as [a Ha]; [lia|]. destruct E2 as [b Hb]; lia.
    + assert (Hxr : 2 * (x - r * p) = p) by nia. assert (2 * (x - r' * p) = -p) by nia.
      destruct E1 as [a Ha]; [lia|]. destruct E2 as [b Hb]; lia.
Qed.

Lemma rnd_nearest rm x k : 0 <= k -> nearest rm x k (rnd rm x k).
Proof.
  intros Hk. pose proof (pow2_gt0 k Hk) as Hp. unfold nearest, nearest_up, nearest_even, rnd. set (p := 2 ^ k) in *.
  destruct rm.
  - pose proof (Z.div_mod (2 * x + p) (2 * p) ltac:(lia)).
    pose proof (Z.mod_pos_bound (2 * x + p) (2 * p) ltac:(lia)). nia.
  - pose proof (Z.div_mod x p ltac:(lia)). pose proof (Z.mod_pos_bound x p ltac:(lia)).
    set (q := x / p) in *. set (m := x mod p) in *.
    destruct (Z.ltb_spec (2*m) p); [|destruct (Z.gtb_spec (2*m) p)].
    + assert (E: x - q * p = m) by lia. rewrite E. split; lia.
    + assert (E: x - (q+1) * p = m - p) by lia. rewrite E. split; lia.
    + destruct (Z.even q) eqn:Ev.
      * assert (E: x - q * p = m) by lia. rewrite E. split; [lia|]. intros; now apply Z.even_spec.
      * assert (E: x - (q+1) * p = m - p) by lia. rewrite E. split; [lia|]. intros.
        assert (Od : Z.Odd q) by (apply Z.odd_spec; rewrite <- Z.negb_even, Ev; reflexivity).
        destruct Od as [b Hb]. exists (b + 1). lia.
Qed.

(** Rounding is monotone. *)
Lemma rnd_mono rm x y k : 0 <= k -> x <= y -> rnd rm x k <= rnd rm y k.
Proof.
  intros Hk Hxy. pose proof (rnd_nearest rm x k Hk) as Hx. pose proof (rnd_nearest rm y k Hk) as Hy.
  pose proof (pow2_gt0 k Hk) as Hp.
  destruct (Z_lt_le_dec (rnd rm y k) (rnd rm x k)) as [Hlt|]; [exfalso|assumption].
  destruct rm; unfold nearest, nearest_up, nearest_even in *; set (p := 2 ^ k) in *;
  set (a := rnd _ x k) in *; set (b := rnd _ y k) in *.
  - nia.
  - destruct Hx as [Hx Ex], Hy as [Hy Ey].
    assert (a = b + 1) by nia. assert (x = y) by nia. subst y.
    assert (a = b); [|lia]. apply (nearest_unique RM_CONV x k); auto; split; auto.
Qed.

Lemma rnd_0 rm x : rnd rm x 0 = x.
Proof.
  apply (nearest_unique rm x 0); [lia|apply rnd_nearest; lia|].
  destruct rm; unfold nearest, nearest_up, nearest_even; change (2^0) with 1; lia.
Qed.

(** Shift by a signed amount, exact, clamped to n bits when shifting left. *)
Definition shift_spec (n x k : Z) : Z := if 0 <=? k then x / 2 ^ k else sat n (x * 2 ^ (- k)).

(** * C01: shifts *)

Lemma shiftr_div x k : 0 <= k -> Z.shiftr x k = x / 2 ^ k.
Proof. intros; now apply Z.shiftr_div_pow2. Qed.

Lemma div_big n x k : in_bits n x -> 1 <= n -> n - 1 <= k -> x / 2 ^ k = if x <? 0 then -1 else 0.
Proof.
  unfold in_bits, smin, smax. intros H Hn Hk.
  assert (2 ^ (n - 1) <= 2 ^ k) by (apply pow2_le; lia).
  pose proof (pow2_gt0 (n-1) ltac:(lia)).
  destruct (Z.ltb_spec x 0).
  - symmetry. apply (Z.div_unique x (2^k) (-1) (x + 2 ^ k)); lia.
  - apply Z.div_small; lia.
Qed.

Lemma asl_fx_pos n x k : 1 <= n -> in_bits n x -> 0 <= k -> asl_fx n x k = sat n (x * 2 ^ k).
Proof.
  intros Hn Hx Hk. unfold asl_fx. destruct (Z.ltb_spec k 0); [lia|].
  pose proof (pow2_gt0 k Hk) as Hp. pose proof (pow2_gt0 (n-1) ltac:(lia)) as Hpn.
  destruct (Z.gtb_spec k (n - 1)).
  - pose proof (pow2_le (n-1) k ltac:(lia) ltac:(lia)).
    destruct (Z.eqb_spec x 0); cbn [negb].
    + subst. unfold sat, clamp, smin, smax. lia.
    + unfold limit_fx, sat, clamp, smin, smax in *. destruct (Z.ltb_spec x 0); nia.
  - set (j := n - 1 - k). assert (Hj : 0 <= j) by (unfold j; lia).
    pose proof (pow2_gt0 j Hj) as Hpj.
    assert (E : 2 ^ (n - 1) = 2 ^ j * 2 ^ k) by (rewrite <- pow2_split by lia; f_equal; unfold j; lia).
    rewrite shiftr_div, Z.shiftl_mul_pow2 by lia.
    unfold in_bits, limit_fx, sat, clamp, smin, smax in *.
    pose proof (Z.div_mod x (2 ^ j) ltac:(lia)). pose proof (Z.mod_pos_bound x (2 ^ j) Hpj).
    set (q := x / 2 ^ j) in *. rewrite E in *. set (pj := 2 ^ j) in *. set (pk := 2 ^ k) in *.
    destruct (Z.eqb_spec q 0); [cbn [orb]; assert (0 <= x < pj) by lia; nia|].
    destruct (Z.eqb_spec q (-1)); cbn [orb]; [assert (-pj <= x < 0) by lia; nia|].
    destruct (Z.ltb_spec q 0).
    + assert (x < - pj) by nia. nia.
    + assert (x >= pj) by nia. nia.
Qed.

Lemma asr_pos_fx_spec n x k : 1 <= n -> in_bits n x -> 0 <= k -> asr_pos_fx n x k = x / 2 ^ k.
Proof.
  intros. unfold asr_pos_fx. destruct (Z.gtb_spec k (n-1)).
  - symmetry; apply div_big with n; auto; lia.
  - apply shiftr_div; lia.
Qed.

Theorem asr_fx_spec n x k : 1 <= n -> in_bits n x -> asr_fx n x k = shift_spec n x k.
Proof.
  intros Hn Hx. unfold asr_fx, shift_spec. destruct (Z.leb_spec 0 k).
  - destruct (Z.gtb_spec k (n-1)); [symmetry; apply div_big with n; auto; lia|].
    destruct (Z.ltb_spec k 0); [lia|]. now apply shiftr_div.
  - destruct (Z.gtb_spec k (n-1)); [lia|]. destruct (Z.ltb_spec k 0); [|lia].
    apply asl_fx_pos; auto; lia.
Qed.

Theorem asl_fx_spec n x k : 1 <= n -> in_bits n x -> asl_fx n x k = shift_spec n x (- k).
Proof.
  intros Hn Hx. unfold shift_spec. destruct (Z.leb_spec 0 (- k)).
  - destruct (Z.eq_dec k 0) as [->|].
    + rewrite asl_fx_pos by (auto; lia). change (2 ^ 0) with 1. change (2 ^ (- 0)) with 1.
      rewrite Z.mul_1_r, Z.div_1_r. now apply sat_id.
    + unfold asl_fx. destruct (Z.ltb_spec k 0); [|lia]. apply asr_pos_fx_spec; auto.
  - rewrite Z.opp_involutive. apply asl_fx_pos; auto; lia.
Qed.

Lemma shift_spec_in_bits n x k : 1 <= n -> in_bits n x -> in_bits n (shift_spec n x k).
Proof.
  intros Hn Hx. unfold shift_spec. destruct (Z.leb_spec 0 k); [|now apply sat_in_bits].
  pose proof (pow2_gt0 k ltac:(lia)). unfold in_bits, smin, smax in *.
  pose proof (pow2_gt0 (n-1) ltac:(lia)).
  split; [apply Z.div_le_lower_bound|apply Z.div_le_upper_bound]; nia.
Qed.

(** * C03: saturating scalar arithmetic *)

Theorem add_fx_spec n l r : 1 <= n -> in_bits n l -> in_bits n r -> add_fx n l r = sat n (l + r).
Proof.
  intros Hn Hl Hr. unfold add_fx, sat, clamp, in_bits in *. pose proof (smin_le_smax n Hn).
  destruct (Z.gtb_spec r 0), (Z.gtb_spec l (smax n - r)), (Z.ltb_spec r 0), (Z.ltb_spec l (smin n - r)); cbn [andb]; lia.
Qed.

Theorem sub_fx_spec n l r : 1 <= n -> in_bits n l -> in_bits n r -> sub_fx n l r = sat n (l - r).
Proof.
  intros Hn Hl Hr. unfold sub_fx, sat, clamp, in_bits in *. pose proof (smin_le_smax n Hn).
  destruct (Z.ltb_spec r 0), (Z.gtb_spec l (smax n + r)), (Z.gtb_spec r 0), (Z.ltb_spec l (smin n + r)); cbn [andb]; lia.
Qed.

Theorem neg_fx_spec n x : 1 <= n -> in_bits n x -> neg_fx n x = sat n (- x).
Proof.
  intros Hn Hx. unfold neg_fx, sat, clamp, in_bits, smin, smax in *. pose proof (pow2_gt0 (n-1) ltac:(lia)).
  destruct (Z.eqb_spec x (- 2 ^ (n-1))); lia.
Qed.

Theorem abs_fx_spec n x : 1 <= n -> in_bits n x -> abs_fx n x = sat n (Z.abs x).
Proof.
  intros Hn Hx. unfold abs_fx. destruct (Z.geb_spec x 0).
  - rewrite Z.abs_eq by lia. now rewrite sat_id.
  - rewrite neg_fx_spec by auto. f_equal. lia.
Qed.

Theorem bound_range_spec x lo hi : lo <= hi -> bound_range_fx x lo hi = clamp lo hi x.
Proof.
  intros. unfold bound_range_fx, max_fx, min_fx, clamp.
  destruct (Z.gtb_spec x lo); destruct (Z.ltb_spec x hi); try destruct (Z.ltb_spec lo hi); lia.
Qed.

Theorem sat_fx_spec n x d : 1 <= n -> in_bits n x -> 0 <= d < n -> sat_fx n x d = sat (n - d) x.
Proof.
  intros Hn Hx Hd. unfold sat_fx. rewrite asl_fx_pos by (auto; lia).
  rewrite asr_fx_spec by (auto using sat_in_bits). unfold shift_spec. destruct (Z.leb_spec 0 d); [|lia].
  unfold in_bits, sat, clamp, smin, smax in *.
  assert (E : 2 ^ (n - 1) = 2 ^ (n - d - 1) * 2 ^ d) by (rewrite <- pow2_split by lia; f_equal; lia).
  pose proof (pow2_gt0 d ltac:(lia)) as Hp. pose proof (pow2_gt0 (n - d - 1) ltac:(lia)) as Hq.
  rewrite E in *. set (p := 2 ^ d) in *. set (q := 2 ^ (n - d - 1)) in *.
  destruct (Z_lt_le_dec (x * p) (- (q * p))); [|destruct (Z_lt_le_dec (q * p - 1) (x * p))].
  - replace (Z.max (-(q*p)) (Z.min (q*p-1) (x*p))) with ((-q)*p) by nia.
    rewrite Z.div_mul by lia. nia.
  - replace (Z.max (-(q*p)) (Z.min (q*p-1) (x*p))) with ((q-1)*p + (p-1)) by nia.
    rewrite Z.div_add_l, Z.div_small by lia. nia.
  - replace (Z.max (-(q*p)) (Z.min (q*p-1) (x*p))) with (x*p) by nia.
    rewrite Z.div_mul by lia. nia.
Qed.

(** * C02: rounding shift *)

Lemma half_pow k : 1 <= k -> Z.shiftr (Z.shiftl 1 k) 1 = 2 ^ (k - 1).
Proof.
  intros. rewrite Z.shiftl_mul_pow2, shiftr_div by lia. rewrite (pow2_succ k) by lia.
  change (2^1) with 2. rewrite Z.mul_1_l, Z.mul_comm, Z.div_mul; lia.
Qed.

Lemma asr_rnd_up_raw n x k : 1 <= n -> in_bits n x -> 1 <= k <= n - 1 ->
  asr_rnd_fx RM_UP n x k = sat n (x + 2 ^ (k - 1)) / 2 ^ k.
Proof.
  intros Hn Hx Hk. unfold asr_rnd_fx. destruct (Z.ltb_spec k 0); [lia|]. destruct (Z.eqb_spec k 0); [lia|].
  destruct (Z.gtb_spec k (n-1)); [lia|]. cbv zeta. rewrite half_pow by lia.
  assert (in_bits n (2 ^ (k-1))).
  { unfold in_bits, smin, smax. pose proof (pow2_gt0 (k-1) ltac:(lia)). pose proof (pow2_gt0 (n-1) ltac:(lia)).
    assert (2 ^ k <= 2 ^ (n-1)) by (apply pow2_le; lia). rewrite (pow2_succ k) in * by lia. lia. }
  rewrite add_fx_spec, asr_fx_spec by (auto using sat_in_bits). unfold shift_spec. destruct (Z.leb_spec 0 k); lia.
Qed.

Lemma land_pow2_testbit x k : 0 <= k -> (Z.land x (2 ^ k) =? 0) = negb (Z.testbit x k).
Proof.
  intros Hk. destruct (Z.testbit x k) eqn:E; cbn [negb].
  - apply Z.eqb_neq. intros H0. assert (Z.testbit (Z.land x (2 ^ k)) k = true).
    { rewrite Z.land_spec, E, Z.pow2_bits_true by lia. reflexivity. }
    rewrite H0, Z.bits_0 in H. discriminate.
  - apply Z.eqb_eq. apply Z.bits_inj'. intros i Hi. rewrite Z.land_spec, Z.bits_0.
    destruct (Z.eq_dec i k) as [->|]; [now rewrite E|]. rewrite Z.pow2_bits_false by lia. apply andb_false_r.
Qed.

Lemma testbit_half x k : 1 <= k -> Z.testbit x (k - 1) = (2 ^ k <=? 2 * (x mod 2 ^ k)).
Proof.
  intros Hk. pose proof (pow2_gt0 (k-1) ltac:(lia)) as Hp.
  rewrite <- (Z.mod_pow2_bits_low x k (k-1)) by lia.
  set (m := x mod 2 ^ k). assert (Hm : 0 <= m < 2 ^ k) by (apply Z.mod_pos_bound; apply pow2_gt0; lia).
  rewrite (pow2_succ k) in * by lia. set (h := 2 ^ (k-1)) in *.
  pose proof (Z.testbit_spec' m (k-1) ltac:(lia)) as Hb. fold h in Hb.
  destruct (Z.leb_spec (2*h) (2*m)).
  - assert (E : m / h = 1) by (symmetry; apply (Z.div_unique m h 1 (m-h)); lia).
    rewrite E in Hb. change (1 mod 2) with 1 in Hb. destruct (Z.testbit m (k-1)); cbn in Hb; [reflexivity|discriminate].
  - rewrite Z.div_small in Hb by lia. change (0 mod 2) with 0 in Hb. destruct (Z.testbit m (k-1)); cbn in Hb; [discriminate|reflexivity].
Qed.

Lemma land_ones_low x k : 0 <= k -> Z.land x (2 ^ k - 1) = x mod 2 ^ k.
Proof. intros. rewrite <- Z.land_ones by lia. f_equal. rewrite Z.ones_equiv. lia. Qed.

(** Convergent rounding is exact for every in-range value and non-negative shift. *)
Lemma asr_rnd_conv_rnd n x k : 1 <= n -> in_bits n x -> 0 <= k ->
  asr_rnd_fx RM_CONV n x k = rnd RM_CONV x k.
Proof.
  intros Hn Hx Hk. unfold asr_rnd_fx. destruct (Z.ltb_spec k 0); [lia|].
  destruct (Z.eqb_spec k 0) as [->|Hk0]; [symmetry; apply (rnd_0 RM_CONV)|].
  destruct (Z.gtb_spec k (n-1)) as [Hbig|Hsm].
  - apply (nearest_unique RM_CONV x k); [lia| |apply rnd_nearest; lia].
    unfold nearest, nearest_even. rewrite Z.mul_0_l, Z.sub_0_r. unfold in_bits, smin, smax in Hx.
    assert (2 ^ n <= 2 ^ k) by (apply pow2_le; lia). rewrite (pow2_succ n) in * by lia.
    split; [lia|]. intros; exists 0; lia.
  - cbv zeta. rewrite half_pow by lia. rewrite land_pow2_testbit by lia. rewrite negb_involutive.
    rewrite testbit_half by lia. rewrite land_ones_low by lia.
    rewrite asr_fx_spec by auto. unfold shift_spec. destruct (Z.leb_spec 0 k); [|lia].
    change 1 with (2^1 - 1) at 1. rewrite land_ones_low by lia. change (2^1) with 2.
    pose proof (shift_spec_in_bits n x k Hn Hx) as Hq. unfold shift_spec in Hq. destruct (Z.leb_spec 0 k); [|lia].
    pose proof (pow2_gt0 k ltac:(lia)) as Hp.
    assert (Hinc : add_fx n (x / 2 ^ k) 1 = x / 2 ^ k + 1).
    { rewrite add_fx_spec; auto.
      - apply sat_id. unfold in_bits, smin, smax in *. pose proof (pow2_gt0 (n-1) ltac:(lia)).
        pose proof (pow2_succ k ltac:(lia)). pose proof (pow2_gt0 (k-1) ltac:(lia)).
        assert (2 ^ k <= 2 ^ (n-1)) by (apply pow2_le; lia).
        assert (x / 2 ^ k <= 2 ^ (n-1) - 2); [|lia].
        assert (x / 2 ^ k < 2 ^ (n-1) - 1); [|lia]. apply Z.div_lt_upper_bound; nia.
      - unfold in_bits, smin, smax. pose proof (pow2_succ (n-1) ltac:(lia)). pose proof (pow2_gt0 (n-1-1) ltac:(lia)). lia. }
    rewrite Hinc. unfold rnd. cbv zeta. set (q := x / 2 ^ k).
    (* the low k-1 bits are zero iff the fraction is 0 or exactly a half *)
    assert (Hlow : (x mod 2 ^ (k-1) =? 0) = ((x mod 2 ^ k =? 0) || (2 * (x mod 2 ^ k) =? 2 ^ k))).
    { rewrite (pow2_succ k) by lia. set (h := 2 ^ (k-1)). assert (0 < h) by (apply pow2_gt0; lia).
      rewrite Z.mul_comm. rewrite Z.rem_mul_r by lia. set (a := x mod h). set (b := (x / h) mod 2).
      assert (0 <= a < h) by (apply Z.mod_pos_bound; lia). assert (b = 0 \/ b = 1) by (pose proof (Z.mod_pos_bound (x/h) 2); unfold b; lia).
      destruct (Z.eqb_spec a 0), (Z.eqb_spec (a + h * b) 0), (Z.eqb_spec (2 * (a + h * b)) (h * 2)); cbn [orb]; try reflexivity; nia. }
    rewrite Hlow. pose proof (Z.mod_pos_bound x (2^k) Hp). set (m := x mod 2 ^ k) in *.
    rewrite (Zmod_even q).
    destruct (Z.leb_spec (2 ^ k) (2 * m)), (Z.ltb_spec (2*m) (2^k)), (Z.gtb_spec (2*m) (2^k)),
      (Z.even q), (Z.eqb_spec m 0), (Z.eqb_spec (2*m) (2^k)); cbn; try reflexivity; lia.
Qed.

(** Rounding up is exact unless adding the half unit overflows the type. *)
Lemma asr_rnd_up_rnd n x k : 1 <= n -> in_bits n x -> 0 <= k ->
  (k = 0 \/ n - 1 < k \/ x + 2 ^ (k - 1) <= smax n) -> asr_rnd_fx RM_UP n x k = rnd RM_UP x k.
Proof.
  intros Hn Hx Hk Hc.
  destruct (Z.eq_dec k 0) as [->|Hk0]; [symmetry; apply (rnd_0 RM_UP)|].
  destruct (Z_lt_le_dec (n-1) k) as [Hbig|Hsm].
  - apply (nearest_unique RM_UP x k); [lia| |apply rnd_nearest; lia].
    unfold asr_rnd_fx. destruct (Z.ltb_spec k 0); [lia|]. destruct (Z.eqb_spec k 0); [lia|].
    destruct (Z.gtb_spec k (n-1)); [|lia].
    unfold nearest, nearest_up. rewrite Z.mul_0_l, Z.sub_0_r. unfold in_bits, smin, smax in Hx.
    assert (2 ^ n <= 2 ^ k) by (apply pow2_le; lia). rewrite (pow2_succ n) in * by lia. lia.
  - rewrite asr_rnd_up_raw by (auto; lia). pose proof (pow2_gt0 (k-1) ltac:(lia)).
    rewrite sat_id by (unfold in_bits in *; lia).
    unfold rnd. rewrite (pow2_succ k) by lia. set (h := 2 ^ (k-1)) in *.
    replace (2 * x + 2 * h) with (2 * (x + h)) by ring.
    rewrite Z.div_mul_cancel_l by lia. reflexivity.
Qed.

(** When the half unit does overflow, the result is the largest multiple below: one less than the
    nearest integer. *)
Lemma asr_rnd_up_over n x k : 1 <= n -> in_bits n x -> 1 <= k <= n - 1 -> smax n < x + 2 ^ (k - 1) ->
  asr_rnd_fx RM_UP n x k = 2 ^ (n - 1 - k) - 1 /\ rnd RM_UP x k = 2 ^ (n - 1 - k).
Proof.
  intros Hn Hx Hk Hov. rewrite asr_rnd_up_raw by auto.
  unfold sat, clamp. pose proof (smin_le_smax n Hn).
  replace (Z.max (smin n) (Z.min (smax n) (x + 2 ^ (k - 1)))) with (smax n) by lia.
  unfold in_bits, smax, smin in *.
  assert (E : 2 ^ (n - 1) = 2 ^ (n - 1 - k) * 2 ^ k) by (rewrite <- pow2_split by lia; f_equal; lia).
  pose proof (pow2_gt0 k ltac:(lia)). pose proof (pow2_gt0 (k-1) ltac:(lia)).
  pose proof (pow2_gt0 (n-1-k) ltac:(lia)). pose proof (pow2_succ k ltac:(lia)).
  set (q := 2 ^ (n-1-k)) in *. split.
  - symmetry. apply (Z.div_unique (2 ^ (n-1) - 1) (2^k) (q - 1) (2 ^ k - 1)); lia.
  - unfold rnd. symmetry. apply (Z.div_unique _ _ q (2 * x + 2^k - 2 * (q * 2^k))); [|lia]. left. rewrite <- E. lia.
Qed.

(** Signed-amount version: what every rounding shift of the library computes. *)
Definition rshift_spec (rm : rmode) (n x k : Z) : Z :=
  if 0 <=? k then rnd rm x k else sat n (x * 2 ^ (- k)).

(** The value can be rounded to [k] fewer bits without the rounding offset leaving the type. *)
Definition rnd_safe (rm : rmode) (n x k : Z) : Prop :=
  match rm with RM_CONV => True | RM_UP => k <= 0 \/ n - 1 < k \/ x + 2 ^ (k - 1) <= smax n end.

Theorem asr_rnd_fx_spec rm n x k : 1 <= n -> in_bits n x -> rnd_safe rm n x k ->
  asr_rnd_fx rm n x k = rshift_spec rm n x k.
Proof.
  intros Hn Hx Hs. unfold rshift_spec. destruct (Z.leb_spec 0 k).
  - destruct rm; [apply asr_rnd_up_rnd|apply asr_rnd_conv_rnd]; auto. cbn in Hs. lia.
  - unfold asr_rnd_fx. destruct (Z.ltb_spec k 0); [|lia]. apply asl_fx_pos; auto; lia.
Qed.

Lemma rnd_bounds rm n x k : 2 <= n -> in_bits n x -> 1 <= k -> - 2 ^ (n-1) <= 2 * rnd rm x k <= 2 ^ (n-1).
Proof.
  intros Hn Hx Hk. pose proof (rnd_nearest rm x k ltac:(lia)) as H.
  pose proof (pow2_succ k ltac:(lia)). pose proof (pow2_gt0 (k-1) ltac:(lia)). unfold in_bits, smin, smax in Hx.
  pose proof (pow2_gt0 (n-1) ltac:(lia)).
  assert (- 2 ^ k <= 2 * (x - rnd rm x k * 2 ^ k) <= 2 ^ k) by (destruct rm; unfold nearest, nearest_up, nearest_even in H; lia).
  set (r := rnd rm x k) in *. set (p := 2 ^ k) in *. 
  pose proof (pow2_succ (n-1) ltac:(lia)). set (h := 2 ^ (n-1-1)) in *.
  assert (Hh : 1 <= h) by (apply pow2_ge1; lia). clearbody h r p. nia.
Qed.

(** In every case (both modes, all values, all shifts) the result is in range and differs from the
    exact quotient by less than one unit; a left shift saturates. *)
Theorem asr_rnd_fx_total rm n x k : 1 <= n -> in_bits n x ->
  in_bits n (asr_rnd_fx rm n x k)
  /\ (0 <= k -> - 2 ^ k < x - asr_rnd_fx rm n x k * 2 ^ k < 2 ^ k)
  /\ (k <= 0 -> asr_rnd_fx rm n x k = sat n (x * 2 ^ (- k))).
Proof.
  intros Hn Hx. destruct (Z_lt_le_dec k 0) as [Hneg|Hk].
  - assert (E : asr_rnd_fx rm n x k = sat n (x * 2 ^ (-k))).
    { rewrite asr_rnd_fx_spec; auto; [|destruct rm; cbn; auto; lia]. unfold rshift_spec. destruct (Z.leb_spec 0 k); [lia|reflexivity]. }
    rewrite E. split; [now apply sat_in_bits|]. split; [lia|auto].
  - destruct (Z.eq_dec k 0) as [->|Hk0].
    { replace (asr_rnd_fx rm n x 0) with x by (unfold asr_rnd_fx; reflexivity).
      change (- 0) with 0. change (2 ^ 0) with 1. rewrite Z.mul_1_r. rewrite (sat_id n x Hx). split; [auto|]. split; lia. }
    pose proof (pow2_gt0 k ltac:(lia)) as Hp. pose proof (pow2_gt0 (n-1) ltac:(lia)) as Hpn.
    assert (Hcase : asr_rnd_fx rm n x k = rnd rm x k \/
      (rm = RM_UP /\ k <= n - 1 /\ smax n < x + 2 ^ (k-1))).
    { destruct rm.
      - destruct (Z_lt_le_dec (n-1) k); [left; apply asr_rnd_up_rnd; auto; lia|].
        destruct (Z_lt_le_dec (smax n) (x + 2 ^ (k-1))); [right; auto|left; apply asr_rnd_up_rnd; auto; lia].
      - left; apply asr_rnd_conv_rnd; auto. }
    destruct Hcase as [E|(-> & Hkn & Hov)].
    + pose proof (rnd_nearest rm x k Hk) as Hnr.
      assert (- 2 ^ k <= 2 * (x - rnd rm x k * 2 ^ k) <= 2 ^ k) by (destruct rm; unfold nearest, nearest_up, nearest_even in Hnr; lia).
      split; [|rewrite E; split; lia].
      destruct (Z.eq_dec n 1) as [->|].
      { unfold asr_rnd_fx. destruct (Z.ltb_spec k 0); [lia|]. destruct (Z.eqb_spec k 0); [lia|].
        destruct (Z.gtb_spec k (1 - 1)); [|lia]. unfold in_bits, smin, smax; cbn; lia. }
      rewrite E. pose proof (rnd_bounds rm n x k ltac:(lia) Hx ltac:(lia)). unfold in_bits, smin, smax; lia.
    + destruct (asr_rnd_up_over n x k) as [E _]; auto; [lia|]. rewrite E.
      unfold in_bits, smin, smax in *.
      assert (En : 2 ^ (n - 1) = 2 ^ (n - 1 - k) * 2 ^ k) by (rewrite <- pow2_split by lia; f_equal; lia).
      pose proof (pow2_succ k ltac:(lia)). pose proof (pow2_gt0 (k-1) ltac:(lia)). pose proof (pow2_gt0 (n-1-k) ltac:(lia)).
      set (q := 2 ^ (n-1-k)) in *. split; [nia|]. split; [|lia]. intros _. nia.
Qed.

Lemma asr_rnd_in_bits rm n x k : 1 <= n -> in_bits n x -> in_bits n (asr_rnd_fx rm n x k).
Proof. intros; now apply asr_rnd_fx_total. Qed.

(** The naive claim "always the nearest integer" is false in ROUND_MODE_UP at the top of the range. *)
Theorem asr_rnd_up_nearest_refuted :
  exists x k, in_bits 32 x /\ 1 <= k <= 31 /\ ~ nearest RM_UP x k (asr_rnd_fx RM_UP 32 x k).
Proof.
  exists (2 ^ 31 - 1), 1. split; [unfold in_bits; vm_compute; split; discriminate|]. split; [lia|].
  replace (asr_rnd_fx RM_UP 32 (2 ^ 31 - 1) 1) with (2 ^ 30 - 1) by (vm_compute; reflexivity).
  unfold nearest, nearest_up. vm_compute. intros [_ H]. discriminate.
Qed.

(** Monotonicity of the rounding shift. *)
Lemma asr_rnd_mono rm n x y k : 1 <= n -> in_bits n x -> in_bits n y -> x <= y ->
  asr_rnd_fx rm n x k <= asr_rnd_fx rm n y k.
Proof.
  intros Hn Hx Hy Hxy. destruct (Z_lt_le_dec k 0).
  - destruct (asr_rnd_fx_total rm n x k Hn Hx) as (_&_&->); [|lia].
    destruct (asr_rnd_fx_total rm n y k Hn Hy) as (_&_&->); [|lia].
    apply sat_mono. pose proof (pow2_gt0 (-k) ltac:(lia)). nia.
  - destruct rm.
    + destruct (Z.eq_dec k 0) as [->|]; [unfold asr_rnd_fx; cbn; lia|].
      destruct (Z_lt_le_dec (n-1) k).
      { unfold asr_rnd_fx. destruct (Z.ltb_spec k 0); [lia|]. destruct (Z.eqb_spec k 0); [lia|].
        destruct (Z.gtb_spec k (n-1)); lia. }
      rewrite !asr_rnd_up_raw by (auto; lia). apply Z.div_le_mono; [apply pow2_gt0; lia|]. apply sat_mono; lia.
    + rewrite !asr_rnd_conv_rnd by auto. apply rnd_mono; lia.
Qed.

(** * C03: casts *)

Lemma in_bits_mono n m x : 1 <= n -> n <= m -> in_bits n x -> in_bits m x.
Proof.
  unfold in_bits, smin, smax. intros. assert (2 ^ (n-1) <= 2 ^ (m-1)) by (apply pow2_le; lia). lia.
Qed.

(** A narrowing cast is the rounding shift followed by clamping to the result type. *)
Theorem cast_narrow_spec rm ni no x k : 1 <= no -> no <= ni -> in_bits ni x ->
  cast_narrow rm ni no x k = sat no (asr_rnd_fx rm ni x k).
Proof.
  intros. unfold cast_narrow. rewrite sat_fx_spec by (try apply asr_rnd_in_bits; auto; lia).
  replace (ni - (ni - no)) with no by lia. apply wrap_id; auto. now apply sat_in_bits.
Qed.

(** Fully explicit: round to nearest then clamp. The overflow of the rounding offset is invisible when the
    result is clamped anyway, i.e. whenever k <= ni - no. *)
Theorem cast_narrow_exact rm ni no x k : 1 <= no -> no < ni -> in_bits ni x ->
  (rnd_safe rm ni x k \/ k <= ni - no) ->
  cast_narrow rm ni no x k = sat no (if 0 <=? k then rnd rm x k else x * 2 ^ (- k)).
Proof.
  intros Hno Hlt Hx Hs. rewrite cast_narrow_spec by (auto; lia).
  assert (Hsafe : rnd_safe rm ni x k -> sat no (asr_rnd_fx rm ni x k) = sat no (if 0 <=? k then rnd rm x k else x * 2 ^ (- k))).
  { intros Hs'. rewrite asr_rnd_fx_spec by (auto; lia). unfold rshift_spec. destruct (0 <=? k); [reflexivity|].
    unfold sat, clamp, smin, smax. assert (2 ^ (no-1) <= 2 ^ (ni-1)) by (apply pow2_le; lia).
    pose proof (pow2_gt0 (no-1) ltac:(lia)). lia. }
  destruct Hs as [Hs|Hk]; [auto|].
  destruct rm; [|apply Hsafe; exact I].
  destruct (Z_le_gt_dec k 0); [apply Hsafe; left; lia|].
  destruct (Z_lt_le_dec (smax ni) (x + 2 ^ (k-1))) as [Hov|]; [|apply Hsafe; right; right; lia].
  destruct (asr_rnd_up_over ni x k) as [E1 E2]; auto; [lia|lia|].
  rewrite E1. destruct (Z.leb_spec 0 k); [|lia]. rewrite E2.
  assert (2 ^ (no - 1) <= 2 ^ (ni - 1 - k)) by (apply pow2_le; lia).
  unfold sat, clamp, smin, smax. pose proof (pow2_gt0 (no-1) ltac:(lia)). lia.
Qed.

Lemma cast_narrow_in_bits rm ni no x k : 1 <= no -> no <= ni -> in_bits ni x -> in_bits no (cast_narrow rm ni no x k).
Proof. intros. rewrite cast_narrow_spec by auto. now apply sat_in_bits. Qed.

Lemma cast_narrow_mono rm ni no x y k : 1 <= no -> no <= ni -> in_bits ni x -> in_bits ni y -> x <= y ->
  cast_narrow rm ni no x k <= cast_narrow rm ni no y k.
Proof. intros. rewrite !cast_narrow_spec by auto. apply sat_mono, asr_rnd_mono; auto; lia. Qed.

Theorem cast_same_spec rm no x k : 1 <= no -> in_bits no x -> cast_same rm no x k = asr_rnd_fx rm no x k.
Proof. intros. unfold cast_same. apply wrap_id; auto. now apply asr_rnd_in_bits. Qed.

Theorem cast_noshift_16_spec ni x : 16 <= ni -> in_bits ni x -> cast_noshift_16 ni x = sat 16 x.
Proof.
  intros. unfold cast_noshift_16. rewrite sat_fx_spec by (auto; lia).
  replace (ni - (ni - 16)) with 16 by lia. apply wrap_id; [lia|]. apply sat_in_bits; lia.
Qed.

Theorem acc_cast_8_spec rm x k : in_bits 32 x -> acc_cast_8 rm x k = sat 8 (asr_rnd_fx rm 32 x k).
Proof.
  intros Hx. unfold acc_cast_8.
  assert (H1 : in_bits 32 (asr_rnd_fx rm 32 x k)) by (apply asr_rnd_in_bits; auto; lia).
  pose proof (sat_fx_spec 32 (asr_rnd_fx rm 32 x k) 24 ltac:(lia) H1 ltac:(lia)) as H2.
  unfold sat_fx in H2. rewrite asl_fx_pos in * by (auto; lia).
  rewrite asr_fx_spec in H2 by (auto using sat_in_bits; lia || (apply sat_in_bits; lia)).
  unfold shift_spec in H2. change (0 <=? 24) with true in H2. cbv iota in H2.
  rewrite shiftr_div by lia. rewrite H2. change (32 - 24) with 8. apply wrap_id; [lia|]. apply sat_in_bits; lia.
Qed.

Theorem acc_cast_16_spec rm x k : in_bits 32 x -> acc_cast_16 rm x k = sat 16 (asr_rnd_fx rm 32 x k).
Proof.
  intros Hx. unfold acc_cast_16.
  assert (H1 : in_bits 32 (asr_rnd_fx rm 32 x k)) by (apply asr_rnd_in_bits; auto; lia).
  change (asr_fx 32 (asl_fx 32 (asr_rnd_fx rm 32 x k) 16) 16) with (sat_fx 32 (asr_rnd_fx rm 32 x k) 16).
  rewrite (sat_fx_spec 32 (asr_rnd_fx rm 32 x k) 16) by (auto; lia). change (32 - 16) with 16.
  assert (H3 : in_bits 16 (sat 16 (asr_rnd_fx rm 32 x k))) by (apply sat_in_bits; lia).
  rewrite sat_fx_spec by (try lia; apply in_bits_mono with 16; auto; lia).
  change (32 - 16) with 16. rewrite (sat_id 16 (sat 16 _)) by auto. apply wrap_id; [lia|auto].
Qed.

(** The fx16 accumulator cast is the aligned value only as long as it fits 32 bits. *)
Theorem cast_16_acc40_spec rm x k : in_bits 16 x -> in_bits 32 (asr_rnd_fx rm 64 x k) ->
  cast_16_acc40 rm x k = asr_rnd_fx rm 64 x k.
Proof. intros. unfold cast_16_acc40. apply wrap_id; [lia|auto]. Qed.

Theorem cast_16_acc40_refuted : exists x k, in_bits 16 x /\ in_bits 40 (asr_rnd_fx RM_CONV 64 x k)
  /\ cast_16_acc40 RM_CONV x k <> asr_rnd_fx RM_CONV 64 x k.
Proof. exists 1, (-31). repeat split; vm_compute; discriminate. Qed.

(** * C04: normalisation *)

Lemma norm_loop_spec x hi fuel r : 0 <= r -> (hi = if x <? 0 then -1 else 0) ->
  (exists q, r <= q < r + Z.of_nat fuel /\ Z.shiftr x q = hi) ->
  let q := norm_loop fuel x hi r in
  r <= q < r + Z.of_nat fuel /\ Z.shiftr x q = hi /\ (forall j, r <= j < q -> Z.shiftr x j <> hi).
Proof.
  revert r. induction fuel; intros r Hr Hhi [q0 [Hq0 E0]]; [lia|].
  cbn [norm_loop]. destruct (Z.eqb_spec (Z.shiftr x r) hi) as [E|E].
  - cbv zeta. split; [lia|]. split; [auto|]. intros; lia.
  - destruct (IHfuel (r + 1)) as (A & B & C); [lia|auto| |].
    + exists q0. split; [|auto]. assert (q0 <> r) by congruence. lia.
    + cbv zeta. split; [lia|]. split; [auto|]. intros j Hj. destruct (Z.eq_dec j r); [subst; auto|]. apply C; lia.
Qed.

Lemma shiftr_hi_iff x q : 0 <= q -> (Z.shiftr x q = (if x <? 0 then -1 else 0) <-> - 2 ^ q <= x < 2 ^ q).
Proof.
  intros. rewrite shiftr_div by lia. pose proof (pow2_gt0 q H).
  pose proof (Z.div_mod x (2^q) ltac:(lia)). pose proof (Z.mod_pos_bound x (2^q) ltac:(lia)).
  destruct (Z.ltb_spec x 0); split; intros.
  - rewrite H4 in H1. lia.
  - symmetry. apply (Z.div_unique x (2^q) (-1) (x + 2^q)); lia.
  - rewrite H4 in H1. lia.
  - apply Z.div_small. lia.
Qed.

(** The norm is the largest left shift that keeps a non-zero value inside the type. *)
Theorem norm_fx_spec n x : 1 <= n -> in_bits n x -> x <> 0 ->
  let k := norm_fx n x in
  0 <= k <= n - 1 /\ in_bits n (x * 2 ^ k) /\ ~ in_bits n (x * 2 ^ (k + 1)).
Proof.
  intros Hn Hx H0. unfold norm_fx. destruct (Z.eqb_spec x 0); [contradiction|].
  set (hi := if x <? 0 then -1 else 0).
  destruct (norm_loop_spec x hi (Z.to_nat n) 0) as (A & B & C); [lia|reflexivity| |].
  { exists (n - 1). split; [lia|]. apply shiftr_hi_iff; [lia|]. unfold in_bits, smin, smax in Hx. lia. }
  set (q := norm_loop (Z.to_nat n) x hi 0) in *. cbv zeta.
  assert (Hq : 0 <= q <= n - 1) by lia.
  apply shiftr_hi_iff in B; [|lia].
  set (k := n - 1 - q). assert (Hk : 0 <= k) by (unfold k; lia).
  assert (E : 2 ^ (n-1) = 2 ^ q * 2 ^ k) by (rewrite <- pow2_split by lia; f_equal; unfold k; lia).
  pose proof (pow2_gt0 k Hk). pose proof (pow2_gt0 q ltac:(lia)).
  split; [unfold k; lia|]. split.
  - unfold in_bits, smin, smax. nia.
  - unfold in_bits, smin, smax. replace (k + 1) with (1 + k) by lia. rewrite pow2_split by lia. change (2^1) with 2.
    destruct (Z.eq_dec q 0) as [Eq|].
    + rewrite Eq in *. change (2 ^ 0) with 1 in *. assert (x = -1) by lia. subst x. nia.
    + specialize (C (q - 1) ltac:(lia)). unfold hi in C. rewrite shiftr_hi_iff in C by lia.
      rewrite (pow2_succ q) in * by lia. set (h := 2 ^ (q-1)) in *.
      assert (x < - h \/ h <= x) by lia. nia.
Qed.

Lemma norm_fx_range n x : 1 <= n -> in_bits n x -> 0 <= norm_fx n x <= n - 1.
Proof.
  intros Hn Hx. destruct (Z.eq_dec x 0) as [->|H].
  - unfold norm_fx. cbn. lia.
  - apply norm_fx_spec; auto.
Qed.

(** Fuel independence: the loop of the model is the unbounded C++ loop. *)
Lemma norm_loop_fuel n x f : 1 <= n -> in_bits n x -> (Z.to_nat n <= f)%nat ->
  norm_loop f x (if x <? 0 then -1 else 0) 0 = norm_loop (Z.to_nat n) x (if x <? 0 then -1 else 0) 0.
Proof.
  intros Hn Hx Hf. set (hi := if x <? 0 then -1 else 0).
  assert (Hex : Z.shiftr x (n-1) = hi). { apply shiftr_hi_iff; [lia|]. unfold in_bits, smin, smax in Hx; lia. }
  destruct (norm_loop_spec x hi (Z.to_nat n) 0) as (A & B & C); [lia|reflexivity|exists (n-1); split; [lia|auto]|].
  destruct (norm_loop_spec x hi f 0) as (A' & B' & C'); [lia|reflexivity|exists (n-1); split; [lia|auto]|].
  set (q := norm_loop (Z.to_nat n) x hi 0) in *. set (q' := norm_loop f x hi 0) in *.
  destruct (Z.lt_trichotomy q q') as [H|[H|H]]; [|auto|].
  - exfalso. apply (C' q); [lia|auto].
  - exfalso. apply (C q'); [lia|auto].
Qed.

Lemma norm_fx_pos n x : 1 <= n -> in_bits n x -> 0 < x ->
  2 ^ (n - 2) <= x * 2 ^ norm_fx n x < 2 ^ (n - 1) /\ norm_fx n x <= n - 2.
Proof.
  intros Hn Hx H0. destruct (norm_fx_spec n x Hn Hx ltac:(lia)) as (A & B & C).
  set (k := norm_fx n x) in *. unfold in_bits, smin, smax in *.
  replace (k + 1) with (1 + k) in C by lia. rewrite pow2_split in C by lia. change (2^1) with 2 in C.
  pose proof (pow2_gt0 k ltac:(lia)).
  destruct (Z.eq_dec n 1). { subst. change (2 ^ (1-1)) with 1 in *. lia. }
  pose proof (pow2_succ (n-1) ltac:(lia)). replace (n - 1 - 1) with (n - 2) in * by lia.
  set (h := 2 ^ (n-2)) in *. split; [nia|].
  destruct (Z.eq_dec k (n-1)); [|lia]. rewrite e in *. nia.
Qed.

(** Non-trivial instances of the hypotheses. *)
Example ex_shift : asl_fx 16 300 7 = 32767 /\ asr_fx 16 (-300) 3 = -38 /\ asl_fx 32 5 40 = 2147483647.
Proof. vm_compute. auto. Qed.
Example ex_rnd : asr_rnd_fx RM_UP 32 5 1 = 3 /\ asr_rnd_fx RM_CONV 32 5 1 = 2 /\ asr_rnd_fx RM_CONV 32 7 1 = 4.
Proof. vm_compute. auto. Qed.
Example ex_norm : norm_fx 32 1000 = 21 /\ norm_fx 16 (-1) = 15.
Proof. vm_compute. auto. Qed.
Example ex_cast : cast_narrow RM_UP 32 8 100000 4 = 127 /\ cast_narrow RM_CONV 32 8 (-1000) 5 = -31.
Proof. vm_compute. auto. Qed.
