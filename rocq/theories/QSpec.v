(** Specification vocabulary: the real (here: rational) number an integer of a quantized tensor stands for.
    FX formats: x * 2^-frac. SA formats: (x - zero_point) * scale * 2^-scale_frac_bits. *)
From Coq Require Import ZArith QArith Qabs Qpower Lia Lqa.
From Verif Require Import Base.
Open Scope Z_scope.

(** 2 to a possibly negative power. *)
Definition pow2q (k : Z) : Q := (inject_Z 2 ^ k)%Q.

(** x * 2^-f *)
Definition fxval (f x : Z) : Q := (inject_Z x * pow2q (- f))%Q.

(** (x - zp) * scale * 2^-f *)
Definition saval (scale f zp x : Z) : Q := (inject_Z ((x - zp) * scale) * pow2q (- f))%Q.

(** |a - b| <= e *)
Definition within (e a b : Q) : Prop := (Qabs (a - b) <= e)%Q.

Lemma pow2q_pos k : (0 < pow2q k)%Q.
Proof. apply Qpower_0_lt. reflexivity. Qed.

Lemma pow2q_plus a b : (pow2q (a + b) == pow2q a * pow2q b)%Q.
Proof. apply Qpower_plus. discriminate. Qed.

Lemma pow2q_nonneg k : 0 <= k -> (pow2q k == inject_Z (2 ^ k))%Q.
Proof. intros. unfold pow2q. now rewrite Zpower_Qpower. Qed.

Lemma pow2q_0 : (pow2q 0 == 1)%Q.
Proof. reflexivity. Qed.

Lemma pow2q_opp k : (pow2q k * pow2q (- k) == 1)%Q.
Proof. rewrite <- pow2q_plus. replace (k + - k) with 0 by lia. reflexivity. Qed.

Lemma pow2q_inv k : (pow2q (- k) == / pow2q k)%Q.
Proof.
  pose proof (pow2q_opp k). pose proof (pow2q_pos k).
  apply (Qmult_inj_l _ _ (pow2q k)); [lra|]. rewrite H. field. lra.
Qed.

Lemma inj_le a b : (inject_Z a <= inject_Z b)%Q <-> a <= b.
Proof. rewrite Zle_Qle. tauto. Qed.

Lemma inj_lt a b : (inject_Z a < inject_Z b)%Q <-> a < b.
Proof. rewrite Zlt_Qlt. tauto. Qed.

(** Comparing a scaled integer with an integer, without fractions. *)
Lemma scaled_le a f b : (inject_Z a * pow2q (- f) <= inject_Z b)%Q <-> a * 2 ^ (Z.max 0 (- f)) <= b * 2 ^ (Z.max 0 f).
Proof.
  destruct (Z_le_gt_dec 0 f).
  - replace (Z.max 0 (- f)) with 0 by lia. replace (Z.max 0 f) with f by lia.
    rewrite Z.pow_0_r, Z.mul_1_r. rewrite <- inj_le, inject_Z_mult, <- pow2q_nonneg by lia.
    pose proof (pow2q_pos f). pose proof (pow2q_opp f). pose proof (pow2q_pos (- f)).
    set (p := pow2q f) in *. set (q := pow2q (- f)) in *. set (A := inject_Z a). set (B := inject_Z b).
    assert (E : (A == (A * q) * p)%Q) by (rewrite <- Qmult_assoc, (Qmult_comm q p), H0; ring).
    split; intros G.
    + rewrite E. apply Qmult_le_compat_r; lra.
    + apply (Qmult_le_r _ _ p); [lra|]. rewrite <- E. exact G.
  - replace (Z.max 0 (- f)) with (- f) by lia. replace (Z.max 0 f) with 0 by lia.
    rewrite Z.pow_0_r, Z.mul_1_r. rewrite pow2q_nonneg, <- inject_Z_mult by lia. apply inj_le.
Qed.

Lemma scaled_ge a f b : (inject_Z b <= inject_Z a * pow2q (- f))%Q <-> b * 2 ^ (Z.max 0 f) <= a * 2 ^ (Z.max 0 (- f)).
Proof.
  assert (G : (inject_Z b <= inject_Z a * pow2q (- f))%Q <-> (inject_Z (- a) * pow2q (- f) <= inject_Z (- b))%Q).
  { rewrite !inject_Z_opp. split; intros; lra. }
  rewrite G, scaled_le. lia.
Qed.
