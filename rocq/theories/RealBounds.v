(** Real analysis used for the accuracy of the tables: interval bounds for exp(-n/32), the error of linear interpolation, and the logistic
    function. Nothing here refers to the model. *)
From Coq Require Import ZArith Reals List Lia Lra Psatz.
Import ListNotations.
Open Scope R_scope.

Lemma Rabs_bounds x a : Rabs x <= a -> - a <= x <= a.
Proof. unfold Rabs. destruct (Rcase_abs x); lra. Qed.

(** * Bounds for exp(-n/32) *)

(** Fixed point numbers with 80 fractional bits. *)
Definition PREC : Z := 80.
Definition ONE : Z := 2 ^ PREC.

Definition mul_lo (a b : Z) : Z := (a * b / ONE)%Z.
Definition mul_hi (a b : Z) : Z := (a * b / ONE + 1)%Z.
Fixpoint square_lo (k : nat) (a : Z) : Z := match k with O => a | S k => square_lo k (mul_lo a a) end.
Fixpoint square_hi (k : nat) (a : Z) : Z := match k with O => a | S k => square_hi k (mul_hi a a) end.

(** exp(-2^-37) lies between 1 - 2^-37 and 1 / (1 + 2^-37). *)
Definition base_lo : Z := square_lo 32 (ONE - 2 ^ 43).
Definition base_hi : Z := square_hi 32 (2 ^ 117 / (2 ^ 37 + 1) + 1).

(** The successive bounds for n, n + 1, ..., n + k - 1 from those for n. *)
Fixpoint exp_list (k : nat) (bl bh lo hi : Z) : list (Z * Z) :=
  match k with O => [] | S k => (lo, hi) :: exp_list k bl bh (mul_lo lo bl) (mul_hi hi bh) end.

Definition rone : R := IZR ONE.
Lemma one_pos : (0 < ONE)%Z. Proof. reflexivity. Qed.
Lemma rone_pos : 0 < rone. Proof. apply IZR_lt. exact one_pos. Qed.

Lemma mul_lo_ok a b x y : (0 <= a)%Z -> (0 <= b)%Z -> IZR a <= rone * x -> IZR b <= rone * y -> (0 <= mul_lo a b)%Z /\ IZR (mul_lo a b) <= rone * (x * y).
Proof.
  intros Ha Hb Hx Hy. pose proof rone_pos as P. unfold mul_lo. split; [apply Z.div_pos; [lia|exact one_pos]|].
  assert (D : (ONE * (a * b / ONE) <= a * b)%Z) by (apply Z.mul_div_le; exact one_pos). apply IZR_le in D. rewrite !mult_IZR in D. fold rone in D.
  assert (M : IZR a * IZR b <= rone * x * (rone * y)) by (apply Rmult_le_compat; auto; apply IZR_le; assumption).
  apply Rmult_le_reg_l with rone; [exact P|]. eapply Rle_trans; [exact D|]. eapply Rle_trans; [exact M|]. apply Req_le. ring.
Qed.

Lemma mul_hi_ok a b x y : 0 <= x -> 0 <= y -> rone * x <= IZR a -> rone * y <= IZR b -> rone * (x * y) <= IZR (mul_hi a b).
Proof.
  intros Hx0 Hy0 Hx Hy. pose proof rone_pos as P. unfold mul_hi.
  assert (D : (a * b <= ONE * (a * b / ONE + 1))%Z) by (pose proof (Z.div_mod (a * b) ONE ltac:(discriminate)); pose proof (Z.mod_pos_bound (a * b) ONE one_pos); lia).
  apply IZR_le in D. rewrite !mult_IZR in D. fold rone in D.
  assert (M : rone * x * (rone * y) <= IZR a * IZR b) by (apply Rmult_le_compat; auto; apply Rmult_le_pos; lra).
  apply Rmult_le_reg_l with rone; [exact P|]. eapply Rle_trans; [|exact D]. eapply Rle_trans; [|exact M]. apply Req_le. ring.
Qed.

Lemma square_lo_ok k : forall a t, (0 <= a)%Z -> IZR a <= rone * exp t -> (0 <= square_lo k a)%Z /\ IZR (square_lo k a) <= rone * exp (2 ^ k * t).
Proof.
  induction k as [|k IH]; intros a t Ha H; cbn [square_lo pow].
  - split; [exact Ha|]. now rewrite Rmult_1_l.
  - destruct (mul_lo_ok a a (exp t) (exp t) Ha Ha H H) as [A B]. rewrite <- exp_plus in B. replace (2 * 2 ^ k * t) with (2 ^ k * (t + t)) by ring. now apply IH.
Qed.

Lemma square_hi_ok k : forall a t, rone * exp t <= IZR a -> rone * exp (2 ^ k * t) <= IZR (square_hi k a).
Proof.
  induction k as [|k IH]; intros a t H; cbn [square_hi pow].
  - now rewrite Rmult_1_l.
  - pose proof (exp_pos t) as E. pose proof (mul_hi_ok a a (exp t) (exp t) ltac:(lra) ltac:(lra) H H) as B. rewrite <- exp_plus in B. replace (2 * 2 ^ k * t) with (2 ^ k * (t + t)) by ring. now apply IH.
Qed.

Lemma pow2_IZR k : 2 ^ k = IZR (2 ^ Z.of_nat k).
Proof. rewrite <- pow_IZR. reflexivity. Qed.

Lemma base_ok : (0 <= base_lo)%Z /\ IZR base_lo <= rone * exp (- / 32) /\ rone * exp (- / 32) <= IZR base_hi.
Proof.
  set (y := / IZR (2 ^ 37)).
  assert (Y : y = / 137438953472) by (unfold y; f_equal). assert (E32 : 2 ^ 32 * - y = - / 32).
  { rewrite pow2_IZR. change (IZR (2 ^ Z.of_nat 32)) with 4294967296. rewrite Y. field. }
  rewrite <- E32. pose proof rone_pos as P. assert (RV : rone = 1208925819614629174706176) by reflexivity. split; [|split].
  - apply (square_lo_ok 32 (ONE - 2 ^ 43) (- y)); [discriminate|]. pose proof (exp_ineq1_le (- y)) as H. change (IZR (ONE - 2 ^ 43)) with 1208925819605833081683968. rewrite RV. rewrite Y in *. nra.
  - apply (square_lo_ok 32 (ONE - 2 ^ 43) (- y)); [discriminate|]. pose proof (exp_ineq1_le (- y)) as H. change (IZR (ONE - 2 ^ 43)) with 1208925819605833081683968. rewrite RV. rewrite Y in *. nra.
  - apply square_hi_ok. pose proof (exp_ineq1_le y) as H. assert (Y0 : 0 < y) by (rewrite Y; lra). pose proof (exp_pos y) as PE. rewrite exp_Ropp.
    assert (I : / exp y <= / (1 + y)) by (apply Rinv_le_contravar; lra).
    assert (D : rone * / (1 + y) <= IZR (2 ^ 117 / (2 ^ 37 + 1) + 1)).
    { assert (D : (2 ^ 117 <= (2 ^ 37 + 1) * (2 ^ 117 / (2 ^ 37 + 1) + 1))%Z) by (vm_compute; discriminate).
      apply IZR_le in D. rewrite mult_IZR in D. set (z := IZR (2 ^ 117 / (2 ^ 37 + 1) + 1)) in *. clearbody z.
      change (IZR (2 ^ 117)) with 166153499473114484112975882535043072 in D. change (IZR (2 ^ 37 + 1)) with 137438953473 in D.
      rewrite RV, Y. apply Rmult_le_reg_r with (1 + / 137438953472); [lra|]. rewrite Rmult_assoc, Rinv_l by lra. lra. }
    eapply Rle_trans; [|exact D]. apply Rmult_le_compat_l; lra.
Qed.

(** [b] are bounds for exp(-n/32). *)
Definition encl (n : nat) (b : Z * Z) : Prop :=
  (0 <= fst b)%Z /\ IZR (fst b) <= rone * exp (- (INR n / 32)) /\ rone * exp (- (INR n / 32)) <= IZR (snd b).

Lemma exp_list_ok k : forall n lo hi i, encl n (lo, hi) -> (i < k)%nat -> encl (n + i) (nth i (exp_list k base_lo base_hi lo hi) (0%Z, 0%Z)).
Proof.
  destruct base_ok as (B0 & B1 & B2). induction k as [|k IH]; intros n lo hi i H Hi; [lia|]. cbn [exp_list]. destruct i as [|i]; cbn [nth]; [now rewrite Nat.add_0_r|].
  rewrite Nat.add_succ_r. change (encl (S n + i) (nth i (exp_list k base_lo base_hi (mul_lo lo base_lo) (mul_hi hi base_hi)) (0%Z, 0%Z))). apply IH; [|lia].
  destruct H as (I0 & I1 & I2). unfold encl. cbn [fst snd] in *.
  replace (exp (- (INR (S n) / 32))) with (exp (- (INR n / 32)) * exp (- / 32)). 2:{ rewrite <- exp_plus. f_equal. rewrite S_INR. field. }
  pose proof (exp_pos (- (INR n / 32))). pose proof (exp_pos (- / 32)).
  destruct (mul_lo_ok lo base_lo _ _ I0 B0 I1 B1) as [L0 L1]. split; [exact L0|]. split; [exact L1|]. apply mul_hi_ok; lra.
Qed.

(** The bounds for n = 0 ... k - 1. *)
Definition exp_tab (k : nat) : list (Z * Z) := exp_list k base_lo base_hi ONE ONE.

Lemma exp_tab_ok k i : (i < k)%nat -> encl i (nth i (exp_tab k) (0%Z, 0%Z)).
Proof.
  intros H. apply (exp_list_ok k 0 ONE ONE i); [|exact H]. unfold encl. cbn [fst snd]. replace (- (INR 0 / 32)) with 0 by (cbn [INR]; field). rewrite exp_0, Rmult_1_r.
  split; [discriminate|]. split; apply Rle_refl.
Qed.

(** * Linear interpolation *)

Lemma quad_deriv a b c x : derivable_pt_lim (fun s => a + b * s + c * (s * s)) x (b + 2 * c * x).
Proof.
  assert (L1 : derivable_pt_lim (fun s => a) x 0) by (apply (derivable_pt_lim_const a x)).
  assert (L2 : derivable_pt_lim (fun s => b * s) x (b * 1)) by (apply (derivable_pt_lim_scal id b x 1), derivable_pt_lim_id).
  assert (L3 : derivable_pt_lim (fun s => c * (s * s)) x (c * (1 * x + x * 1))).
  { apply (derivable_pt_lim_scal (fun s => s * s) c x). apply (derivable_pt_lim_mult id id x 1 1); apply derivable_pt_lim_id. }
  pose proof (derivable_pt_lim_plus _ _ x _ _ (derivable_pt_lim_plus _ _ x _ _ L1 L2) L3) as L.
  replace (b + 2 * c * x) with (0 + b * 1 + c * (1 * x + x * 1)) by ring. exact L.
Qed.

(** The error of linear interpolation over an interval of length h is at most M h^2 / 8, where M bounds the second derivative. *)
Lemma interpolation_error f f1 f2 M a h u : 0 < h -> 0 <= u <= 1 ->
  (forall x, a <= x <= a + h -> derivable_pt_lim f x (f1 x)) -> (forall x, a <= x <= a + h -> derivable_pt_lim f1 x (f2 x)) ->
  (forall x, a <= x <= a + h -> Rabs (f2 x) <= M) ->
  Rabs (f (a + u * h) - ((1 - u) * f a + u * f (a + h))) <= M * (h * h) / 8.
Proof.
  intros Hh Hu D1 D2 HM.
  assert (M0 : 0 <= M) by (eapply Rle_trans; [apply Rabs_pos|apply (HM a); lra]).
  assert (B0 : 0 <= M * (h * h) / 8) by (apply Rmult_le_pos; [apply Rmult_le_pos; [exact M0|nra]|lra]).
  destruct (Req_dec u 0) as [->|U0]. { replace (f (a + 0 * h) - ((1 - 0) * f a + 0 * f (a + h))) with 0 by (replace (a + 0 * h) with a by ring; ring). now rewrite Rabs_R0. }
  destruct (Req_dec u 1) as [->|U1]. { replace (f (a + 1 * h) - ((1 - 1) * f a + 1 * f (a + h))) with 0 by (replace (a + 1 * h) with (a + h) by ring; ring). now rewrite Rabs_R0. }
  set (b := a + h) in *. set (w := a + u * h) in *. assert (W : a < w < b) by (unfold w, b; nra).
  set (m := (f b - f a) / h). set (e := f w - ((1 - u) * f a + u * f b)). set (K := e / ((w - a) * (w - b))).
  assert (NZ : (w - a) * (w - b) <> 0) by nra.
  set (A := f a - m * a + K * a * b). set (Bc := m - K * (a + b)).
  set (p := fun s => f s - (A + Bc * s + K * (s * s))). set (p1 := fun s => f1 s - (Bc + 2 * K * s)).
  assert (Dp : forall x, a <= x <= b -> derivable_pt_lim p x (p1 x)).
  { intros x Hx. unfold p1. apply (derivable_pt_lim_minus f (fun s => A + Bc * s + K * (s * s))); [now apply D1|apply quad_deriv]. }
  assert (Dp1 : forall x, a <= x <= b -> derivable_pt_lim p1 x (f2 x - 2 * K)).
  { intros x Hx. apply (derivable_pt_lim_minus f1 (fun s => Bc + 2 * K * s)); [now apply D2|].
    pose proof (quad_deriv Bc (2 * K) 0 x) as Q. replace (2 * K + 2 * 0 * x) with (2 * K) in Q by ring. revert Q. apply derivable_pt_lim_ext. intros z. ring. }
  assert (Pa : p a = 0) by (unfold p, A, Bc; ring).
  assert (Pb : p b = 0). { unfold p, A, Bc, m. unfold b. field. lra. }
  assert (Pw : p w = 0).
  { assert (Q : p w = e - K * ((w - a) * (w - b))) by (unfold p, A, Bc, m, e, w, b; field; lra). rewrite Q. unfold K. field. split; nra. }
  destruct (MVT_cor2 p p1 a w ltac:(lra) ltac:(intros c Hc; apply Dp; lra)) as (c1 & E1 & R1).
  destruct (MVT_cor2 p p1 w b ltac:(lra) ltac:(intros c Hc; apply Dp; lra)) as (c2 & E2 & R2).
  assert (Z1 : p1 c1 = 0) by (rewrite Pa, Pw in E1; assert (p1 c1 * (w - a) = 0) by lra; apply Rmult_integral in H; destruct H; lra).
  assert (Z2 : p1 c2 = 0) by (rewrite Pb, Pw in E2; assert (p1 c2 * (b - w) = 0) by lra; apply Rmult_integral in H; destruct H; lra).
  destruct (MVT_cor2 p1 (fun x => f2 x - 2 * K) c1 c2 ltac:(lra) ltac:(intros c Hc; apply Dp1; lra)) as (c3 & E3 & R3).
  assert (Z3 : f2 c3 = 2 * K) by (rewrite Z1, Z2 in E3; assert ((f2 c3 - 2 * K) * (c2 - c1) = 0) by lra; apply Rmult_integral in H; destruct H; lra).
  pose proof (HM c3 ltac:(lra)) as H. rewrite Z3, Rabs_mult, (Rabs_right 2) in H by lra.
  assert (Ee : e = K * ((w - a) * (w - b))) by (unfold K; field; split; nra).
  rewrite Ee, Rabs_mult. assert (AB : Rabs ((w - a) * (w - b)) <= h * h / 4).
  { rewrite Rabs_left by nra. unfold w, b. assert (Q : - ((a + u * h - a) * (a + u * h - (a + h))) = u * (1 - u) * (h * h)) by ring. rewrite Q. clear. assert (U4 : u * (1 - u) <= / 4) by (pose proof (Rle_0_sqr (u - / 2)) as S; unfold Rsqr in S; lra). pose proof (Rle_0_sqr h) as S. unfold Rsqr in S. apply Rle_trans with (/ 4 * (h * h)); [now apply Rmult_le_compat_r|lra]. }
  pose proof (Rabs_pos K). pose proof (Rabs_pos ((w - a) * (w - b))).
  apply Rle_trans with (M / 2 * (h * h / 4)); [|lra]. apply Rmult_le_compat; lra.
Qed.

(** * The logistic function *)

Definition sigmoid (x : R) : R := / (1 + exp (- x)).

Lemma sigmoid_range x : 0 < sigmoid x < 1.
Proof.
  unfold sigmoid. pose proof (exp_pos (- x)). split; [apply Rinv_0_lt_compat; lra|]. rewrite <- Rinv_1 at 2. apply Rinv_lt_contravar; lra.
Qed.

Lemma sigmoid_opp x : sigmoid (- x) = 1 - sigmoid x.
Proof. unfold sigmoid. rewrite Ropp_involutive, exp_Ropp. pose proof (exp_pos x). field. split; lra. Qed.

Lemma sigmoid_le x y : x <= y -> sigmoid x <= sigmoid y.
Proof.
  intros H. unfold sigmoid. pose proof (exp_pos (- x)). pose proof (exp_pos (- y)). apply Rinv_le_contravar; [lra|].
  destruct H as [H|H]; [|subst; lra]. assert (exp (- y) < exp (- x)) by (apply exp_increasing; lra). lra.
Qed.

Lemma tanh_sigmoid x : tanh x = 2 * sigmoid (2 * x) - 1.
Proof.
  unfold tanh, sinh, cosh, sigmoid. replace (- (2 * x)) with (- x + - x) by ring. rewrite exp_plus. pose proof (exp_pos x) as P. pose proof (exp_pos (- x)) as Q.
  assert (E : exp x * exp (- x) = 1) by (rewrite <- exp_plus, Rplus_opp_r; apply exp_0).
  assert (E' : exp x = / exp (- x)) by (rewrite exp_Ropp, Rinv_inv; reflexivity). rewrite E'. set (q := exp (- x)) in *. clearbody q. field. split; nra.
Qed.

Lemma sigmoid_deriv x : derivable_pt_lim sigmoid x (sigmoid x * (1 - sigmoid x)).
Proof.
  assert (L1 : derivable_pt_lim (fun s => exp (- s)) x (exp (- x) * -1)).
  { apply (derivable_pt_lim_comp (fun s => - s) exp x (-1) (exp (- x))); [|apply derivable_pt_lim_exp]. apply (derivable_pt_lim_opp id x 1), derivable_pt_lim_id. }
  assert (L2 : derivable_pt_lim (fun s => 1 + exp (- s)) x (0 + exp (- x) * -1)) by (apply (derivable_pt_lim_plus (fun _ => 1)); [apply (derivable_pt_lim_const 1)|exact L1]).
  pose proof (exp_pos (- x)) as P.
  pose proof (derivable_pt_lim_div (fun _ => 1) (fun s => 1 + exp (- s)) x 0 (0 + exp (- x) * -1) (derivable_pt_lim_const 1 x) L2 ltac:(lra)) as D.
  replace (sigmoid x * (1 - sigmoid x)) with ((0 * (1 + exp (- x)) - (0 + exp (- x) * -1) * 1) / Rsqr (1 + exp (- x))).
  2:{ unfold sigmoid, Rsqr. field. lra. }
  revert D. apply derivable_pt_lim_ext. intros z. unfold sigmoid, div_fct. field. pose proof (exp_pos (- z)). lra.
Qed.

Lemma sigmoid_deriv2 x : derivable_pt_lim (fun x => sigmoid x * (1 - sigmoid x)) x (sigmoid x * (1 - sigmoid x) * (1 - 2 * sigmoid x)).
Proof.
  pose proof (sigmoid_deriv x) as D. set (s := sigmoid x * (1 - sigmoid x)) in *.
  assert (D1 : derivable_pt_lim (fun x => 1 - sigmoid x) x (0 - s)) by (apply (derivable_pt_lim_minus (fun _ => 1)); [apply (derivable_pt_lim_const 1)|exact D]).
  pose proof (derivable_pt_lim_mult sigmoid (fun x => 1 - sigmoid x) x _ _ D D1) as D2.
  replace (s * (1 - 2 * sigmoid x)) with (s * (1 - sigmoid x) + sigmoid x * (0 - s)) by ring. exact D2.
Qed.

Lemma sigmoid_deriv2_bound x : Rabs (sigmoid x * (1 - sigmoid x) * (1 - 2 * sigmoid x)) <= 963 / 10000.
Proof.
  pose proof (sigmoid_range x) as R. set (s := sigmoid x) in *. clearbody s.
  assert (G : forall t, 0 <= t <= 1 -> t * (1 - t) * (1 - 2 * t) <= 963 / 10000).
  { intros t Ht. assert (0 <= (t - 2113 / 10000) * (t - 2113 / 10000) * (21548 / 10000 - 2 * t)) by (apply Rmult_le_pos; [apply Rle_0_sqr|lra]). lra. }
  apply Rabs_le. split; [|apply G; lra]. specialize (G (1 - s) ltac:(lra)). lra.
Qed.

Lemma sigmoid_interpolation a h u : 0 < h -> 0 <= u <= 1 ->
  Rabs (sigmoid (a + u * h) - ((1 - u) * sigmoid a + u * sigmoid (a + h))) <= 963 / 10000 * (h * h) / 8.
Proof.
  intros Hh Hu. apply interpolation_error with (f1 := fun x => sigmoid x * (1 - sigmoid x)) (f2 := fun x => sigmoid x * (1 - sigmoid x) * (1 - 2 * sigmoid x)); auto.
  - intros; apply sigmoid_deriv. - intros; apply sigmoid_deriv2. - intros; apply sigmoid_deriv2_bound.
Qed.

(** Slope at most 1/4. *)
Lemma sigmoid_lipschitz x y : Rabs (sigmoid x - sigmoid y) <= Rabs (x - y) / 4.
Proof.
  assert (G : forall x y, x < y -> Rabs (sigmoid x - sigmoid y) <= Rabs (x - y) / 4).
  { clear. intros x y H. destruct (MVT_cor2 sigmoid (fun x => sigmoid x * (1 - sigmoid x)) x y H ltac:(intros; apply sigmoid_deriv)) as (c & E & _).
    pose proof (sigmoid_range c). pose proof (sigmoid_le x y ltac:(lra)). rewrite (Rabs_left1 (sigmoid x - sigmoid y)) by lra. rewrite (Rabs_left1 (x - y)) by lra.
    assert (Q : sigmoid c * (1 - sigmoid c) <= / 4) by (pose proof (Rle_0_sqr (sigmoid c - / 2)) as S; unfold Rsqr in S; lra). assert (Q2 : sigmoid c * (1 - sigmoid c) * (y - x) <= / 4 * (y - x)) by (apply Rmult_le_compat_r; lra). lra. }
  destruct (Rtotal_order x y) as [H|[H|H]]; [now apply G| |].
  - subst. rewrite !Rminus_diag_eq by reflexivity. rewrite Rabs_R0. lra.
  - rewrite (Rabs_minus_sym (sigmoid x)), (Rabs_minus_sym x). now apply G.
Qed.

Lemma exp_interpolation a h u : 0 < h -> 0 <= u <= 1 ->
  Rabs (exp (a + u * h) - ((1 - u) * exp a + u * exp (a + h))) <= exp (a + h) * (h * h) / 8.
Proof.
  intros Hh Hu. apply interpolation_error with (f1 := exp) (f2 := exp); auto.
  - intros; apply derivable_pt_lim_exp. - intros; apply derivable_pt_lim_exp.
  - intros x Hx. pose proof (exp_pos x). rewrite Rabs_right by lra. destruct (Req_dec x (a + h)) as [->|]; [lra|]. left. apply exp_increasing. lra.
Qed.

Lemma exp_le x y : x <= y -> exp x <= exp y.
Proof. intros [H| ->]; [left; now apply exp_increasing|right; reflexivity]. Qed.
