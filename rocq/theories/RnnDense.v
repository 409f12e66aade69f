(** Closed forms of the dense operation of the recurrent kernels. *)
From Coq Require Import ZArith QArith Qabs List Lia Lqa Bool.
From Verif Require Import Base FxMath FxMathProofs Tensor QSpec Quant QuantProofs QuantCastProofs DotProdProofs Conv ConvValues ConvSpec Eltwise Lut LutProofs Rnn RnnSpec RnnProofs.
Import ListNotations.
Open Scope Z_scope.

(** * Specification *)

(** Sum of the numbers x * 2^(fo - f), each rounded to an integer, for the pairs (f, x) of a list. *)
Definition fx_terms (rm : rmode) (fo : Z) (l : list (Z * Z)) : Z := fold_right (fun p r => scale_rnd rm (snd p) (fst p - fo) + r) 0 l.
(** Magnitude of the terms before rounding. *)
Definition fx_terms_abs (fo : Z) (l : list (Z * Z)) : Z := fold_right (fun p r => Z.abs (snd p) * 2 ^ Z.max 0 (fo - fst p) + r) 0 l.

(** Sum of x * F for the pairs (F, x), and the error allowed: half a unit and 1/16384 of the magnitude for each term. *)
Definition sa_terms (l : list (Q * Z)) : Q := fold_right (fun p r => inject_Z (snd p) * fst p + r)%Q 0%Q l.
Definition sa_terms_abs (l : list (Q * Z)) : Q := fold_right (fun p r => Qabs (inject_Z (snd p) * fst p) + r)%Q 0%Q l.
Definition sa_terms_err (l : list (Q * Z)) : Q := fold_right (fun p r => (1 # 2) + Qabs (inject_Z (snd p) * fst p) * (1 # 16384) + r)%Q 0%Q l.

(** * Sums *)

Fixpoint vin_terms (rm : rmode) (full : bool) (o a : Z) (vs : list vin) : list Z :=
  match vs with
  | [] => []
  | v :: vs => rnn_requant rm full (vi_q v) (a + vdot (vi_n v) (q_zi (vi_q v)) (vi_x v) (vi_w v) o) :: vin_terms rm full o 0 vs
  end.
Definition lsum (l : list Z) : Z := fold_right Z.add 0 l.
Definition labs (l : list Z) : Z := fold_right (fun x r => Z.abs x + r) 0 l.

Lemma labs_nonneg l : 0 <= labs l.
Proof. induction l; cbn [labs fold_right]; [lia|]. unfold labs in *. lia. Qed.
Lemma lsum_le l : Z.abs (lsum l) <= labs l.
Proof. induction l; cbn [labs lsum fold_right]; [lia|]. unfold labs, lsum in *. lia. Qed.

Lemma fold_terms rm full o nacc vs : 1 < nacc -> Forall (fun v => acc_bits (vi_q v) = nacc) vs -> forall a s,
  Z.abs s + labs (vin_terms rm full o a vs) <= smax nacc ->
  snd (fold_left (vin_acc rm full o) vs (a, s)) = s + lsum (vin_terms rm full o a vs).
Proof.
  intros Hn. induction vs as [|v vs IH]; intros F a s H. { cbn. lia. }
  cbn [fold_left vin_terms lsum labs fold_right] in *. unfold vin_acc at 2. cbn [fst snd].
  rewrite (Forall_inv F). pose proof (labs_nonneg (vin_terms rm full o 0 vs)) as L. unfold labs in L, IH. unfold lsum in *.
  set (r := rnn_requant rm full (vi_q v) _) in *. set (k := fold_right _ 0 (vin_terms rm full o 0 vs)) in H, L.
  assert (B : forall x, Z.abs x <= smax nacc -> in_bits nacc x) by (intros; apply abs_in_bits; auto; lia).
  rewrite add_fx_spec by (try apply B; lia). rewrite sat_id by (apply B; lia). rewrite IH; [lia|exact (Forall_inv_tail F)|]. fold k. lia.
Qed.

(** * FX *)

Definition din := (qpar * wquant * Z * (Z -> Z -> Z) * list Z)%type.
(** The inputs of a dense operation: format of the input, format of the weights (for gate [g]), number of elements, weights, elements. *)
Definition din_vin (rm : rmode) (S : rnn_scheme) (fb : Z) (oq : qpar) (g : option Z) (i : din) : vin :=
  let '(iq, w, n, W, x) := i in
  let q := rnn_params rm S iq w fb oq in
  mkVin (match g with None => q | Some g => rnn_gate_params q g end) n W x.
Definition din_sum (S : rnn_scheme) (o : Z) (i : din) : Z := let '(iq, w, n, W, x) := i in vdot n (match S with RS_sa8 => q_zp iq | _ => 0 end) x W o.
(** Fraction of the products. *)
Definition din_frac (i : din) : Z := let '(iq, w, n, W, x) := i in q_frac iq + wq_frac w 0.

(** The exact sums: the bias [b] belongs to the first. *)
Fixpoint din_sums {F} (f : din -> F) (S : rnn_scheme) (o b : Z) (ins : list din) : list (F * Z) :=
  match ins with [] => [] | i :: ins => (f i, b + din_sum S o i) :: din_sums f S o 0 ins end.

Lemma rnd_le rm x k : 0 <= k -> Z.abs (rnd rm x k) <= Z.abs x.
Proof.
  intros Hk. destruct (Z.eq_dec k 0) as [->|].
  - pose proof (rnd_nearest rm x 0 ltac:(lia)) as N. assert (- 2 ^ 0 <= 2 * (x - rnd rm x 0 * 2 ^ 0) <= 2 ^ 0) by (destruct rm; unfold nearest, nearest_up, nearest_even in N; lia). change (2 ^ 0) with 1 in *. lia.
  - pose proof (rnd_nearest rm x k ltac:(lia)) as N. pose proof (pow2_succ k ltac:(lia)) as P. pose proof (pow2_gt0 (k - 1) ltac:(lia)).
    assert (B : - 2 ^ k <= 2 * (x - rnd rm x k * 2 ^ k) <= 2 ^ k /\ (x = 0 -> rnd rm x k = 0)).
    { split; [destruct rm; unfold nearest, nearest_up, nearest_even in N; lia|]. intros ->. apply rnd_big; lia. }
    destruct B as [B B0]. destruct (Z.eq_dec x 0) as [->|]; [rewrite B0; lia|]. set (r := rnd rm x k) in *. rewrite P in B. nia.
Qed.

Lemma scale_rnd_abs rm x k : Z.abs (scale_rnd rm x k) <= Z.abs x * 2 ^ Z.max 0 (- k).
Proof.
  unfold scale_rnd. destruct (Z.leb_spec 0 k).
  - rewrite Z.max_l by lia. rewrite Z.mul_1_r. now apply rnd_le.
  - rewrite Z.max_r by lia. rewrite Z.abs_mul, (Z.abs_eq (2 ^ - k)) by (apply Z.pow_nonneg; lia). lia.
Qed.

Lemma requant_shift rm n x k : 2 <= n -> Z.abs x * 2 ^ Z.max 0 (- k) <= 2 ^ (n - 2) - 1 -> asr_rnd_fx rm n x k = scale_rnd rm x k.
Proof.
  intros Hn H. pose proof (pow2_gt0 (Z.max 0 (- k)) ltac:(lia)). pose proof (pow2_succ (n - 1) ltac:(lia)) as P. replace (n - 1 - 1) with (n - 2) in P by lia. pose proof (pow2_gt0 (n - 2) ltac:(lia)).
  assert (Hx : Z.abs x <= 2 ^ (n - 2) - 1) by nia.
  assert (B : forall y, Z.abs y <= 2 ^ (n - 2) - 1 -> in_bits n y) by (intros; apply in_bits_unfold; lia).
  rewrite asr_rnd_fx_spec by (try apply small_rnd_safe; try apply B; auto; lia). unfold rshift_spec, scale_rnd. destruct (Z.leb_spec 0 k); [reflexivity|].
  apply sat_id, B. rewrite Z.max_r in H by lia. rewrite Z.abs_mul, (Z.abs_eq (2 ^ - k)) by (apply Z.pow_nonneg; lia). lia.
Qed.

Lemma fx_terms_abs_nonneg fo l : 0 <= fx_terms_abs fo l.
Proof. induction l as [|[f x] l IH]; cbn [fx_terms_abs fold_right fst snd]; [lia|]. fold (fx_terms_abs fo l). pose proof (pow2_gt0 (Z.max 0 (fo - f)) ltac:(lia)). nia. Qed.

Lemma relu_clip_id n v : in_bits n v -> relu_clip v (smin n) (smax n) = v.
Proof. unfold in_bits, relu_clip, min_fx, max_fx. intros H. destruct (Z.ltb_spec v (smax n)); [destruct (Z.gtb_spec v (smin n)); lia|]. destruct (Z.gtb_spec (smax n) (smin n)); lia. Qed.

Definition is_fx (S : rnn_scheme) : Prop := S <> RS_sa8.

Lemma vin_fx rm S fb oq g i : is_fx S -> acc_bits (vi_q (din_vin rm S fb oq g i)) = rs_acc S /\ q_zi (vi_q (din_vin rm S fb oq g i)) = 0
  /\ (forall full x, (S = RS_fx16 -> din_frac i - q_frac oq <= 39) -> Z.abs x * 2 ^ Z.max 0 (q_frac oq - din_frac i) <= 2 ^ (rs_acc S - 2) - 1 ->
        rnn_requant rm full (vi_q (din_vin rm S fb oq g i)) x = scale_rnd rm x (din_frac i - q_frac oq)).
Proof.
  intros HS. destruct i as [[[[iq w] n] W] x]. destruct S; [..|destruct (HS eq_refl)]; destruct g; cbn [din_vin vi_q rnn_params rnn_gate_params acc_bits rs_acc q_zi din_frac rnn_requant define_fx_params fx_out_shift];
    (split; [reflexivity|]); (split; [reflexivity|]); intros full y K H.
  1,2: replace (min_fx _ 39) with (q_frac iq + wq_frac w 0 - q_frac oq) by (specialize (K eq_refl); unfold min_fx; destruct (Z.ltb_spec (q_frac iq + wq_frac w 0 - q_frac oq) 39); lia); apply requant_shift; [lia|]; replace (- (q_frac iq + wq_frac w 0 - q_frac oq)) with (q_frac oq - (q_frac iq + wq_frac w 0)) by lia; exact H.
  all: apply requant_shift; [lia|]; replace (- (q_frac iq + wq_frac w 0 - q_frac oq)) with (q_frac oq - (q_frac iq + wq_frac w 0)) by lia; exact H.
Qed.

Lemma vin_terms_fx rm full S fb oq g o ins : is_fx S -> (S = RS_fx16 -> Forall (fun i => din_frac i - q_frac oq <= 39) ins) -> forall a,
  fx_terms_abs (q_frac oq) (din_sums din_frac S o a ins) <= 2 ^ (rs_acc S - 2) - 1 ->
  lsum (vin_terms rm full o a (map (din_vin rm S fb oq g) ins)) = fx_terms rm (q_frac oq) (din_sums din_frac S o a ins)
  /\ labs (vin_terms rm full o a (map (din_vin rm S fb oq g) ins)) <= fx_terms_abs (q_frac oq) (din_sums din_frac S o a ins).
Proof.
  intros HS. induction ins as [|i ins IH]; intros H39 a H. { cbn. split; [reflexivity|lia]. }
  cbn [map vin_terms din_sums lsum labs fx_terms fx_terms_abs fold_right fst snd] in *. fold (fx_terms_abs (q_frac oq) (din_sums din_frac S o 0 ins)) in *.
  fold (fx_terms rm (q_frac oq) (din_sums din_frac S o 0 ins)). fold (lsum (vin_terms rm full o 0 (map (din_vin rm S fb oq g) ins))). fold (labs (vin_terms rm full o 0 (map (din_vin rm S fb oq g) ins))).
  pose proof (fx_terms_abs_nonneg (q_frac oq) (din_sums din_frac S o 0 ins)).
  pose proof (pow2_gt0 (Z.max 0 (q_frac oq - din_frac i)) ltac:(lia)). destruct (IH (fun E => Forall_inv_tail (H39 E)) 0 ltac:(nia)) as [I1 I2]. rewrite I1.
  destruct (vin_fx rm S fb oq g i HS) as (_ & Z0 & R).
  assert (D : vdot (vi_n (din_vin rm S fb oq g i)) (q_zi (vi_q (din_vin rm S fb oq g i))) (vi_x (din_vin rm S fb oq g i)) (vi_w (din_vin rm S fb oq g i)) o = din_sum S o i).
  { rewrite Z0. destruct i as [[[[iq w] n] W] x]. destruct S; [reflexivity..|destruct (HS eq_refl)]. }
  rewrite D. rewrite R by (try (intros E; exact (Forall_inv (H39 E))); lia). pose proof (scale_rnd_abs rm (a + din_sum S o i) (din_frac i - q_frac oq)) as A.
  replace (- (din_frac i - q_frac oq)) with (q_frac oq - din_frac i) in A by lia. lia.
Qed.

(** FX dense operation: the products of each input with its weights are summed exactly (the bias belongs to the first input), brought to
    the fraction of the output with one rounding, added, and saturated to 16 bits. *)
Theorem dense_fx_value rm full S fb oq g ins b o : is_fx S -> ins <> [] -> (S = RS_fx16 -> Forall (fun i => din_frac i - q_frac oq <= 39) ins) ->
  let vs := map (din_vin rm S fb oq g) ins in
  let bias := match vs with [] => 0 | v :: _ => q_bias_add rm full (vi_q v) b 0 end in
  fx_terms_abs (q_frac oq) (din_sums din_frac S o bias ins) <= 2 ^ (rs_acc S - 2) - 1 ->
  dense_out rm full (smin 16) (smax 16) b vs o = sat 16 (fx_terms rm (q_frac oq) (din_sums din_frac S o bias ins)).
Proof.
  intros HS Hne H39 vs bias H. destruct (vin_terms_fx rm full S fb oq g o ins HS H39 bias H) as [T1 T2]. fold vs in T1, T2.
  assert (FA : Forall (fun v => acc_bits (vi_q v) = rs_acc S) vs) by (apply Forall_map, Forall_forall; intros i _; apply vin_fx; auto).
  assert (A2 : 1 < rs_acc S) by (destruct S; cbn; lia).
  assert (SM : 2 ^ (rs_acc S - 2) - 1 <= smax (rs_acc S)) by (destruct S; cbn; lia).
  pose proof (fold_terms rm full o (rs_acc S) vs A2 FA bias 0 ltac:(rewrite Z.abs_0; lia)) as E. rewrite T1 in E.
  pose proof (lsum_le (vin_terms rm full o bias vs)) as LS. rewrite T1 in LS.
  unfold dense_out. destruct vs as [|v0 vs'] eqn:Ev; [destruct ins; [congruence|discriminate]|].
  unfold dense_sum. change (q_bias_add rm full (vi_q v0) b 0) with bias. rewrite E, Z.add_0_l. set (r := fx_terms rm (q_frac oq) _) in *.
  assert (QL : exists i, vi_q (last (v0 :: vs') v0) = vi_q (din_vin rm S fb oq g i)).
  { assert (In (last (v0 :: vs') v0) (v0 :: vs')) as I by (clear; generalize v0 at 1 3; induction vs' as [|u l IH]; intros x; [left; reflexivity|right; exact (IH u)]).
    rewrite <- Ev in I at 2. unfold vs in I. apply in_map_iff in I. destruct I as (i & I1 & _). exists i. now rewrite I1. }
  destruct QL as [i ->]. destruct i as [[[[iq w] n] W] x].
  assert (B : in_bits (rs_acc S) r) by (apply abs_in_bits; [lia..]).
  destruct S; [..|destruct (HS eq_refl)]; destruct g; cbn [din_vin vi_q rnn_params rnn_gate_params rnn_result rs_acc] in *.
  all: rewrite sat_fx_spec by (auto; lia).
  1,2: change (64 - 48) with 16. 3,4: change (32 - 16) with 16.
  all: rewrite wrap_id by (try apply sat_in_bits; lia); apply relu_clip_id, sat_in_bits; lia.
Qed.

(** * SA8 *)

(** Scale and shift of the weights: those of gate [g], unless the axis is -1. *)
Definition din_sel (g : option Z) (w : wquant) : Z := match g with None => 0 | Some g => if wq_dim w =? -1 then 0 else g end.
(** The real factor between a product and a unit of the output. *)
Definition din_factor (oq : qpar) (g : option Z) (i : din) : Q :=
  let '(iq, w, n, W, x) := i in out_factor iq oq (wq_scale w (din_sel g w)) (wq_frac w (din_sel g w)).
Definition din_ok (g : option Z) (i : din) : Prop :=
  let '(iq, w, n, W, x) := i in qpar_ok iq /\ 0 < wq_scale w (din_sel g w) <= 32767.

Lemma requant_sa rm i oq wdim wzp wsc wfr off x p : qpar_ok i -> qpar_ok oq -> 0 < wsc off <= 32767 -> in_bits 32 x ->
  p = define_s8_params rm i oq wdim wzp wsc wfr ->
  let F := out_factor i oq (wsc off) (wfr off) in
  let p' := adjust_s8 true (mkS8 (s8_in_off p) (s8_out_off p) (s8_w_off p) (fun k => s8_w_scales p (k + off)) (fun k => s8_w_shifts p (k + off)) (-1)
        (s8_ratio p) (s8_in_to_out_shift p) (s8_out_mul p) (s8_out_shift p)) 0 in
  0 < s8_out_mul p' < 2 ^ 30 /\ within (F * (1 # 16384)) (fxval (s8_out_shift p') (s8_out_mul p')) F.
Proof.
  intros Hi Ho Hw Hx Ep F p'. destruct (adjust_full_spec rm i oq (-1) wzp (fun k => wsc (k + off)) (fun k => wfr (k + off)) 0 Hi Ho Hw) as (M1 & M2 & M3).
  assert (E : p' = adjust_s8 true (define_s8_params rm i oq (-1) wzp (fun k => wsc (k + off)) (fun k => wfr (k + off))) 0).
  { unfold p'. rewrite Ep. unfold define_s8_params. destruct (norm_cast_fx rm 32 32 (q_scale i)) as [u v]. reflexivity. }
  rewrite E. split; [exact M1|exact M3].
Qed.

Lemma cast_64_32 rm x sh : Z.abs x <= 2 ^ 61 -> cast_narrow rm 64 32 x (min_fx sh 63) = sat 32 (scale_rnd rm x sh).
Proof.
  intros Hx. assert (Bx : in_bits 64 x) by (apply ib64; change (2 ^ 61) with 2305843009213693952 in Hx; lia).
  replace (min_fx sh 63) with (Z.min sh 63) by (unfold min_fx; destruct (Z.ltb_spec sh 63); lia).
  rewrite cast_narrow_exact; auto; try lia.
  2: { left. apply small_rnd_safe; lia. }
  f_equal. unfold scale_rnd. destruct (Z_le_gt_dec sh 63). { rewrite Z.min_l by lia. reflexivity. }
  rewrite Z.min_r by lia. destruct (Z.leb_spec 0 sh); [|lia]. change (0 <=? 63) with true. cbv iota. rewrite !rnd_big; auto; try lia.
  assert (2 ^ 63 <= 2 ^ (sh - 1)) by (apply pow2_le; lia). change (2 ^ 61) with 2305843009213693952 in Hx. change (2 ^ 63) with 9223372036854775808 in *. lia.
Qed.

Lemma sa_term_err rm F mul sh x : (0 < F)%Q -> 0 < mul < 2 ^ 30 -> within (F * (1 # 16384)) (fxval sh mul) F -> in_bits 32 x ->
  exists r, cast_narrow rm 64 32 (x * mul) (min_fx sh 63) = sat 32 r /\ within ((1 # 2) + Qabs (inject_Z x * F) * (1 # 16384)) (inject_Z r) (inject_Z x * F).
Proof.
  intros HF Hm W Hx. apply (proj1 (ib32 _)) in Hx. change (2 ^ 30) with 1073741824 in Hm. exists (scale_rnd rm (x * mul) sh). split.
  { apply cast_64_32. change (2 ^ 61) with 2305843009213693952. nia. }
  pose proof (scale_rnd_within rm (x * mul) sh) as W1. pose proof (factor_err x _ F (1 # 16384) (1 # 16384) ltac:(lra) ltac:(lra) W) as W2.
  assert (E : (fxval sh (x * mul) == inject_Z x * fxval sh mul)%Q) by (unfold fxval; rewrite inject_Z_mult; ring).
  unfold within in *. rewrite E in W1. apply Qabs_Qle_condition in W1, W2. apply Qabs_Qle_condition. split; lra.
Qed.

Lemma vin_sa rm fb oq g i : din_ok g i -> qpar_ok oq ->
  acc_bits (vi_q (din_vin rm RS_sa8 fb oq g i)) = 32 /\ q_zi (vi_q (din_vin rm RS_sa8 fb oq g i)) = (let '(iq, w, n, W, x) := i in q_zp iq)
  /\ (0 < din_factor oq g i)%Q
  /\ (forall x, in_bits 32 x -> exists r, rnn_requant rm true (vi_q (din_vin rm RS_sa8 fb oq g i)) x = sat 32 r
        /\ within ((1 # 2) + Qabs (inject_Z x * din_factor oq g i) * (1 # 16384)) (inject_Z r) (inject_Z x * din_factor oq g i)).
Proof.
  destruct i as [[[[iq w] n] W] e]. intros (Hi & Hw) Ho.
  assert (ZP : s8_in_off (define_s8_params rm iq oq (wq_dim w) (wq_zp w) (wq_scale w) (wq_frac w)) = q_zp iq) by (unfold define_s8_params; destruct (norm_cast_fx rm 32 32 (q_scale iq)); reflexivity).
  assert (ZD : s8_w_dim (define_s8_params rm iq oq (wq_dim w) (wq_zp w) (wq_scale w) (wq_frac w)) = wq_dim w) by (unfold define_s8_params; destruct (norm_cast_fx rm 32 32 (q_scale iq)); reflexivity).
  pose proof (out_factor_pos iq oq (wq_scale w (din_sel g w)) (wq_frac w (din_sel g w)) Hi Ho ltac:(lia)) as HF.
  destruct g as [g|]; cbn [din_vin din_factor vi_q rnn_params rnn_gate_params acc_bits q_zi s8_in_off din_sel rnn_requant] in *.
  - rewrite ZD. set (off := if wq_dim w =? -1 then 0 else g) in *. split; [reflexivity|]. split; [exact ZP|]. split; [exact HF|]. intros x Hx.
    destruct (requant_sa rm iq oq (wq_dim w) (wq_zp w) (wq_scale w) (wq_frac w) off x _ Hi Ho Hw Hx eq_refl) as (M1 & M3).
    apply sa_term_err; auto.
  - split; [reflexivity|]. split; [exact ZP|]. split; [exact HF|]. intros x Hx.
    assert (Hs : wsel (wq_dim w) 0 = 0) by (unfold wsel; destruct (wq_dim w <? 0); reflexivity).
    destruct (adjust_full_spec rm iq oq (wq_dim w) (wq_zp w) (wq_scale w) (wq_frac w) 0 Hi Ho ltac:(rewrite Hs; exact Hw)) as (M1 & M2 & M3). rewrite Hs in M3.
    apply sa_term_err; auto.
Qed.

Lemma sa_terms_abs_nonneg l : (0 <= sa_terms_abs l)%Q.
Proof. induction l as [|p l IH]; cbn [sa_terms_abs fold_right]; [lra|]. fold (sa_terms_abs l). pose proof (Qabs_nonneg (inject_Z (snd p) * fst p)). lra. Qed.
Lemma sa_terms_err_eq l : (sa_terms_err l == inject_Z (Z.of_nat (length l)) * (1 # 2) + sa_terms_abs l * (1 # 16384))%Q.
Proof.
  induction l as [|p l IH]; [reflexivity|]. cbn [sa_terms_err sa_terms_abs fold_right length]. fold (sa_terms_abs l) (sa_terms_err l). rewrite IH.
  rewrite Nat2Z.inj_succ. unfold Z.succ. rewrite inject_Z_plus. ring.
Qed.
Lemma sa_terms_le l : (Qabs (sa_terms l) <= sa_terms_abs l)%Q.
Proof.
  induction l as [|p l IH]; [discriminate|]. cbn [sa_terms sa_terms_abs fold_right]. fold (sa_terms l) (sa_terms_abs l).
  eapply Qle_trans; [apply Qabs_triangle|]. lra.
Qed.

Lemma vin_terms_sa rm fb oq g o ins : Forall (din_ok g) ins -> qpar_ok oq -> forall a,
  Forall (fun p => in_bits 32 (snd p)) (din_sums (din_factor oq g) RS_sa8 o a ins) ->
  (sa_terms_abs (din_sums (din_factor oq g) RS_sa8 o a ins) <= inject_Z (2 ^ 29))%Q -> (length ins <= 4)%nat ->
  let l := vin_terms rm true o a (map (din_vin rm RS_sa8 fb oq g) ins) in
  within (sa_terms_err (din_sums (din_factor oq g) RS_sa8 o a ins)) (inject_Z (lsum l)) (sa_terms (din_sums (din_factor oq g) RS_sa8 o a ins))
  /\ (inject_Z (labs l) <= sa_terms_abs (din_sums (din_factor oq g) RS_sa8 o a ins) + sa_terms_err (din_sums (din_factor oq g) RS_sa8 o a ins))%Q.
Proof.
  intros FO HO. induction ins as [|i ins IH]; intros a HB HA HL. { split; discriminate. }
  cbn [map vin_terms din_sums lsum labs fold_right length] in *. pose proof (Forall_inv HB) as B0. pose proof (Forall_inv_tail HB) as B1. cbn [snd] in B0.
  set (T := din_sums (din_factor oq g) RS_sa8 o 0 ins) in *. cbn [sa_terms sa_terms_abs sa_terms_err fold_right fst snd] in *. fold (sa_terms T) (sa_terms_abs T) (sa_terms_err T) in *.
  pose proof (sa_terms_abs_nonneg T) as NN. pose proof (Qabs_nonneg (inject_Z (a + din_sum RS_sa8 o i) * din_factor oq g i)) as NA.
  assert (HT : (sa_terms_abs T <= inject_Z (2 ^ 29))%Q) by lra. destruct (IH (Forall_inv_tail FO) 0 B1 HT ltac:(lia)) as [I1 I2]. clear IH. fold T in I1, I2.
  destruct (vin_sa rm fb oq g i (Forall_inv FO) HO) as (_ & Z0 & HF & R).
  assert (D : vdot (vi_n (din_vin rm RS_sa8 fb oq g i)) (q_zi (vi_q (din_vin rm RS_sa8 fb oq g i))) (vi_x (din_vin rm RS_sa8 fb oq g i)) (vi_w (din_vin rm RS_sa8 fb oq g i)) o = din_sum RS_sa8 o i).
  { rewrite Z0. destruct i as [[[[iq w] n] W] x]. reflexivity. }
  rewrite D. destruct (R _ B0) as (r & -> & W1). set (X := (inject_Z (a + din_sum RS_sa8 o i) * din_factor oq g i)%Q) in *.
  set (l := vin_terms rm true o 0 (map (din_vin rm RS_sa8 fb oq g) ins)) in *. change (fold_right Z.add 0 l) with (lsum l). change (fold_right (fun x r => Z.abs x + r) 0 l) with (labs l).
  assert (RB : (Qabs (inject_Z r) <= Qabs X + (1 # 2) + Qabs X * (1 # 16384))%Q).
  { unfold within in W1. apply Qabs_Qle_condition in W1. apply Qabs_Qle_condition. destruct (Qlt_le_dec X 0); [rewrite (Qabs_neg X) in * by lra|rewrite (Qabs_pos X) in * by lra]; split; lra. }
  assert (AR : (Qabs (inject_Z r) == inject_Z (Z.abs r))%Q) by (unfold Qabs, inject_Z; reflexivity). rewrite AR in RB.
  assert (SR : sat 32 r = r).
  { apply sat_id. apply ib32. assert (Z.abs r <= 2 ^ 30). { apply inj_le. eapply Qle_trans; [exact RB|]. change (inject_Z (2 ^ 29)) with (536870912)%Q in HA. change (inject_Z (2 ^ 30)) with (1073741824)%Q. lra. }
    change (2 ^ 30) with 1073741824 in *. lia. }
  rewrite SR. split.
  - unfold within in *. rewrite inject_Z_plus. apply Qabs_Qle_condition in I1, W1. apply Qabs_Qle_condition. split; lra.
  - rewrite inject_Z_plus. lra.
Qed.

Lemma sat8_lipschitz (e X : Q) r zp : within e (inject_Z r) X -> within e (inject_Z (sat 8 (r + zp))) (qclamp (- (128)) 127 (X + inject_Z zp)).
Proof.
  intros H. unfold within in *. apply Qabs_Qle_condition in H. apply Qabs_Qle_condition.
  assert (RZ : (inject_Z (r + zp) == inject_Z r + inject_Z zp)%Q) by (rewrite inject_Z_plus; reflexivity).
  assert (S : sat 8 (r + zp) = Z.max (-128) (Z.min 127 (r + zp))) by reflexivity.
  assert (S' : (sat 8 (r + zp) = -128 /\ r + zp <= -128) \/ (sat 8 (r + zp) = 127 /\ 127 <= r + zp) \/
     (sat 8 (r + zp) = r + zp /\ -128 <= r + zp <= 127)) by lia.
  destruct (qclamp_cases (- (128)) 127 (X + inject_Z zp) ltac:(reflexivity)) as [[C1 C2]|[[C1 C2]|[C1 C2]]]; rewrite C2; clear C2.
  all: destruct S' as [[-> S1]|[[-> S1]|[-> S1]]].
  all: change (inject_Z (-128)) with (- (128))%Q; change (inject_Z 127) with (127)%Q.
  all: try (assert (T1 : (inject_Z (r + zp) <= - (128))%Q) by (change (- (128))%Q with (inject_Z (-128)); apply inj_le; lia)).
  all: try (assert (T2 : (127 <= inject_Z (r + zp))%Q) by (change (127)%Q with (inject_Z 127); apply inj_le; lia)).
  all: try (assert (T3 : (- (128) <= inject_Z (r + zp) <= 127)%Q) by (change (- (128))%Q with (inject_Z (-128)); change (127)%Q with (inject_Z 127); rewrite !inj_le; lia)).
  all: rewrite ?RZ in *; split; lra.
Qed.

(** SA8 dense operation with the full accumulator: the output is the sum over the inputs of (products of input minus zero point and weight,
    the bias belonging to the first) times the real factor of the input, plus the zero point of the output, clamped to 8 bits. The error is at
    most half a unit for each input and 1/16384 of the magnitudes of the terms. *)
Theorem dense_sa8_value rm fb oq g ins b o : ins <> [] -> (length ins <= 4)%nat -> Forall (din_ok g) ins -> qpar_ok oq -> in_bits 32 b ->
  let l := din_sums (din_factor oq g) RS_sa8 o b ins in
  Forall (fun p => in_bits 32 (snd p)) l -> (sa_terms_abs l <= inject_Z (2 ^ 29))%Q ->
  within (sa_terms_err l) (inject_Z (dense_out rm true (smin 8) (smax 8) b (map (din_vin rm RS_sa8 fb oq g) ins) o))
    (qclamp (- (128)) 127 (sa_terms l + inject_Z (q_zp oq))).
Proof.
  intros Hne HL HO Ho Hb l HB HA. destruct (vin_terms_sa rm fb oq g o ins HO Ho b HB HA HL) as [T1 T2]. fold l in T1, T2.
  set (vs := map (din_vin rm RS_sa8 fb oq g) ins) in *.
  assert (FA : Forall (fun v => acc_bits (vi_q v) = 32) vs) by (apply Forall_map, Forall_forall; intros i Hi; apply vin_sa; auto; rewrite Forall_forall in HO; auto).
  assert (LB : labs (vin_terms rm true o b vs) <= 2 ^ 30).
  { apply inj_le. eapply Qle_trans; [exact T2|]. rewrite sa_terms_err_eq. change (inject_Z (2 ^ 29)) with (536870912)%Q in HA. change (inject_Z (2 ^ 30)) with (1073741824)%Q.
    assert (LL : (inject_Z (Z.of_nat (length l)) <= 4)%Q). { change 4%Q with (inject_Z 4). apply inj_le. unfold l. clear - HL. revert HL. generalize b. induction ins as [|i ins IH]; intros b' HL; cbn [din_sums length] in *; [lia|]. specialize (IH 0). assert (length ins <= 3)%nat by lia. 
      assert (forall a, length (din_sums (din_factor oq g) RS_sa8 o a ins) = length ins) as -> by (clear; induction ins; intros; cbn [din_sums length]; auto). lia. }
    lra. }
  pose proof (fold_terms rm true o 32 vs ltac:(lia) FA b 0 ltac:(rewrite Z.abs_0; change (smax 32) with 2147483647; change (2 ^ 30) with 1073741824 in *; lia)) as E. rewrite Z.add_0_l in E.
  pose proof (lsum_le (vin_terms rm true o b vs)) as LS. set (r := lsum (vin_terms rm true o b vs)) in *.
  unfold dense_out. destruct vs as [|v0 vs'] eqn:Ev; [destruct ins; [congruence|discriminate]|].
  assert (QB : exists i p, vi_q v0 = Q_s8 p /\ v0 = i /\ q_bias_add rm true (vi_q v0) b 0 = b).
  { destruct ins as [|i ins']; [congruence|]. injection Ev as <- _. destruct i as [[[[iq w] n] W] x]. exists (din_vin rm RS_sa8 fb oq g (iq, w, n, W, x)).
    destruct g; cbn [din_vin vi_q rnn_params rnn_gate_params q_bias_add]; eexists; (split; [reflexivity|]); (split; [reflexivity|]); rewrite bias_s8_full by (auto; apply ib32; lia); rewrite Z.add_0_l; now apply sat_id. }
  destruct QB as (_ & _ & _ & _ & QB). unfold dense_sum. rewrite QB, E.
  assert (QL : exists i, In i ins /\ vi_q (last (v0 :: vs') v0) = vi_q (din_vin rm RS_sa8 fb oq g i)).
  { assert (In (last (v0 :: vs') v0) (v0 :: vs')) as I by (clear; generalize v0 at 1 3; induction vs' as [|u k IH]; intros x; [left; reflexivity|right; exact (IH u)]).
    rewrite <- Ev in I at 2. unfold vs in I. apply in_map_iff in I. destruct I as (i & I1 & I2). exists i. now rewrite I1. }
  destruct QL as (i & _ & ->). destruct i as [[[[iq w] n] W] x].
  assert (OO : exists p, vi_q (din_vin rm RS_sa8 fb oq g (iq, w, n, W, x)) = Q_s8 p /\ s8_out_off p = q_zp oq).
  { destruct g; cbn [din_vin vi_q rnn_params rnn_gate_params]; eexists; (split; [reflexivity|]); cbn [s8_out_off]; unfold define_s8_params; destruct (norm_cast_fx rm 32 32 (q_scale iq)); reflexivity. }
  destruct OO as (p & -> & OO). cbn [rnn_result]. rewrite OO. destruct Ho as (_ & _ & HZ). pose proof (proj1 (ib8 _) HZ) as HZ'.
  change (2 ^ 30) with 1073741824 in *.
  rewrite sat_fx_spec by (try (apply ib32); lia). change (32 - 16) with 16. rewrite wrap_id by (try apply sat_in_bits; lia).
  rewrite add_fx_spec by (try apply sat_in_bits; try apply ib16; lia).
  rewrite cast_narrow_spec by (try apply sat_in_bits; lia). change (asr_rnd_fx rm 16 ?y 0) with y.
  rewrite relu_clip_id by (apply sat_in_bits; lia).
  replace (sat 8 (sat 16 (sat 16 r + q_zp oq))) with (sat 8 (r + q_zp oq)) by (unfold sat, clamp; change (smin 16) with (-32768); change (smax 16) with 32767; change (smin 8) with (-128); change (smax 8) with 127; lia).
  now apply sat8_lipschitz.
Qed.
