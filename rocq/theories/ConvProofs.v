(** Proofs about the convolution kernels (properties C30 - C34). *)
From Coq Require Import ZArith List Lia Bool QArith Qabs.
From Verif Require Import Base FxMath FxMathProofs Tensor TensorProofs MovProofs QSpec Quant QuantProofs QuantCastProofs
  DotProd DotProdProofs ArgMax Layout PoolProofs PoolKernels Conv ConvSpec.
Import ListNotations.
Open Scope Z_scope.

(** * Geometry of one axis *)

Lemma ceil_div_1 x : ceil_div x 1 = x.
Proof. unfold ceil_div. rewrite Z.quot_1_r. lia. Qed.

(** [k] taps at s, s+d, ...; the first [t] are before 0 and the last [b] are at [n] or behind. *)
Lemma tap_range s k d n : 0 < d -> 0 <= n -> 0 <= k -> - s <= (k - 1) * d -> s + 1 - n <= 0 ->
  let t := ceil_div (- Z.min s 0) d in
  let b := ceil_div (- Z.min (n - (s + ((k - 1) * d + 1))) 0) d in
  0 <= t /\ 0 <= b /\ t + b <= k /\ forall kr, 0 <= kr < k -> (0 <= s + kr * d < n <-> t <= kr < k - b).
Proof.
  intros Hd Hn Hk H1 H2 t b.
  pose proof (ceil_div_spec (- Z.min s 0) d ltac:(lia) Hd) as T. fold t in T.
  pose proof (ceil_div_spec (- Z.min (n - (s + ((k - 1) * d + 1))) 0) d ltac:(lia) Hd) as B. fold b in B.
  clearbody t b.
  assert (T0 : 0 <= t) by nia. assert (B0 : 0 <= b) by nia.
  assert (G : forall kr, 0 <= kr < k -> (0 <= s + kr * d < n <-> t <= kr < k - b)).
  { intros kr Hkr. destruct (Z.min_spec s 0) as [[M1 M2]|[M1 M2]]; rewrite M2 in T;
    destruct (Z.min_spec (n - (s + ((k - 1) * d + 1))) 0) as [[N1 N2]|[N1 N2]]; rewrite N2 in B; clear M2 N2; split; intros; nia. }
  split; [auto|]. split; [auto|]. split; [|exact G].
  assert (Z0 : 0 <= s -> t = 0) by (intros; clear - T Hd H T0; nia).
  assert (Z1 : 0 <= n - (s + ((k - 1) * d + 1)) -> b = 0) by (intros; clear - B Hd H B0; nia).
  destruct (Z_lt_le_dec s 0) as [N|N]; [|specialize (Z0 N); subst t]; (destruct (Z_lt_le_dec (n - (s + ((k - 1) * d + 1))) 0) as [N'|N']; [|specialize (Z1 N'); subst b]);
    [| | |lia]; apply Z.lt_succ_r; apply Z.mul_lt_mono_pos_l with d; lia.
Qed.

(** * The window of one output position *)

Definition axis_ok (s k d n : Z) : Prop := 0 < d /\ 0 <= n /\ 0 <= k /\ - s <= (k - 1) * d /\ s + 1 - n <= 0.

Lemma window_spec i w g H W :
  axis_ok (H * g_sh g - g_pt g) (w_kh w) (g_dh g) (p_h i) -> axis_ok (W * g_sw g - g_pl g) (w_kw w) (g_dw g) (p_w i) ->
  exists t l, let v := window i w g H W in
    let r0 := H * g_sh g - g_pt g in let c0 := W * g_sw g - g_pl g in
    0 <= t /\ 0 <= l /\ 0 <= wn_rows v /\ 0 <= wn_cols v /\ t + wn_rows v <= w_kh w /\ l + wn_cols v <= w_kw w
    /\ wn_in v = p_row i * (r0 + t * g_dh g) + p_col i * (c0 + l * g_dw g)
    /\ wn_w v = w_row w * t + w_col w * l
    /\ (forall kr, 0 <= kr < w_kh w -> (0 <= r0 + kr * g_dh g < p_h i <-> t <= kr < t + wn_rows v))
    /\ (forall kc, 0 <= kc < w_kw w -> (0 <= c0 + kc * g_dw g < p_w i <-> l <= kc < l + wn_cols v)).
Proof.
  intros (A1 & A2 & A3 & A4 & A5) (B1 & B2 & B3 & B4 & B5).
  destruct (tap_range _ _ _ _ A1 A2 A3 A4 A5) as (T1 & T2 & T3 & T4).
  destruct (tap_range _ _ _ _ B1 B2 B3 B4 B5) as (L1 & L2 & L3 & L4).
  set (r0 := H * g_sh g - g_pt g) in *. set (c0 := W * g_sw g - g_pl g) in *.
  set (t := ceil_div (- Z.min r0 0) (g_dh g)) in *. set (l := ceil_div (- Z.min c0 0) (g_dw g)) in *.
  set (b := ceil_div (- Z.min (p_h i - (r0 + ((w_kh w - 1) * g_dh g + 1))) 0) (g_dh g)) in *.
  set (r := ceil_div (- Z.min (p_w i - (c0 + ((w_kw w - 1) * g_dw g + 1))) 0) (g_dw g)) in *.
  assert (E : valid_area H W (p_h i) (p_w i) (w_kh w) (w_kw w) (g_sh g) (g_sw g) (g_pl g) (g_pt g) (g_dh g) (g_dw g)
    = mkComps (l * g_dw g) (r * g_dw g) (t * g_dh g) (b * g_dh g) l r t b).
  { unfold valid_area. destruct ((g_dh g =? 1) && (g_dw g =? 1)) eqn:D; [|reflexivity].
    apply andb_true_iff in D. destruct D as [D1 D2]. apply Z.eqb_eq in D1, D2. unfold l, r, t, b. rewrite D1, D2, !ceil_div_1.
    fold r0 c0. cbv zeta.
    replace ((w_kw w - 1) * 1 + 1) with (w_kw w) by ring. replace ((w_kh w - 1) * 1 + 1) with (w_kh w) by ring. rewrite !Z.mul_1_r. reflexivity. }
  exists t, l. cbv zeta. unfold window. rewrite E. cbn [c_in_top c_in_left c_k_top c_k_left c_k_bottom c_k_right wn_rows wn_cols wn_in wn_w].
  fold r0 c0. do 4 (split; [lia|]). split; [lia|]. split; [lia|]. split; [reflexivity|]. split; [reflexivity|].
  split; intros k Hk; [rewrite T4 by lia|rewrite L4 by lia]; lia.
Qed.

(** A sum over the valid part of the window is a sum over the taps inside of the image. *)
Lemma zsum_part k t n F (P : Z -> bool) : 0 <= t -> 0 <= n -> t + n <= k ->
  (forall x, 0 <= x < k -> P x = true <-> t <= x < t + n) ->
  zsum 0 k (fun x => if P x then F x else 0) = zsum 0 n (fun x => F (t + x)).
Proof.
  intros Ht Hn Hk HP. rewrite (zsum_split 0 t k), (zsum_split t (t + n) k) by lia.
  rewrite (zsum_zero 0 t), (zsum_zero (t + n) k).
  - rewrite Z.add_0_l, Z.add_0_r. replace (zsum t (t + n)) with (zsum (0 + t) (n + t)) by (f_equal; lia). rewrite zsum_shift.
    apply zsum_ext. intros x Hx. destruct (P (x + t)) eqn:E; [f_equal; lia|]. exfalso. rewrite (proj2 (HP (x + t) ltac:(lia))) in E by lia. discriminate.
  - intros x Hx. destruct (P x) eqn:E; [|reflexivity]. apply HP in E; lia.
  - intros x Hx. destruct (P x) eqn:E; [|reflexivity]. apply HP in E; lia.
Qed.

Lemma zsum_part2 kh t n kw l m F (P R : Z -> bool) : 0 <= t -> 0 <= n -> t + n <= kh -> 0 <= l -> 0 <= m -> l + m <= kw ->
  (forall x, 0 <= x < kh -> P x = true <-> t <= x < t + n) ->
  (forall x, 0 <= x < kw -> R x = true <-> l <= x < l + m) ->
  zsum 0 kh (fun x => zsum 0 kw (fun y => if P x && R y then F x y else 0)) = zsum 0 n (fun x => zsum 0 m (fun y => F (t + x) (l + y))).
Proof.
  intros. etransitivity; [|apply (zsum_part kh t n (fun x => zsum 0 m (fun y => F x (l + y))) P); auto].
  apply zsum_ext. intros x Hx. destruct (P x); cbn [andb]; [|apply zsum_0].
  now apply zsum_part.
Qed.

Lemma taps_ext nh nw kh kw r0 c0 dh dw F G F' G' :
  (forall kr kc, 0 <= kr < kh -> 0 <= kc < kw -> inside nh nw (r0 + kr * dh) (c0 + kc * dw) = true -> F kr kc = F' kr kc) ->
  (forall kr kc, 0 <= kr < kh -> 0 <= kc < kw -> inside nh nw (r0 + kr * dh) (c0 + kc * dw) = false -> G kr kc = G' kr kc) ->
  taps nh nw kh kw r0 c0 dh dw F G = taps nh nw kh kw r0 c0 dh dw F' G'.
Proof.
  intros HF HG. unfold taps. apply zsum_ext. intros kr Hr. apply zsum_ext. intros kc Hc.
  destruct (inside nh nw (r0 + kr * dh) (c0 + kc * dw)) eqn:E; auto.
Qed.

Lemma taps_add nh nw kh kw r0 c0 dh dw F G F' G' :
  taps nh nw kh kw r0 c0 dh dw F G + taps nh nw kh kw r0 c0 dh dw F' G'
  = taps nh nw kh kw r0 c0 dh dw (fun a b => F a b + F' a b) (fun a b => G a b + G' a b).
Proof.
  unfold taps. rewrite <- zsum_add. apply zsum_ext. intros. rewrite <- zsum_add. apply zsum_ext. intros.
  destruct (inside _ _ _ _); reflexivity.
Qed.

Lemma taps_scale nh nw kh kw r0 c0 dh dw F G z :
  z * taps nh nw kh kw r0 c0 dh dw F G = taps nh nw kh kw r0 c0 dh dw (fun a b => z * F a b) (fun a b => z * G a b).
Proof.
  unfold taps. rewrite <- zsum_mul_l. apply zsum_ext. intros. rewrite <- zsum_mul_l. apply zsum_ext. intros.
  destruct (inside _ _ _ _); reflexivity.
Qed.

Lemma taps_abs nh nw kh kw r0 c0 dh dw F G c : 0 <= kh -> 0 <= kw -> 0 <= c ->
  (forall kr kc, 0 <= kr < kh -> 0 <= kc < kw -> inside nh nw (r0 + kr * dh) (c0 + kc * dw) = true -> Z.abs (F kr kc) <= c) ->
  (forall kr kc, 0 <= kr < kh -> 0 <= kc < kw -> Z.abs (G kr kc) <= c) ->
  Z.abs (taps nh nw kh kw r0 c0 dh dw F G) <= kh * kw * c.
Proof.
  intros Hh Hw Hc HF HG. unfold taps. rewrite <- Z.mul_assoc. apply zsum_abs_le; auto. intros kr Hr. apply zsum_abs_le; auto. intros kc Hk.
  destruct (inside nh nw (r0 + kr * dh) (c0 + kc * dw)) eqn:E; auto.
Qed.

Lemma inside_spec nh nw r cl : inside nh nw r cl = true <-> 0 <= r < nh /\ 0 <= cl < nw.
Proof.
  unfold inside. rewrite !andb_true_iff, !Z.leb_le, !Z.ltb_lt. lia.
Qed.

(** Sum over the valid window = sum over the inside taps. *)
Lemma window_taps nh nw kh kw r0 c0 dh dw t l rows cols F :
  0 <= t -> 0 <= l -> 0 <= rows -> 0 <= cols -> t + rows <= kh -> l + cols <= kw ->
  (forall kr, 0 <= kr < kh -> (0 <= r0 + kr * dh < nh <-> t <= kr < t + rows)) ->
  (forall kc, 0 <= kc < kw -> (0 <= c0 + kc * dw < nw <-> l <= kc < l + cols)) ->
  taps nh nw kh kw r0 c0 dh dw F (fun _ _ => 0) = zsum 0 rows (fun r => zsum 0 cols (fun cl => F (t + r) (l + cl))).
Proof.
  intros. unfold taps.
  rewrite <- (zsum_part2 kh t rows kw l cols F (fun kr => (0 <=? r0 + kr * dh) && (r0 + kr * dh <? nh)) (fun kc => (0 <=? c0 + kc * dw) && (c0 + kc * dw <? nw))); auto.
  - apply zsum_ext. intros kr _. apply zsum_ext. intros kc _. unfold inside. rewrite <- !andb_assoc. reflexivity.
  - intros x Hx. rewrite andb_true_iff, Z.leb_le, Z.ltb_lt. auto.
  - intros x Hx. rewrite andb_true_iff, Z.leb_le, Z.ltb_lt. auto.
Qed.

Lemma zsum_swap3 n a b (f : Z -> Z -> Z -> Z) :
  zsum 0 n (fun k => zsum 0 a (fun r => zsum 0 b (fun c => f k r c))) = zsum 0 a (fun r => zsum 0 b (fun c => zsum 0 n (fun k => f k r c))).
Proof. rewrite zsum_swap. apply zsum_ext. intros r _. apply zsum_swap. Qed.

(** * Accumulation over the window *)

Lemma mul3_le a b c d a' b' : 0 <= a -> a <= a' -> 0 <= b -> b <= b' -> 0 <= c -> 0 <= d -> d * a * b * c <= d * a' * b' * c.
Proof.
  intros. assert (a * b <= a' * b') by (apply Z.mul_le_mono_nonneg; auto).
  apply Z.mul_le_mono_nonneg_r; auto. rewrite <- !Z.mul_assoc. apply Z.mul_le_mono_nonneg_l; auto.
Qed.

(** Addresses of an input element and of a weight. *)
Definition ia (i : ptensor) (r cl ch : Z) : Z := p_ptr i + p_row i * r + p_col i * cl + p_chs i * ch.
Definition wa (w : wtensor) (kr kc ic oc : Z) : Z := w_ptr w + w_row w * kr + w_col w * kc + w_ins w * ic + w_outs w * oc.

(** The taps of output position (H, W) in terms of the private tensors. *)
Definition ptaps (i : ptensor) (w : wtensor) (g : geom) (H W : Z) (F G : Z -> Z -> Z) : Z :=
  taps (p_h i) (p_w i) (w_kh w) (w_kw w) (H * g_sh g - g_pt g) (W * g_sw g - g_pl g) (g_dh g) (g_dw g) F G.

Section Core.
Context (mi mw : mem) (i : ptensor) (w : wtensor) (g : geom) (H W : Z).
Context (Ha : axis_ok (H * g_sh g - g_pt g) (w_kh w) (g_dh g) (p_h i)) (Hb : axis_ok (W * g_sw g - g_pl g) (w_kw w) (g_dw g) (p_w i)).

Definition tr (kr : Z) : Z := H * g_sh g - g_pt g + kr * g_dh g.
Definition tc (kc : Z) : Z := W * g_sw g - g_pl g + kc * g_dw g.

(** dotprod3D over [nin] channels from channel [ch0]. *)
Lemma conv_dot n c ch0 nin oc :
  0 <= c -> 0 <= nin -> (forall a b, Z.abs (rd mi a * rd mw b) <= c) -> nin * w_kh w * w_kw w * c <= smax n ->
  (forall r cl ic, 0 <= r < p_h i -> 0 <= cl < p_w i -> 0 <= ic < nin -> allocated mi (ia i r cl (ch0 + ic))) ->
  (forall kr kc ic, 0 <= kr < w_kh w -> 0 <= kc < w_kw w -> 0 <= ic < nin -> allocated mw (wa w kr kc ic oc)) ->
  let v := window i w g H W in
  let S := ptaps i w g H W (fun kr kc => zsum 0 nin (fun ic => rd mi (ia i (tr kr) (tc kc) (ch0 + ic)) * rd mw (wa w kr kc ic oc))) (fun _ _ => 0) in
  dotprod3D n mi mw (p_ptr i + wn_in v + p_chs i * ch0) (w_ptr w + wn_w v + w_outs w * oc) (wn_cols v) (wn_rows v) nin
    (p_col i * g_dw g) (p_row i * g_dh g) (p_chs i) (w_col w) (w_row w) (w_ins w) 0 = Some S
  /\ Z.abs S <= nin * w_kh w * w_kw w * c.
Proof.
  intros Hc Hn Hp HB AI AW v S.
  destruct (window_spec i w g H W Ha Hb) as (t & l & X). fold v in X. cbv zeta in X.
  destruct X as (T & L & R & C & TR & LC & Ei & Ew & Gr & Gc).
  assert (Bm : nin * wn_rows v * wn_cols v * c <= nin * w_kh w * w_kw w * c) by (apply mul3_le; lia).
  pose proof (dotprod3D_ok n mi mw c Hc 0 (p_ptr i + wn_in v + p_chs i * ch0) (w_ptr w + wn_w v + w_outs w * oc) 0 (wn_cols v) (wn_rows v) nin
    (p_col i * g_dw g) (p_row i * g_dh g) (p_chs i) (w_col w) (w_row w) (w_ins w) C R Hn ltac:(lia) ltac:(lia)) as D.
  assert (Ka : forall k r cl, 0 <= k < nin -> 0 <= r < wn_rows v -> 0 <= cl < wn_cols v ->
     p_ptr i + wn_in v + p_chs i * ch0 + k * p_chs i + r * (p_row i * g_dh g) + cl * (p_col i * g_dw g) = ia i (tr (t + r)) (tc (l + cl)) (ch0 + k)).
  { intros. rewrite Ei. unfold ia, tr, tc. ring. }
  assert (Kw : forall k r cl, 0 <= k < nin -> 0 <= r < wn_rows v -> 0 <= cl < wn_cols v ->
     w_ptr w + wn_w v + w_outs w * oc + k * w_ins w + r * w_row w + cl * w_col w = wa w (t + r) (l + cl) k oc).
  { intros. rewrite Ew. unfold wa. ring. }
  destruct D as [D1 D2].
  { intros k Hk r cl Hr Hcl. rewrite Ka, Kw by auto. split; [|split; [|apply Hp]].
    - apply AI; auto; [apply Gr|apply Gc]; lia.
    - apply AW; auto; lia. }
  match type of D1 with _ = Some (0 + ?X) => assert (ES : X = S) end.
  { unfold box_sum, plane_sum. rewrite zsum_swap3. unfold S, ptaps.
    rewrite (window_taps _ _ _ _ _ _ _ _ t l (wn_rows v) (wn_cols v)) by auto.
    apply zsum_ext. intros r Hr. apply zsum_ext. intros cl Hcl. apply zsum_ext. intros k Hk. rewrite Ka, Kw by auto. reflexivity. }
  rewrite ES, Z.add_0_l in D1, D2. split; [exact D1|]. lia.
Qed.

(** The sum of the weights over the valid part of the window. *)
Lemma conv_wadd n c B z nin oc acc :
  0 <= c -> 0 <= nin -> Z.abs z <= 32767 -> (forall a, Z.abs (z * rd mw a) <= c) ->
  Z.abs acc <= B -> B + nin * w_kh w * w_kw w * c <= smax n ->
  (forall kr kc ic, 0 <= kr < w_kh w -> 0 <= kc < w_kw w -> 0 <= ic < nin -> allocated mw (wa w kr kc ic oc)) ->
  let v := window i w g H W in
  let S := ptaps i w g H W (fun kr kc => zsum 0 nin (fun ic => rd mw (wa w kr kc ic oc))) (fun _ _ => 0) in
  additive3D n mw (w_ptr w + wn_w v + w_outs w * oc) acc z (wn_cols v) (wn_rows v) nin (w_col w) (w_row w) (w_ins w) = Some (acc - z * S)
  /\ Z.abs (acc - z * S) <= B + nin * w_kh w * w_kw w * c.
Proof.
  intros Hc Hn Hz Hp Hacc HB AW v S.
  destruct (window_spec i w g H W Ha Hb) as (t & l & X). fold v in X. cbv zeta in X.
  destruct X as (T & L & R & C & TR & LC & Ei & Ew & Gr & Gc).
  assert (Bm : nin * wn_rows v * wn_cols v * c <= nin * w_kh w * w_kw w * c) by (apply mul3_le; lia).
  assert (Kw : forall k r cl, w_ptr w + wn_w v + w_outs w * oc + k * w_ins w + r * w_row w + cl * w_col w = wa w (t + r) (l + cl) k oc).
  { intros. rewrite Ew. unfold wa. ring. }
  pose proof (additive3D_ok n mw B c (w_ptr w + wn_w v + w_outs w * oc) acc z (wn_cols v) (wn_rows v) nin (w_col w) (w_row w) (w_ins w)
    Hc C R Hn Hz Hp Hacc ltac:(lia)) as D.
  destruct D as [D1 D2].
  { intros k Hk r cl Hr Hcl. rewrite Kw. apply AW; auto; lia. }
  assert (ES : sum3D mw (w_ptr w + wn_w v + w_outs w * oc) (wn_cols v) (wn_rows v) nin (w_col w) (w_row w) (w_ins w) = S).
  { unfold sum3D, sum2D. rewrite zsum_swap3. unfold S, ptaps.
    rewrite (window_taps _ _ _ _ _ _ _ _ t l (wn_rows v) (wn_cols v)) by auto.
    apply zsum_ext. intros r Hr. apply zsum_ext. intros cl Hcl. apply zsum_ext. intros k Hk. now rewrite Kw. }
  rewrite ES in D1, D2. split; [exact D1|]. lia.
Qed.

Lemma window_size : let v := window i w g H W in
  0 <= wn_cols v * wn_rows v <= w_kh w * w_kw w
  /\ wn_cols v * wn_rows v = ptaps i w g H W (fun _ _ => 1) (fun _ _ => 0).
Proof.
  intros v. destruct (window_spec i w g H W Ha Hb) as (t & l & X). fold v in X. cbv zeta in X.
  destruct X as (T & L & R & C & TR & LC & Ei & Ew & Gr & Gc). split; [|].
  { split; [apply Z.mul_nonneg_nonneg; auto|]. rewrite Z.mul_comm. apply Z.mul_le_mono_nonneg; lia. }
  unfold ptaps. rewrite (window_taps _ _ _ _ _ _ _ _ t l (wn_rows v) (wn_cols v)) by auto. rewrite !zsum_const by lia. ring.
Qed.

(** The same for the two-dimensional bricks of the depthwise kernel, channel [ch]. *)
Lemma dw_dot n c ch :
  0 <= c -> (forall a b, Z.abs (rd mi a * rd mw b) <= c) -> w_kh w * w_kw w * c <= smax n ->
  (forall r cl, 0 <= r < p_h i -> 0 <= cl < p_w i -> allocated mi (ia i r cl ch)) ->
  (forall kr kc, 0 <= kr < w_kh w -> 0 <= kc < w_kw w -> allocated mw (wa w kr kc 0 ch)) ->
  let v := window i w g H W in
  let S := ptaps i w g H W (fun kr kc => rd mi (ia i (tr kr) (tc kc) ch) * rd mw (wa w kr kc 0 ch)) (fun _ _ => 0) in
  dotprod2D n mi mw (p_ptr i + wn_in v + p_chs i * ch) (w_ptr w + wn_w v + w_outs w * ch) 0 (wn_cols v) (wn_rows v)
    (p_col i * g_dw g) (p_row i * g_dh g) (w_col w) (w_row w) = Some S
  /\ Z.abs S <= w_kh w * w_kw w * c.
Proof.
  intros Hc Hp HB AI AW v S.
  destruct (window_spec i w g H W Ha Hb) as (t & l & X). fold v in X. cbv zeta in X.
  destruct X as (T & L & R & C & TR & LC & Ei & Ew & Gr & Gc).
  assert (Bm : wn_rows v * wn_cols v * c <= w_kh w * w_kw w * c) by (apply Z.mul_le_mono_nonneg_r; auto; apply Z.mul_le_mono_nonneg; lia).
  pose proof (dotprod2D_ok n mi mw c Hc 0 (p_ptr i + wn_in v + p_chs i * ch) (w_ptr w + wn_w v + w_outs w * ch) 0 (wn_cols v) (wn_rows v)
    (p_col i * g_dw g) (p_row i * g_dh g) (w_col w) (w_row w) C R ltac:(lia) ltac:(lia)) as D.
  assert (Ka : forall r cl, p_ptr i + wn_in v + p_chs i * ch + r * (p_row i * g_dh g) + cl * (p_col i * g_dw g) = ia i (tr (t + r)) (tc (l + cl)) ch).
  { intros. rewrite Ei. unfold ia, tr, tc. ring. }
  assert (Kw : forall r cl, w_ptr w + wn_w v + w_outs w * ch + r * w_row w + cl * w_col w = wa w (t + r) (l + cl) 0 ch).
  { intros. rewrite Ew. unfold wa. ring. }
  destruct D as [D1 D2].
  { intros r cl Hr Hcl. rewrite Ka, Kw by auto. split; [|split; [|apply Hp]].
    - apply AI; auto; [apply Gr|apply Gc]; lia.
    - apply AW; auto; lia. }
  match type of D1 with _ = Some (0 + ?X) => assert (ES : X = S) end.
  { unfold plane_sum. unfold S, ptaps.
    rewrite (window_taps _ _ _ _ _ _ _ _ t l (wn_rows v) (wn_cols v)) by auto.
    apply zsum_ext. intros r Hr. apply zsum_ext. intros cl Hcl. rewrite Ka, Kw by auto. reflexivity. }
  rewrite ES, Z.add_0_l in D1, D2. split; [exact D1|]. lia.
Qed.

Lemma dw_wadd n c B z ch acc :
  0 <= c -> Z.abs z <= 32767 -> (forall a, Z.abs (z * rd mw a) <= c) ->
  Z.abs acc <= B -> B + w_kh w * w_kw w * c <= smax n ->
  (forall kr kc, 0 <= kr < w_kh w -> 0 <= kc < w_kw w -> allocated mw (wa w kr kc 0 ch)) ->
  let v := window i w g H W in
  let S := ptaps i w g H W (fun kr kc => rd mw (wa w kr kc 0 ch)) (fun _ _ => 0) in
  additive2D n mw (w_ptr w + wn_w v + w_outs w * ch) acc z (wn_cols v) (wn_rows v) (w_col w) (w_row w) = Some (acc - z * S)
  /\ Z.abs (acc - z * S) <= B + w_kh w * w_kw w * c.
Proof.
  intros Hc Hz Hp Hacc HB AW v S.
  destruct (window_spec i w g H W Ha Hb) as (t & l & X). fold v in X. cbv zeta in X.
  destruct X as (T & L & R & C & TR & LC & Ei & Ew & Gr & Gc).
  assert (Bm : wn_rows v * wn_cols v * c <= w_kh w * w_kw w * c) by (apply Z.mul_le_mono_nonneg_r; auto; apply Z.mul_le_mono_nonneg; lia).
  assert (Kw : forall r cl, w_ptr w + wn_w v + w_outs w * ch + r * w_row w + cl * w_col w = wa w (t + r) (l + cl) 0 ch).
  { intros. rewrite Ew. unfold wa. ring. }
  destruct (additive2D_ok n mw B c (w_ptr w + wn_w v + w_outs w * ch) acc z (wn_cols v) (wn_rows v) (w_col w) (w_row w)
    Hc C R Hz Hp Hacc ltac:(lia)) as [D1 D2].
  { intros r cl Hr Hcl. rewrite Kw. apply AW; auto; lia. }
  assert (ES : sum2D mw (w_ptr w + wn_w v + w_outs w * ch) (wn_cols v) (wn_rows v) (w_col w) (w_row w) = S).
  { unfold sum2D. unfold S, ptaps.
    rewrite (window_taps _ _ _ _ _ _ _ _ t l (wn_rows v) (wn_cols v)) by auto.
    apply zsum_ext. intros r Hr. apply zsum_ext. intros cl Hcl. now rewrite Kw. }
  rewrite ES in D1, D2. split; [exact D1|]. lia.
Qed.

Lemma dw_iadd n c B z ch acc :
  0 <= c -> Z.abs z <= 32767 -> (forall a, Z.abs (z * rd mi a) <= c) ->
  Z.abs acc <= B -> B + w_kh w * w_kw w * c <= smax n ->
  (forall r cl, 0 <= r < p_h i -> 0 <= cl < p_w i -> allocated mi (ia i r cl ch)) ->
  let v := window i w g H W in
  let S := ptaps i w g H W (fun kr kc => rd mi (ia i (tr kr) (tc kc) ch)) (fun _ _ => 0) in
  additive2D n mi (p_ptr i + wn_in v + p_chs i * ch) acc z (wn_cols v) (wn_rows v) (p_col i * g_dw g) (p_row i * g_dh g) = Some (acc - z * S)
  /\ Z.abs (acc - z * S) <= B + w_kh w * w_kw w * c.
Proof.
  intros Hc Hz Hp Hacc HB AI v S.
  destruct (window_spec i w g H W Ha Hb) as (t & l & X). fold v in X. cbv zeta in X.
  destruct X as (T & L & R & C & TR & LC & Ei & Ew & Gr & Gc).
  assert (Bm : wn_rows v * wn_cols v * c <= w_kh w * w_kw w * c) by (apply Z.mul_le_mono_nonneg_r; auto; apply Z.mul_le_mono_nonneg; lia).
  assert (Ka : forall r cl, p_ptr i + wn_in v + p_chs i * ch + r * (p_row i * g_dh g) + cl * (p_col i * g_dw g) = ia i (tr (t + r)) (tc (l + cl)) ch).
  { intros. rewrite Ei. unfold ia, tr, tc. ring. }
  destruct (additive2D_ok n mi B c (p_ptr i + wn_in v + p_chs i * ch) acc z (wn_cols v) (wn_rows v) (p_col i * g_dw g) (p_row i * g_dh g)
    Hc C R Hz Hp Hacc ltac:(lia)) as [D1 D2].
  { intros r cl Hr Hcl. rewrite Ka. apply AI; auto; [apply Gr|apply Gc]; lia. }
  assert (ES : sum2D mi (p_ptr i + wn_in v + p_chs i * ch) (wn_cols v) (wn_rows v) (p_col i * g_dw g) (p_row i * g_dh g) = S).
  { unfold sum2D. unfold S, ptaps.
    rewrite (window_taps _ _ _ _ _ _ _ _ t l (wn_rows v) (wn_cols v)) by auto.
    apply zsum_ext. intros r Hr. apply zsum_ext. intros cl Hcl. now rewrite Ka. }
  rewrite ES in D1, D2. split; [exact D1|]. lia.
Qed.
End Core.

(** * Output formats *)

Lemma relu_activated n t o x : (n = 8 \/ n = 16) -> 0 < q_scale o <= 32767 -> in_bits 8 (q_frac o) -> in_bits n (q_zp o) ->
  relu_frac_ok t o -> in_bits n x ->
  let '(lo, hi) := get_relu_limits n t o in
  activated n t (saval (q_scale o) (q_frac o) (q_zp o)) x (relu_clip x lo hi).
Proof.
  intros Hn Hs Hf Hz Hr Hx. pose proof (relu_clip_spec n t o x Hn Hs Hf Hz Hr Hx) as C.
  pose proof (fun u Hu => relu_limits_exact n t o u Hn Hs Hf Hz Hr Hu) as E.
  destruct (get_relu_limits n t o) as [lo hi]. destruct C as (C1 & C2 & C3 & C4).
  split; [auto|]. split; [auto|]. intros u Hu Hru. destruct (E u Hu) as (_ & _ & L & E1). apply E1 in Hru. rewrite C4. unfold clamp. lia.
Qed.

Lemma saval_fx f x : saval 1 f 0 x = fxval f x.
Proof. unfold saval, fxval. do 2 f_equal. ring. Qed.

Lemma activated_ext n t f h x v : (forall u, f u = h u) -> activated n t f x v -> activated n t h x v.
Proof. intros E (A & B & C). split; [auto|]. split; [now rewrite <- E|]. intros u Hu. rewrite <- E. auto. Qed.

Lemma fx_out rm full na nb no t N fin fw fb fout S b :
  (no = 8 \/ no = 16) -> 1 <= na -> 0 <= N ->
  fx_acc_ok na nb no N fin fw fb fout -> in_bits 8 fout -> (t = RELU_1 -> fout < 30) ->
  Z.abs S <= N * 2 ^ (na + nb - 2) -> in_bits nb b -> (nb = 16 -> no = 16) ->
  let '(lo, hi) := get_relu_limits no t (fx_qpar fout) in
  forall oc, fx_output rm no t (fin + fw) fout (S + b * 2 ^ (fin + fw - fb))
    (relu_clip (q_result rm full (fx_quant nb no fin fw fb fout) oc (q_bias_add rm full (fx_quant nb no fin fw fb fout) b S)) lo hi).
Proof.
  intros Hno Hna HN (Hnb & F1 & F2 & F3 & F4 & F5) If Hr1 HS Hb Hb16.
  cbv zeta in F4, F5. set (nacc := fx_acc_bits nb) in *.
  assert (Hnacc : (nb = 8 /\ nacc = 32) \/ (nb = 16 /\ nacc = 64)).
  { unfold nacc, fx_acc_bits. destruct Hnb as [-> | ->]; auto. }
  clearbody nacc.
  assert (Hal : align_bias rm (fin + fw) fb b = b * 2 ^ (fin + fw - fb)).
  { unfold align_bias. destruct (Z.leb_spec fb (fin + fw)); [reflexivity|clear - F1 H; lia]. }
  set (V := S + b * 2 ^ (fin + fw - fb)) in *.
  assert (Hbb : Z.abs (b * 2 ^ (fin + fw - fb)) <= 2 ^ (nb - 1 + (fin + fw - fb))).
  { clear - Hnb F1 Hb. rewrite pow2_split by (destruct Hnb; lia). rewrite Z.abs_mul, (Z.abs_eq (2 ^ (fin + fw - fb))) by (apply Z.lt_le_incl, pow2_gt0; lia).
    apply Z.mul_le_mono_nonneg_r; [apply Z.lt_le_incl, pow2_gt0; lia|]. pose proof (proj1 (in_bits_unfold _ _) Hb). lia. }
  assert (P0 : 0 < 2 ^ (nb - 1 + (fin + fw - fb))) by (clear - Hnb F1; apply pow2_gt0; lia).
  assert (P1 : 0 <= N * 2 ^ (na + nb - 2)) by (clear - HN Hna Hnb; apply Z.mul_nonneg_nonneg; auto; apply Z.pow_nonneg; lia).
  assert (HV : Z.abs V <= N * 2 ^ (na + nb - 2) + 2 ^ (nb - 1 + (fin + fw - fb))) by (unfold V; clear - Hbb HS; lia).
  generalize dependent (N * 2 ^ (na + nb - 2)). intros M1 F4 F5 HS P1 HV. generalize dependent (2 ^ (nb - 1 + (fin + fw - fb))). intros M2 Hbb P0 F4 F5 HV.
  assert (IS : in_bits nacc S) by (apply abs_in_bits; clear - F4 HS P0 Hnacc; lia).
  assert (IV : in_bits nacc V) by (apply abs_in_bits; clear - F4 HV Hnacc; lia).
  assert (IB : in_bits nacc (b * 2 ^ (fin + fw - fb))) by (apply abs_in_bits; clear - F4 Hbb P1 Hnacc; lia).
  assert (Eb : q_bias_add rm full (fx_quant nb no fin fw fb fout) b S = V).
  { unfold fx_quant. destruct Hnacc as [[E1 E2]|[E1 E2]]; rewrite E1 in *; cbn [Z.eqb Pos.eqb q_bias_add]; rewrite E2 in *.
    - rewrite bias_fx8_spec by auto. rewrite Hal. rewrite (sat_id 32 (b * _)) by auto. apply sat_id. exact IV.
    - rewrite bias_fx16_spec; auto; [rewrite Hal; apply sat_id; exact IV|]. apply bias_fx16_shift_ok; auto. }
  rewrite Eb.
  assert (Er : forall oc, q_result rm full (fx_quant nb no fin fw fb fout) oc V = sat no (rnd rm V (fin + fw - fout))).
  { intros oc. assert (X : result_cast_fx rm nacc no V (define_fx_params fin fw fb fout) = sat no (rnd rm V (fin + fw - fout))).
    { destruct (result_cast_fx_spec rm nacc no V fin fw fb fout) as [X _]; auto.
      - clear - Hno Hnacc; lia.
      - clear - Hno Hnacc; lia.
      - destruct F5 as [F5|F5]; [auto|left]. apply small_rnd_safe; clear - HV F5 Hnacc; lia.
      - rewrite X. unfold scale_rnd. destruct (Z.leb_spec 0 (fin + fw - fout)); [reflexivity|lia]. }
    unfold fx_quant. destruct Hnacc as [[E1 E2]|[E1 E2]]; rewrite E1 in *; cbn [Z.eqb Pos.eqb q_result]; rewrite E2 in X; [exact X|].
    rewrite (Hb16 eq_refl) in X |- *. exact X. }
  pose proof (relu_activated no t (fx_qpar fout) (sat no (rnd rm V (fin + fw - fout))) Hno) as A.
  cbn [q_scale q_frac q_zp fx_qpar] in A. specialize (A ltac:(lia) If).
  assert (I0 : in_bits no 0) by (apply in_bits_unfold; destruct Hno as [-> | ->]; lia).
  specialize (A I0).
  assert (RF : relu_frac_ok t (fx_qpar fout)). { destruct t; cbn; auto. right. lia. }
  specialize (A RF ltac:(apply sat_in_bits; clear - Hno; lia)).
  change (mkQ 1 fout 0) with (fx_qpar fout) in A. destruct (get_relu_limits no t (fx_qpar fout)) as [lo hi].
  intros oc. exists (rnd rm V (fin + fw - fout)). split; [apply rnd_nearest; lia|].
  rewrite Er. eapply activated_ext; [|exact A]. intros u. apply saval_fx.
Qed.

(** adjust_quant_params overwrites what an earlier call wrote. *)
Lemma adjust_s8_idem full p k k' : adjust_s8 full (adjust_s8 full p k) k' = adjust_s8 full p k'.
Proof. unfold adjust_s8. destruct full; reflexivity. Qed.

Lemma sa8_out rm t i o wdim wzp wsc wfr S b oc :
  qpar_ok i -> qpar_ok o -> 0 < wsc (wsel wdim oc) <= 32767 -> relu_frac_ok t o ->
  in_bits 32 b -> Z.abs S + Z.abs b <= smax 32 ->
  let q := Q_s8 (define_s8_params rm i o wdim wzp wsc wfr) in
  let '(lo, hi) := get_relu_limits 8 t o in
  sa8_output ((1 # 2) + (1 # 32)) t o (out_factor i o (wsc (wsel wdim oc)) (wfr (wsel wdim oc))) (S + b)
    (relu_clip (q_result rm true q oc (q_bias_add rm true q b S)) lo hi).
Proof.
  intros Hi Ho Hw Hr Hb HB q.
  assert (IS : in_bits 32 S) by (apply abs_in_bits; lia). assert (IV : in_bits 32 (S + b)) by (apply abs_in_bits; lia).
  cbn [q_bias_add q_result q]. rewrite bias_s8_full by auto. rewrite (sat_id 32 (S + b)) by auto.
  pose proof (result_cast_s8_full rm i o wdim wzp wsc wfr oc (S + b) Hi Ho Hw IV) as C. cbv zeta in C.
  set (r := result_cast_s8 rm true (S + b) (adjust_s8 true (define_s8_params rm i o wdim wzp wsc wfr) oc)) in *.
  assert (Ir : in_bits 8 r). { unfold r, result_cast_s8. apply wrap_in_bits. lia. }
  destruct Ho as (O1 & O2 & O3).
  pose proof (relu_activated 8 t o r ltac:(auto) O1 O2 O3 Hr Ir) as A.
  destruct (get_relu_limits 8 t o) as [lo hi]. exists r. auto.
Qed.
