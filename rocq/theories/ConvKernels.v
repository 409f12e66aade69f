(** The convolution kernels on tensors (properties C30 - C34). *)
From Coq Require Import ZArith List Lia Bool QArith Qabs.
From Verif Require Import Base FxMath FxMathProofs Tensor TensorProofs MovProofs QSpec Quant QuantProofs QuantCastProofs
  DotProd DotProdProofs ArgMax Permute PermuteProofs Layout PoolProofs PoolKernels Conv ConvSpec ConvProofs ConvValues.
Import ListNotations.
Open Scope Z_scope.

(** * What the checkers guarantee *)

(** An accepted HWCN tensor and an accepted vector. *)
Lemma chk_hwcn t : chk_tensor t = ST_OK -> fits32 t -> t_rank t = 4 -> inner_stride_is_one t = true ->
  exists h w d n sr sc sd, t_shape t = [h; w; d; n] /\ t_stride t = [sr; sc; sd; 1] /\ 0 < h /\ 0 < w /\ 0 < d /\ 0 < n.
Proof.
  intros C F R I. destruct (chk_tensor_pos t C (proj1 F)) as (_ & P & _). destruct F as [L _].
  unfold t_rank in R. destruct (t_shape t) as [|h [|w [|d [|n [|]]]]] eqn:Es; cbn [length] in R; try lia.
  destruct (t_stride t) as [|sr [|sc [|sd [|s [|]]]]] eqn:Et; cbn [length] in L; try lia.
  unfold inner_stride_is_one in I. rewrite Es, Et in I. cbn in I. apply Z.eqb_eq in I. subst s.
  inversion P as [|? ? P1 P']; subst. inversion P' as [|? ? P2 P'']; subst. inversion P'' as [|? ? P3 P3']; subst. inversion P3' as [|? ? P4 _]; subst.
  exists h, w, d, n, sr, sc, sd. auto 10.
Qed.

Lemma chk_vec t : chk_tensor t = ST_OK -> fits32 t -> t_rank t = 1 -> inner_stride_is_one t = true ->
  exists n, t_shape t = [n] /\ t_stride t = [1] /\ 0 < n.
Proof.
  intros C F R I. destruct (chk_tensor_pos t C (proj1 F)) as (_ & P & _). destruct F as [L _].
  unfold t_rank in R. destruct (t_shape t) as [|n [|]] eqn:Es; cbn [length] in R; try lia.
  destruct (t_stride t) as [|s [|]] eqn:Et; cbn [length] in L; try lia.
  unfold inner_stride_is_one in I. rewrite Es, Et in I. cbn in I. apply Z.eqb_eq in I. subst s.
  inversion P as [|? ? P1 P']; subst. exists n. auto.
Qed.

(** The arithmetic of the checker does not wrap: 8-bit parameters (include/mli_types.h:259-271), heights and
    widths up to 2^22. *)
Definition conv_fits (tin tw tout : tensor) (c : conv_cfg) : Prop :=
  in_ubits 8 (cv_sw c) /\ in_ubits 8 (cv_sh c) /\ in_ubits 8 (cv_left c) /\ in_ubits 8 (cv_right c)
  /\ in_ubits 8 (cv_top c) /\ in_ubits 8 (cv_bottom c) /\ in_ubits 8 (cv_dw c) /\ in_ubits 8 (cv_dh c)
  /\ (forall t, t = tin \/ t = tw \/ t = tout -> dim t 0 <= 2 ^ 22 /\ dim t 1 <= 2 ^ 22).

(** One axis: [n] outputs with stride [s] of a [k]-tap kernel with dilation [d] over [x] inputs with [b]
    padding before and [a] padding after. *)
Definition chk_axis (n x k s d b a : Z) : Prop :=
  0 < d /\ 0 < s /\ 0 <= b /\ b < (k - 1) * d + 1 /\ a < (k - 1) * d + 1 /\ (n - 1) * s + ((k - 1) * d + 1) <= x + b + a.

Lemma chk_conv_spec chan tin tw tb tout c fixed :
  chk_conv_with chan tin tw tb tout c fixed = ST_OK -> conv_fits tin tw tout c ->
  fits32 tin -> fits32 tw -> fits32 tb -> fits32 tout ->
  chan = true /\ (chk_tensor tin = ST_OK /\ chk_tensor tw = ST_OK /\ chk_tensor tb = ST_OK /\ chk_tensor tout = ST_OK)
  /\ (exists h w ch sr sc, t_shape tin = [h; w; ch] /\ t_stride tin = [sr; sc; 1] /\ 0 < h /\ 0 < w /\ 0 < ch)
  /\ (exists h w d n sr sc sd, t_shape tw = [h; w; d; n] /\ t_stride tw = [sr; sc; sd; 1] /\ 0 < h /\ 0 < w /\ 0 < d /\ 0 < n)
  /\ (exists n, t_shape tb = [n] /\ t_stride tb = [1] /\ 0 < n)
  /\ (exists h w ch sr sc, t_shape tout = [h; w; ch] /\ t_stride tout = [sr; sc; 1] /\ 0 < h /\ 0 < w /\ 0 < ch)
  /\ chk_axis (dim tout 0) (dim tin 0) (dim tw 0) (cv_sh c) (cv_dh c) (cv_top c) (cv_bottom c)
  /\ chk_axis (dim tout 1) (dim tin 1) (dim tw 1) (cv_sw c) (cv_dw c) (cv_left c) (cv_right c)
  /\ (fixed <> 0 -> dim tw 0 = fixed /\ dim tw 1 = fixed).
Proof.
  intros K Hf Fi Fw Fb Fo. unfold chk_conv_with in K.
  destruct (negb (fixed =? 0) && negb ((nth 0 (t_shape tw) 0 =? fixed) && (nth 1 (t_shape tw) 0 =? fixed))) eqn:K0; [discriminate|].
  destruct (chk_tensor tin) eqn:Ci; try discriminate. destruct (chk_tensor tw) eqn:Cw; try discriminate.
  destruct (chk_tensor tb) eqn:Cb; try discriminate. destruct (chk_tensor tout) eqn:Co; try discriminate.
  match type of K with (if negb ?b then _ else _) = _ => destruct b eqn:Kr; cbn [negb] in K; [|discriminate] end.
  match type of K with (if negb ?b then _ else _) = _ => destruct b eqn:Ki; cbn [negb] in K; [|discriminate] end.
  match type of K with (if negb ?b then _ else _) = _ => destruct b eqn:Kc; cbn [negb] in K; [|discriminate] end.
  repeat (apply andb_true_iff in Kr; let X := fresh "R" in destruct Kr as [Kr X]).
  repeat (apply andb_true_iff in Ki; let X := fresh "I" in destruct Ki as [Ki X]).
  apply Z.eqb_eq in Kr, R2, R1, R0.
  destruct (chk_hwc tin Ci Fi Kr Ki) as (h & w & ch & sr & sc & Es & Et & P1 & P2 & P3).
  destruct (chk_hwcn tw Cw Fw R1 I1) as (kh & kw & kd & kn & wr & wc & wd & Es1 & Et1 & Q1 & Q2 & Q3 & Q4).
  destruct (chk_vec tb Cb Fb R0 I0) as (n & Es2 & Et2 & V1).
  destruct (chk_hwc tout Co Fo R2 I) as (h' & w' & ch' & sr' & sc' & Es' & Et' & P1' & P2' & P3').
  split; [auto|]. split; [auto|]. split; [exists h, w, ch, sr, sc; auto|]. split; [exists kh, kw, kd, kn, wr, wc, wd; auto 10|].
  split; [exists n; auto|]. split; [exists h', w', ch', sr', sc'; auto|].
  destruct Hf as (U1 & U2 & U3 & U4 & U5 & U6 & U7 & U8 & U9).
  destruct (U9 tin ltac:(auto)) as [D1 D2]. destruct (U9 tw ltac:(auto)) as [D3 D4]. destruct (U9 tout ltac:(auto)) as [D5 D6].
  unfold in_ubits in *. change (2 ^ 8) with 256 in *. change (2 ^ 22) with 4194304 in *.
  unfold dim in *. unfold chk_conv_cfg in Kc. rewrite Es, Es1, Es' in *. cbn [nth] in *. cbv zeta in Kc.
  repeat (apply andb_true_iff in Kc; let X := fresh "C" in destruct Kc as [Kc X]).
  apply Z.gtb_lt in Kc, C2, C1, C7. apply Z.ltb_lt in C6, C5, C4, C3. apply Z.leb_le in C0, C.
  assert (W1 : 0 <= (kw - 1) * cv_dw c <= 4194304 * 255).
  { split; [apply Z.mul_nonneg_nonneg; lia|]. apply Z.mul_le_mono_nonneg; lia. }
  assert (W2 : 0 <= (kh - 1) * cv_dh c <= 4194304 * 255).
  { split; [apply Z.mul_nonneg_nonneg; lia|]. apply Z.mul_le_mono_nonneg; lia. }
  assert (W3 : 0 <= (w' - 1) * cv_sw c <= 4194304 * 255).
  { split; [apply Z.mul_nonneg_nonneg; lia|]. apply Z.mul_le_mono_nonneg; lia. }
  assert (W4 : 0 <= (h' - 1) * cv_sh c <= 4194304 * 255).
  { split; [apply Z.mul_nonneg_nonneg; lia|]. apply Z.mul_le_mono_nonneg; lia. }
  replace (w' * cv_sw c + wrap 32 ((kw - 1) * cv_dw c + 1) - cv_sw c) with ((w' - 1) * cv_sw c + wrap 32 ((kw - 1) * cv_dw c + 1)) in C by ring.
  replace (h' * cv_sh c + wrap 32 ((kh - 1) * cv_dh c + 1) - cv_sh c) with ((h' - 1) * cv_sh c + wrap 32 ((kh - 1) * cv_dh c + 1)) in C0 by ring.
  rewrite !(wrap32_small ((kw - 1) * cv_dw c + 1)) in * by (clear - W1; lia).
  rewrite !(wrap32_small ((kh - 1) * cv_dh c + 1)) in * by (clear - W2; lia).
  rewrite !wrap32_small in C by (clear - W1 W3 U3 U4 P2 D2; lia).
  rewrite !wrap32_small in C0 by (clear - W2 W4 U5 U6 P1 D1; lia).
  split; [unfold chk_axis; clear - C0 C1 C2 C3 C4 Kc U5; lia|]. split; [unfold chk_axis; clear - C C1 C7 C5 C6 U3; lia|].
  intros Hx. destruct (Z.eqb_spec fixed 0); [lia|]. cbn [negb andb] in K0. apply negb_false_iff in K0. apply andb_true_iff in K0.
  destruct K0 as [K1 K2]. apply Z.eqb_eq in K1, K2. auto.
Qed.

(** * From the private tensors to the tensors *)

(** [w] describes the HWCN tensor [tw]. *)
Definition wlike (tw : tensor) (w : wtensor) : Prop :=
  w_ptr w = t_data tw /\ w_kh w = dim tw 0 /\ w_kw w = dim tw 1 /\ w_row w = nth 0 (t_stride tw) 0 /\ w_col w = nth 1 (t_stride tw) 0
  /\ w_ins w = nth 2 (t_stride tw) 0 /\ w_outs w = 1.

Lemma wlike_hwcn tw fixed : (fixed <> 0 -> dim tw 0 = fixed /\ dim tw 1 = fixed) -> wlike tw (get_weights_hwcn tw fixed).
Proof.
  intros F. unfold wlike, get_weights_hwcn, dim in *. cbn [w_ptr w_kh w_kw w_row w_col w_ins w_outs].
  destruct (Z.eqb_spec fixed 0); cbn [negb]; [auto 10|]. destruct (F n). auto 10.
Qed.
Lemma wlike_hw1n tw fixed : (fixed <> 0 -> dim tw 0 = fixed /\ dim tw 1 = fixed) -> wlike tw (get_weights_hw1n tw fixed).
Proof.
  intros F. unfold wlike, get_weights_hw1n, dim in *. cbn [w_ptr w_kh w_kw w_row w_col w_ins w_outs].
  destruct (Z.eqb_spec fixed 0); cbn [negb]; [auto 10|]. destruct (F n). auto 10.
Qed.

Lemma taps_sizes nh nw nh' nw' kh kw r0 c0 dh dw F G :
  (forall kr, 0 <= kr < kh -> (r0 + kr * dh < nh <-> r0 + kr * dh < nh')) ->
  (forall kc, 0 <= kc < kw -> (c0 + kc * dw < nw <-> c0 + kc * dw < nw')) ->
  taps nh nw kh kw r0 c0 dh dw F G = taps nh' nw' kh kw r0 c0 dh dw F G.
Proof.
  intros Hr Hc. unfold taps. apply zsum_ext. intros kr Kr. apply zsum_ext. intros kc Kc.
  assert (E : inside nh nw (r0 + kr * dh) (c0 + kc * dw) = inside nh' nw' (r0 + kr * dh) (c0 + kc * dw)).
  { apply eq_true_iff_eq. rewrite !inside_spec. specialize (Hr kr Kr). specialize (Hc kc Kc). tauto. }
  now rewrite E.
Qed.

(** The used part of an axis (mli_krn_convolution_ref.h:397-408). *)
Definition used (n x k s d b : Z) : Z :=
  let p := (n * s + ((k - 1) * d + 1) - s) - x - b in if p <? 0 then x + p else x.

Lemma used_ok n x k s d b a H : chk_axis n x k s d b a -> 0 < x -> 0 < k -> 0 <= H < n ->
  axis_ok (H * s - b) k d (used n x k s d b) /\ used n x k s d b <= x
  /\ (forall kr, 0 <= kr < k -> (H * s - b + kr * d < used n x k s d b <-> H * s - b + kr * d < x)).
Proof.
  intros (A1 & A2 & A3 & A4 & A5 & A6) Hx Hk HH.
  assert (M1 : H * s <= (n - 1) * s) by (apply Z.mul_le_mono_nonneg_r; lia).
  assert (M0 : 0 <= H * s) by (apply Z.mul_nonneg_nonneg; lia).
  assert (M3 : 0 <= (k - 1) * d) by (apply Z.mul_nonneg_nonneg; lia).
  assert (E : n * s + ((k - 1) * d + 1) - s = (n - 1) * s + ((k - 1) * d + 1)) by ring.
  unfold used. rewrite E. cbv zeta. destruct (Z.ltb_spec ((n - 1) * s + ((k - 1) * d + 1) - x - b) 0).
  - split; [unfold axis_ok; clear - A1 A4 M1 M0 M3 Hk H0; lia|]. split; [lia|]. intros kr Hkr.
    assert (M2 : kr * d <= (k - 1) * d) by (apply Z.mul_le_mono_nonneg_r; lia). lia.
  - split; [unfold axis_ok; clear - A1 A4 A5 A6 M1 M0 M3 Hk H0 Hx; lia|]. split; [lia|]. tauto.
Qed.

Section Setup.
Context (chan : bool) (mi mw mb m : mem) (tin tw tb tout : tensor) (c : conv_cfg) (fixed : Z) (w : wtensor).
Context (Hchk : chk_conv_with chan tin tw tb tout c fixed = ST_OK) (Hf : conv_fits tin tw tout c).
Context (Fi : fits32 tin) (Fw : fits32 tw) (Fb : fits32 tb) (Fo : fits32 tout).
Context (Bi : backed tin mi) (Bw : backed tw mw) (Bb : backed tb mb) (Bo : backed tout m) (Hw : wlike tw w).

Let g := conv_geom c fixed.
Let o := get_tensor_hwc tout.
Let i := conv_shrink (get_tensor_hwc tin) o w g.

Lemma setup_pos : 0 < dim tin 2 /\ 0 < dim tw 0 /\ 0 < dim tw 1 /\ 0 < dim tw 2 /\ 0 < dim tw 3 /\ 0 < dim tout 2.
Proof.
  destruct (chk_conv_spec _ _ _ _ _ _ _ Hchk Hf Fi Fw Fb Fo) as (_ & _ & (h & ww & ch & sr & sc & Es & _ & P)
    & (kh & kw & kd & kn & wr & wc & wd & Es1 & _ & Q) & _ & (h' & w' & ch' & sr' & sc' & Es' & _ & P') & _).
  unfold dim. rewrite Es, Es1, Es'. cbn [nth]. lia.
Qed.

Lemma setup_geom : g = mkG (cv_sh c) (cv_sw c) (cv_dh c) (cv_dw c) (cv_top c) (cv_left c).
Proof.
  destruct (chk_conv_spec _ _ _ _ _ _ _ Hchk Hf Fi Fw Fb Fo) as (_ & _ & _ & _ & _ & _ & X1 & X2 & X3).
  unfold g, conv_geom. destruct (Z.eqb_spec fixed 1) as [->|]; [|reflexivity].
  destruct (X3 ltac:(lia)) as [K1 K2]. rewrite K1 in X1. rewrite K2 in X2. unfold chk_axis in *. f_equal; lia.
Qed.

Lemma setup_in : i = mkP (t_data tin) (used (dim tout 1) (dim tin 1) (dim tw 1) (cv_sw c) (cv_dw c) (cv_left c))
  (used (dim tout 0) (dim tin 0) (dim tw 0) (cv_sh c) (cv_dh c) (cv_top c)) (dim tin 2) (nth 1 (t_stride tin) 0) (nth 0 (t_stride tin) 0) 1.
Proof.
  unfold i. rewrite setup_geom. destruct Hw as (_ & K1 & K2 & _). unfold conv_shrink. rewrite K1, K2. reflexivity.
Qed.

Lemma setup_window H W : 0 <= H < dim tout 0 -> 0 <= W < dim tout 1 ->
  axis_ok (H * g_sh g - g_pt g) (w_kh w) (g_dh g) (p_h i) /\ axis_ok (W * g_sw g - g_pl g) (w_kw w) (g_dw g) (p_w i)
  /\ (forall F G, ptaps i w g H W F G = conv_taps tin tw c H W F G)
  /\ (forall kr, tr g H kr = tap_r c H kr) /\ (forall kc, tc g W kc = tap_c c W kc).
Proof.
  intros HH HW.
  destruct (chk_conv_spec _ _ _ _ _ _ _ Hchk Hf Fi Fw Fb Fo) as (_ & _ & (h & ww & ch & sr & sc & Es & Et & P1 & P2 & P3)
    & (kh & kw & kd & kn & wr & wc & wd & Es1 & Et1 & Q1 & Q2 & Q3 & Q4) & _ & _ & X1 & X2 & _).
  assert (Ih : 0 < dim tin 0) by (unfold dim; rewrite Es; exact P1).
  assert (Iw : 0 < dim tin 1) by (unfold dim; rewrite Es; exact P2).
  assert (Kh : 0 < dim tw 0) by (unfold dim; rewrite Es1; exact Q1).
  assert (Kw : 0 < dim tw 1) by (unfold dim; rewrite Es1; exact Q2).
  destruct (used_ok _ _ _ _ _ _ _ H X1 Ih Kh HH) as (A1 & A2 & A3).
  destruct (used_ok _ _ _ _ _ _ _ W X2 Iw Kw HW) as (B1 & B2 & B3).
  rewrite setup_in, setup_geom. destruct Hw as (_ & K1 & K2 & _).
  cbn [p_h p_w g_sh g_sw g_pt g_pl g_dh g_dw]. rewrite K1, K2. split; [exact A1|]. split; [exact B1|].
  split; [|split; reflexivity]. intros F G. unfold ptaps, conv_taps. cbn [p_h p_w g_sh g_sw g_pt g_pl g_dh g_dw]. rewrite K1, K2.
  apply taps_sizes; auto.
Qed.

Lemma setup_sizes : p_ch i = dim tin 2 /\ p_h i <= dim tin 0 /\ p_w i <= dim tin 1.
Proof.
  destruct (chk_conv_spec _ _ _ _ _ _ _ Hchk Hf Fi Fw Fb Fo) as (_ & _ & (h & ww & ch & sr & sc & Es & Et & P1 & P2 & P3)
    & (kh & kw & kd & kn & wr & wc & wd & Es1 & Et1 & Q1 & Q2 & Q3 & Q4) & _ & (h' & w' & ch' & sr' & sc' & Es' & _ & P1' & P2' & _) & X1 & X2 & _).
  rewrite setup_in. cbn [p_ch p_h p_w]. split; [reflexivity|].
  unfold dim in *. rewrite Es, Es1, Es' in *. cbn [nth] in *.
  split; [apply (used_ok _ _ _ _ _ _ _ 0 X1); lia|apply (used_ok _ _ _ _ _ _ _ 0 X2); lia].
Qed.

Lemma setup_ia r cl ch : ia i r cl ch = t_data tin + addr (t_stride tin) [r; cl; ch].
Proof.
  destruct (chk_conv_spec _ _ _ _ _ _ _ Hchk Hf Fi Fw Fb Fo) as (_ & _ & (h & ww & ic & sr & sc & Es & Et & _) & _).
  rewrite setup_in. unfold ia. cbn [p_ptr p_row p_col p_chs]. rewrite Et. cbn [nth addr]. ring.
Qed.

Lemma setup_wa kr kc ic oc : wa w kr kc ic oc = t_data tw + addr (t_stride tw) [kr; kc; ic; oc].
Proof.
  destruct (chk_conv_spec _ _ _ _ _ _ _ Hchk Hf Fi Fw Fb Fo) as (_ & _ & _ & (kh & kw & kd & kn & wr & wc & wd & Es1 & Et1 & _) & _).
  destruct Hw as (K1 & _ & _ & K2 & K3 & K4 & K5). unfold wa. rewrite K1, K2, K3, K4, K5, Et1. cbn [nth addr]. ring.
Qed.

Lemma setup_ai r cl ch : 0 <= r < p_h i -> 0 <= cl < p_w i -> 0 <= ch < dim tin 2 -> allocated mi (ia i r cl ch).
Proof.
  intros Hr Hc Hch. rewrite setup_ia. destruct setup_sizes as (_ & S1 & S2).
  destruct (chk_conv_spec _ _ _ _ _ _ _ Hchk Hf Fi Fw Fb Fo) as (_ & (Ci & _) & (h & ww & ic & sr & sc & Es & Et & _) & _).
  apply (chk_backed tin mi Fi Ci Bi). unfold dim in *. rewrite Es in *. cbn [nth valid] in *. lia.
Qed.

Lemma setup_aw kr kc ic oc : 0 <= kr < w_kh w -> 0 <= kc < w_kw w -> 0 <= ic < dim tw 2 -> 0 <= oc < dim tw 3 -> allocated mw (wa w kr kc ic oc).
Proof.
  intros Hr Hc Hi Ho. rewrite setup_wa. destruct Hw as (_ & K1 & K2 & _). rewrite K1 in Hr. rewrite K2 in Hc.
  destruct (chk_conv_spec _ _ _ _ _ _ _ Hchk Hf Fi Fw Fb Fo) as (_ & (_ & Cw & _) & _ & (kh & kw & kd & kn & wr & wc & wd & Es1 & Et1 & _) & _).
  apply (chk_backed tw mw Fw Cw Bw). unfold dim in *. rewrite Es1 in *. cbn [nth valid] in *. lia.
Qed.

Lemma setup_bias k : rd mb (t_data tb + k) = at1 mb tb k /\ (0 <= k < dim tb 0 -> allocated mb (t_data tb + k)).
Proof.
  destruct (chk_conv_spec _ _ _ _ _ _ _ Hchk Hf Fi Fw Fb Fo) as (_ & (_ & _ & Cb & _) & _ & _ & (n & Es & Et & _) & _).
  pose proof (chk_backed tb mb Fb Cb Bb [k]) as A. unfold at1, dim. rewrite Es, Et in *. cbn [nth addr valid] in *.
  replace (t_data tb + (1 * k + 0)) with (t_data tb + k) in * by ring. split; [reflexivity|]. intros. apply A. lia.
Qed.

Lemma setup_out (value : Z -> Z -> Z -> option Z) :
  (forall H W oc, 0 <= H < dim tout 0 -> 0 <= W < dim tout 1 -> 0 <= oc < dim tout 2 -> exists v, value H W oc = Some v) ->
  exists m', out_loops value o (dim tout 0) (dim tout 1) (dim tout 2) m = Some m'
    /\ (forall H W oc, valid (t_shape tout) [H; W; oc] ->
          0 <= H < dim tout 0 /\ 0 <= W < dim tout 1 /\ 0 <= oc < dim tout 2 /\ hwc_elem m' tout H W oc = value H W oc)
    /\ frame_ok tout m m'.
Proof.
  intros HV.
  destruct (chk_conv_spec _ _ _ _ _ _ _ Hchk Hf Fi Fw Fb Fo) as (_ & (_ & _ & _ & Co) & _ & _ & _ & (h & ww & ch & sr & sc & Es & Et & P1 & P2 & P3) & _).
  assert (Oa : forall H W k, p_ptr o + p_row o * H + p_col o * W + p_chs o * k = t_data tout + addr (t_stride tout) [H; W; k]).
  { intros. unfold o, get_tensor_hwc. cbn [p_ptr p_row p_col p_chs]. rewrite Et. cbn [nth addr]. ring. }
  assert (Dom : forall H W k, 0 <= H < dim tout 0 /\ 0 <= W < dim tout 1 /\ 0 <= k < dim tout 2 <-> valid (t_shape tout) [H; W; k]).
  { intros. unfold dim. rewrite Es. cbn [nth valid]. tauto. }
  destruct (out_loops_ok value o (dim tout 0) (dim tout 1) (dim tout 2) m) as (m' & E & V & F).
  - unfold dim. rewrite Es. cbn [nth]. lia.
  - unfold dim. rewrite Es. cbn [nth]. lia.
  - unfold dim. rewrite Es. cbn [nth]. lia.
  - intros a1 a2 a3 b1 b2 b3 Da Db E. rewrite !Oa in E. destruct (chk_tensor_nested tout Fo Co) as [N _].
    assert (E2 : [a1; a2; a3] = [b1; b2; b3]) by (eapply nested_inj; [exact N|now apply Dom|now apply Dom|lia]).
    injection E2. auto.
  - intros a1 a2 a3 D. rewrite Oa. apply (chk_backed tout m Fo Co Bo). now apply Dom.
  - intros a1 a2 a3 (D1 & D2 & D3). auto.
  - exists m'. split; [exact E|]. split.
    + intros H W k Vd. apply Dom in Vd. destruct Vd as (D1 & D2 & D3). do 3 (split; [auto|]). unfold hwc_elem, hwc_addr. rewrite <- Oa. apply V; auto.
    + intros a Ha. apply F. intros H W k D. rewrite Oa. intros X. apply (Ha [H; W; k]); [now apply Dom|auto].
Qed.
End Setup.

(** * Generic kernel theorems *)

(** What a kernel computed: every output element is the clipped result of the exact sum [S] plus bias. *)
Definition computes (rm : rmode) (full : bool) (q : quant) (no : Z) (oq : qpar) (t : relu_type) (bound : Z)
    (S : Z -> Z -> Z -> Z) (bias : Z -> Z) (tout : tensor) (m m' : mem) : Prop :=
  (forall H W oc, valid (t_shape tout) [H; W; oc] ->
     Z.abs (S H W oc) <= bound
     /\ hwc_elem m' tout H W oc = Some (let '(lo, hi) := get_relu_limits no t oq in
          relu_clip (q_result rm full q oc (q_bias_add rm full q (bias oc) (S H W oc))) lo hi))
  /\ frame_ok tout m m'.

Lemma conv2d_run rm full q no oq fixed mi mw mb m tin tw tb tout c c1 c2 :
  chk_conv2d tin tw tb tout c fixed = ST_OK -> conv_fits tin tw tout c ->
  fits32 tin -> fits32 tw -> fits32 tb -> fits32 tout -> backed tin mi -> backed tw mw -> backed tb mb -> backed tout m ->
  0 <= c1 -> 0 <= c2 -> q_biased q -> q_zw q = 0 -> Z.abs (q_zi q) <= 32767 ->
  (forall a b, Z.abs (rd mi a * rd mw b) <= c1) -> (forall a, Z.abs (q_zi q * rd mw a) <= c2) ->
  dim tin 2 * dim tw 0 * dim tw 1 * (c1 + c2) <= smax (acc_bits q) ->
  exists m', conv2d rm full q no oq fixed mi mw (Some (mb, t_data tb)) tin tw tout c m = Some m'
    /\ computes rm full q no oq (cv_relu c) (dim tin 2 * dim tw 0 * dim tw 1 * (c1 + c2))
         (conv_sum mi mw tin tw c (q_zi q) 0) (at1 mb tb) tout m m'.
Proof.
  intros Hchk Hf Fi Fw Fb Fo Bi Bw Bb Bo Hc1 Hc2 Hq Hzw Hzi Hp Hpz HB. unfold chk_conv2d in Hchk.
  destruct (chk_conv_spec _ _ _ _ _ _ _ Hchk Hf Fi Fw Fb Fo) as (Ch & _ & _ & _ & _ & _ & _ & _ & Hx).
  repeat (apply andb_true_iff in Ch; let X := fresh "Ch" in destruct Ch as [Ch X]). apply Z.eqb_eq in Ch, Ch1, Ch0.
  change (dim tin 2 = dim tw 2) in Ch. change (dim tout 2 = dim tw 3) in Ch1. change (dim tb 0 = dim tw 3) in Ch0.
  set (w := get_weights_hwcn tw fixed). assert (Hw : wlike tw w) by (apply wlike_hwcn; auto).
  destruct (setup_sizes _ _ _ _ _ _ _ _ Hchk Hf Fi Fw Fb Fo Hw) as (Ec & Sh & Sw).
  destruct (setup_pos _ _ _ _ _ _ _ Hchk Hf Fi Fw Fb Fo) as (D1 & D2 & D3 & D4 & D5 & D6).
  pose proof Hw as (_ & Kh & Kw & _).
  unfold conv2d, computes. destruct (get_relu_limits no (cv_relu c) oq) as [lo hi]. fold w.
  set (g := conv_geom c fixed) in *. set (o := get_tensor_hwc tout) in *. set (i := conv_shrink (get_tensor_hwc tin) o w g) in *.
  assert (V : forall H W oc, 0 <= H < dim tout 0 -> 0 <= W < dim tout 1 -> 0 <= oc < dim tout 2 ->
    Z.abs (conv_sum mi mw tin tw c (q_zi q) 0 H W oc) <= dim tin 2 * dim tw 0 * dim tw 1 * (c1 + c2) /\
    conv_value rm full q lo hi mi mw (Some (mb, t_data tb)) i w w g H W oc
    = Some (relu_clip (q_result rm full q oc (q_bias_add rm full q (at1 mb tb oc) (conv_sum mi mw tin tw c (q_zi q) 0 H W oc))) lo hi)).
  { intros H W oc HH HW HO.
    destruct (setup_window _ _ _ _ _ _ _ _ Hchk Hf Fi Fw Fb Fo Hw H W HH HW) as (A1 & A2 & T & Tr & Tc).
    fold g o i in A1, A2, T, Tr, Tc.
    destruct (setup_bias _ _ _ _ _ _ _ _ Hchk Hf Fi Fw Fb Fo Bb oc) as [Eb Ab].
    destruct (conv_value_ok rm full q lo hi mi mw mb (t_data tb) i w g H W A1 A2 c1 c2 Hc1 Hc2 Hq Hzw Hzi Hp Hpz w oc) as [E1 E2].
    - lia.
    - rewrite Ec, Kh, Kw. exact HB.
    - intros r cl ic Hr Hcl Hic. apply (setup_ai _ _ _ _ _ _ _ _ _ Hchk Hf Fi Fw Fb Fo Bi Hw); auto; lia.
    - intros kr kc ic Hr Hcl Hic. apply (setup_aw _ _ _ _ _ _ _ _ _ Hchk Hf Fi Fw Fb Fo Bw Hw); auto; lia.
    - apply Ab. lia.
    - assert (ES : psum q mi mw i w g H W 0 (p_ch i) oc = conv_sum mi mw tin tw c (q_zi q) 0 H W oc).
      { unfold psum, conv_sum. rewrite T. unfold conv_taps. apply taps_ext; [|reflexivity]. intros kr kc _ _ _. rewrite Ec. apply zsum_ext. intros ic _.
        rewrite Tr, Tc. unfold at3, at4. rewrite <- (setup_wa _ _ _ _ _ _ _ _ Hchk Hf Fi Fw Fb Fo Hw).
        rewrite <- (setup_ia _ _ _ _ _ _ _ _ Hchk Hf Fi Fw Fb Fo Hw). fold g o i. rewrite Z.sub_0_r, Z.add_0_l. reflexivity. }
      rewrite ES, Eb in *. rewrite Ec, Kh, Kw in E2. auto. }
  destruct (setup_out _ m _ _ _ _ _ _ Hchk Hf Fi Fw Fb Fo Bo (conv_value rm full q lo hi mi mw (Some (mb, t_data tb)) i w w g)) as (m' & E & E1 & E2).
  { intros H W oc HH HW HO. destruct (V H W oc HH HW HO) as [_ X]. eauto. }
  exists m'. split; [exact E|]. split; [|exact E2]. intros H W oc Hv. destruct (E1 H W oc Hv) as (HH & HW & HO & X).
  destruct (V H W oc HH HW HO) as [V1 V2]. rewrite X. auto.
Qed.

Lemma depthwise_run rm full q no oq fixed mi mw mb m tin tw tb tout c c1 c2 :
  chk_depthwise tin tw tb tout c fixed = ST_OK -> conv_fits tin tw tout c ->
  fits32 tin -> fits32 tw -> fits32 tb -> fits32 tout -> backed tin mi -> backed tw mw -> backed tb mb -> backed tout m ->
  0 <= c1 -> 0 <= c2 -> q_biased q -> q_zw q = 0 -> Z.abs (q_zi q) <= 32767 ->
  (forall a b, Z.abs (rd mi a * rd mw b) <= c1) -> (forall a, Z.abs (q_zi q * rd mw a) <= c2) ->
  dim tw 0 * dim tw 1 * (c1 + c2) <= smax (acc_bits q) ->
  exists m', depthwise_conv2d rm full q no oq fixed mi mw (Some (mb, t_data tb)) tin tw tout c m = Some m'
    /\ computes rm full q no oq (cv_relu c) (dim tw 0 * dim tw 1 * (c1 + c2))
         (depthwise_sum mi mw tin tw c (q_zi q) 0) (at1 mb tb) tout m m'.
Proof.
  intros Hchk Hf Fi Fw Fb Fo Bi Bw Bb Bo Hc1 Hc2 Hq Hzw Hzi Hp Hpz HB. unfold chk_depthwise in Hchk.
  destruct (chk_conv_spec _ _ _ _ _ _ _ Hchk Hf Fi Fw Fb Fo) as (Ch & _ & _ & _ & _ & _ & _ & _ & Hx).
  repeat (apply andb_true_iff in Ch; let X := fresh "Ch" in destruct Ch as [Ch X]). apply Z.eqb_eq in Ch, Ch1, Ch0, Ch2.
  change (dim tw 2 = 1) in Ch. change (dim tw 3 = dim tout 2) in Ch0. change (dim tw 3 = dim tin 2) in Ch1. change (dim tb 0 = dim tw 3) in Ch2.
  set (w := get_weights_hw1n tw fixed). assert (Hw : wlike tw w) by (apply wlike_hw1n; auto).
  destruct (setup_sizes _ _ _ _ _ _ _ _ Hchk Hf Fi Fw Fb Fo Hw) as (Ec & Sh & Sw).
  destruct (setup_pos _ _ _ _ _ _ _ Hchk Hf Fi Fw Fb Fo) as (D1 & D2 & D3 & D4 & D5 & D6).
  pose proof Hw as (_ & Kh & Kw & _).
  unfold depthwise_conv2d, computes. destruct (get_relu_limits no (cv_relu c) oq) as [lo hi]. fold w.
  set (g := conv_geom c fixed) in *. set (o := get_tensor_hwc tout) in *. set (i := conv_shrink (get_tensor_hwc tin) o w g) in *.
  assert (V : forall H W oc, 0 <= H < dim tout 0 -> 0 <= W < dim tout 1 -> 0 <= oc < dim tout 2 ->
    Z.abs (depthwise_sum mi mw tin tw c (q_zi q) 0 H W oc) <= dim tw 0 * dim tw 1 * (c1 + c2) /\
    depthwise_value rm full q lo hi mi mw (Some (mb, t_data tb)) i w g H W oc
    = Some (relu_clip (q_result rm full q oc (q_bias_add rm full q (at1 mb tb oc) (depthwise_sum mi mw tin tw c (q_zi q) 0 H W oc))) lo hi)).
  { intros H W oc HH HW HO.
    destruct (setup_window _ _ _ _ _ _ _ _ Hchk Hf Fi Fw Fb Fo Hw H W HH HW) as (A1 & A2 & T & Tr & Tc).
    fold g o i in A1, A2, T, Tr, Tc.
    destruct (setup_bias _ _ _ _ _ _ _ _ Hchk Hf Fi Fw Fb Fo Bb oc) as [Eb Ab].
    destruct (depthwise_value_ok rm full q lo hi mi mw mb (t_data tb) i w g H W A1 A2 c1 c2 Hc1 Hc2 Hq Hzw Hzi Hp Hpz oc) as [E1 E2].
    - rewrite Kh, Kw. exact HB.
    - intros r cl Hr Hcl. apply (setup_ai _ _ _ _ _ _ _ _ _ Hchk Hf Fi Fw Fb Fo Bi Hw); auto; lia.
    - intros kr kc Hr Hcl. apply (setup_aw _ _ _ _ _ _ _ _ _ Hchk Hf Fi Fw Fb Fo Bw Hw); auto; lia.
    - apply Ab. lia.
    - assert (ES : dsum q mi mw i w g H W oc = depthwise_sum mi mw tin tw c (q_zi q) 0 H W oc).
      { unfold dsum, depthwise_sum. rewrite T. unfold conv_taps. apply taps_ext; [|reflexivity]. intros kr kc _ _ _.
        rewrite Tr, Tc. unfold at3, at4. rewrite <- (setup_wa _ _ _ _ _ _ _ _ Hchk Hf Fi Fw Fb Fo Hw).
        rewrite <- (setup_ia _ _ _ _ _ _ _ _ Hchk Hf Fi Fw Fb Fo Hw). fold g o i. rewrite Z.sub_0_r. reflexivity. }
      rewrite ES, Eb in *. rewrite Kh, Kw in E2. auto. }
  destruct (setup_out _ m _ _ _ _ _ _ Hchk Hf Fi Fw Fb Fo Bo (depthwise_value rm full q lo hi mi mw (Some (mb, t_data tb)) i w g)) as (m' & E & E1 & E2).
  { intros H W oc HH HW HO. destruct (V H W oc HH HW HO) as [_ X]. eauto. }
  exists m'. split.
  { change (p_ch (get_tensor_hwc tin)) with (dim tin 2). rewrite <- Ch1, Ch0. exact E. }
  split; [|exact E2]. intros H W oc Hv. destruct (E1 H W oc Hv) as (HH & HW & HO & X).
  destruct (V H W oc HH HW HO) as [V1 V2]. rewrite X. auto.
Qed.

Lemma group_run rm full q no oq fixed mi mw mb m tin tw tb tout c c1 c2 :
  chk_group tin tw tb tout c fixed = Some ST_OK -> conv_fits tin tw tout c ->
  fits32 tin -> fits32 tw -> fits32 tb -> fits32 tout -> backed tin mi -> backed tw mw -> backed tb mb -> backed tout m ->
  0 <= c1 -> 0 <= c2 -> q_biased q -> q_zw q = 0 -> Z.abs (q_zi q) <= 32767 ->
  (forall a b, Z.abs (rd mi a * rd mw b) <= c1) -> (forall a, Z.abs (q_zi q * rd mw a) <= c2) ->
  dim tw 2 * dim tw 0 * dim tw 1 * (c1 + c2) <= smax (acc_bits q) ->
  exists m', group_conv2d rm full q no oq fixed mi mw mb (t_data tb) tin tw tout c m = Some m'
    /\ computes rm full q no oq (cv_relu c) (dim tw 2 * dim tw 0 * dim tw 1 * (c1 + c2))
         (group_sum mi mw tin tw c (q_zi q) 0) (at1 mb tb) tout m m'.
Proof.
  intros Hchk0 Hf Fi Fw Fb Fo Bi Bw Bb Bo Hc1 Hc2 Hq Hzw Hzi Hp Hpz HB. unfold chk_group in Hchk0.
  match type of Hchk0 with (if _ && ?b then _ else Some ?x) = _ => assert (Hchk : x = ST_OK) by (destruct (_ && b); congruence) end.
  destruct (chk_conv_spec _ _ _ _ _ _ _ Hchk Hf Fi Fw Fb Fo) as (Ch & (T1 & T2 & T3 & T4) & _ & _ & _ & _ & _ & _ & Hx).
  repeat (apply andb_true_iff in Ch; let X := fresh "Ch" in destruct Ch as [Ch X]). apply Z.eqb_eq in Ch, Ch1, Ch0, Ch2.
  change (dim tb 0 = dim tw 3) in Ch. change (dim tout 2 = dim tw 3) in Ch0. change (Z.rem (dim tin 2) (dim tw 2) = 0) in Ch2.
  change (Z.rem (dim tw 3) (Z.quot (dim tin 2) (dim tw 2)) = 0) in Ch1.
  destruct (setup_pos _ _ _ _ _ _ _ Hchk Hf Fi Fw Fb Fo) as (D1 & D2 & D3 & D4 & D5 & D6).
  assert (G0 : 0 < Z.quot (dim tin 2) (dim tw 2)).
  { rewrite Z.quot_div_nonneg by lia. assert (0 <= dim tin 2 / dim tw 2) by (apply Z.div_pos; lia).
    rewrite Z.rem_mod_nonneg in Ch2 by lia. pose proof (Z.div_mod (dim tin 2) (dim tw 2) ltac:(lia)). nia. }
  assert (Hfx : (fixed =? 0) || ((nth 0 (t_shape tw) 0 =? fixed) && (nth 1 (t_shape tw) 0 =? fixed)) = true).
  { destruct (Z.eqb_spec fixed 0); [reflexivity|]. destruct (Hx n) as [X1 X2]. unfold dim in X1, X2. rewrite X1, X2, !Z.eqb_refl. reflexivity. }
  set (gr := Z.quot (dim tin 2) (dim tw 2)) in *. set (fpg := Z.quot (dim tw 3) gr).
  assert (G1 : dim tin 2 = gr * dim tw 2).
  { unfold gr. rewrite Z.quot_div_nonneg by lia. rewrite Z.rem_mod_nonneg in Ch2 by lia. pose proof (Z.div_mod (dim tin 2) (dim tw 2) ltac:(lia)). lia. }
  assert (G2 : dim tw 3 = fpg * gr).
  { unfold fpg. rewrite Z.quot_div_nonneg by lia. rewrite Z.rem_mod_nonneg in Ch1 by lia. pose proof (Z.div_mod (dim tw 3) gr ltac:(lia)). lia. }
  assert (G3 : 0 < fpg) by nia.
  assert (GQ : forall oc, 0 <= oc < dim tw 3 -> 0 <= Z.quot oc fpg < gr).
  { intros oc Ho. rewrite Z.quot_div_nonneg by lia. split; [apply Z.div_pos; lia|]. apply Z.div_lt_upper_bound; lia. }
  assert (GO : forall oc, 0 <= oc < dim tw 3 -> group_of tin tw oc = Z.quot oc fpg).
  { intros oc Ho. unfold group_of. rewrite Z.quot_div_nonneg by lia.
    assert (Eg : gr = dim tin 2 / dim tw 2) by (unfold gr; apply Z.quot_div_nonneg; lia).
    assert (Ef : fpg = dim tw 3 / gr) by (unfold fpg; apply Z.quot_div_nonneg; lia).
    rewrite Ef, Eg. reflexivity. }
  set (w := get_weights_hwcn tw fixed). assert (Hw : wlike tw w) by (apply wlike_hwcn; auto).
  destruct (setup_sizes _ _ _ _ _ _ _ _ Hchk Hf Fi Fw Fb Fo Hw) as (Ec & Sh & Sw).
  pose proof Hw as (_ & Kh & Kw & _).
  unfold group_conv2d, computes. destruct (get_relu_limits no (cv_relu c) oq) as [lo hi]. fold w.
  set (g := conv_geom c fixed) in *. set (o := get_tensor_hwc tout) in *. set (i := conv_shrink (get_tensor_hwc tin) o w g) in *.
  assert (Wi : w_in w = dim tw 2) by reflexivity. assert (Wo : w_out w = dim tw 3) by reflexivity.
  assert (V : forall H W oc, 0 <= H < dim tout 0 -> 0 <= W < dim tout 1 -> 0 <= oc < dim tout 2 ->
    Z.abs (group_sum mi mw tin tw c (q_zi q) 0 H W oc) <= dim tw 2 * dim tw 0 * dim tw 1 * (c1 + c2) /\
    group_value rm full q lo hi mi mw i w g mb (t_data tb) H W oc
    = Some (relu_clip (q_result rm full q oc (q_bias_add rm full q (at1 mb tb oc) (group_sum mi mw tin tw c (q_zi q) 0 H W oc))) lo hi)).
  { intros H W oc HH HW HO.
    destruct (setup_window _ _ _ _ _ _ _ _ Hchk Hf Fi Fw Fb Fo Hw H W HH HW) as (A1 & A2 & T & Tr & Tc).
    fold g o i in A1, A2, T, Tr, Tc.
    destruct (setup_bias _ _ _ _ _ _ _ _ Hchk Hf Fi Fw Fb Fo Bb oc) as [Eb Ab].
    specialize (GQ oc ltac:(lia)). specialize (GO oc ltac:(lia)).
    pose proof (group_value_ok rm full q lo hi mi mw mb (t_data tb) i w g H W A1 A2 c1 c2 Hc1 Hc2 Hq Hzw Hzi Hp Hpz oc) as X.
    cbv zeta in X. rewrite Wi, Wo, Ec in X. fold gr in X. fold fpg in X.
    destruct X as [E1 E2]; auto.
    - rewrite Kh, Kw. exact HB.
    - intros r cl ic Hr Hcl Hic. apply (setup_ai _ _ _ _ _ _ _ _ _ Hchk Hf Fi Fw Fb Fo Bi Hw); auto. rewrite G1. clear - Hic GQ; nia.
    - intros kr kc ic Hr Hcl Hic. apply (setup_aw _ _ _ _ _ _ _ _ _ Hchk Hf Fi Fw Fb Fo Bw Hw); auto; lia.
    - apply Ab. lia.
    - assert (ES : psum q mi mw i w g H W (dim tw 2 * Z.quot oc fpg) (dim tw 2) oc = group_sum mi mw tin tw c (q_zi q) 0 H W oc).
      { unfold psum, group_sum. rewrite T. unfold conv_taps. apply taps_ext; [|reflexivity]. intros kr kc _ _ _. apply zsum_ext. intros ic _.
        rewrite Tr, Tc, GO. unfold at3, at4. rewrite <- (setup_wa _ _ _ _ _ _ _ _ Hchk Hf Fi Fw Fb Fo Hw).
        rewrite <- (setup_ia _ _ _ _ _ _ _ _ Hchk Hf Fi Fw Fb Fo Hw). fold g o i. rewrite Z.sub_0_r, (Z.mul_comm (Z.quot oc fpg)). reflexivity. }
      rewrite ES, Eb in *. rewrite Kh, Kw in E2. auto. }
  destruct (setup_out _ m _ _ _ _ _ _ Hchk Hf Fi Fw Fb Fo Bo (group_value rm full q lo hi mi mw i w g mb (t_data tb))) as (m' & E & E1 & E2).
  { intros H W oc HH HW HO. destruct (V H W oc HH HW HO) as [_ X]. eauto. }
  exists m'. split; [exact E|]. split; [|exact E2]. intros H W oc Hv. destruct (E1 H W oc Hv) as (HH & HW & HO & X).
  destruct (V H W oc HH HW HO) as [V1 V2]. rewrite X. auto.
Qed.
