(** The MLI 3.0 convolutions: 8-bit data, 32-bit output, no bias and no requantization. Padding contributes
    the input zero point (properties C55, C56). *)
From Coq Require Import ZArith List Lia Bool.
From Verif Require Import Base FxMath FxMathProofs Tensor TensorProofs MovProofs Quant QuantProofs
  DotProd DotProdProofs ArgMax Permute PermuteProofs Layout PoolProofs PoolKernels Conv ConvSpec ConvProofs ConvValues ConvKernels ConvTheorems.
Import ListNotations.
Open Scope Z_scope.

(** * Specification *)

(** The convolution of the input extended by the zero point [zi] at all positions outside of the image. The
    weights zero point is not subtracted. *)
Definition conv_int_sum (mi mw : mem) (tin tw : tensor) (c : conv_cfg) (zi : Z) (H W oc : Z) : Z :=
  conv_taps tin tw c H W
    (fun kr kc => zsum 0 (dim tin 2) (fun ic => at3 mi tin (tap_r c H kr) (tap_c c W kc) ic * at4 mw tw kr kc ic oc))
    (fun kr kc => zsum 0 (dim tin 2) (fun ic => zi * at4 mw tw kr kc ic oc)).

(** The depthwise sum; [zw] is the weights zero point. *)
Definition depthwise_int_sum (mi mw : mem) (tin tw : tensor) (c : conv_cfg) (zi zw : Z) (H W ch : Z) : Z :=
  conv_taps tin tw c H W
    (fun kr kc => at3 mi tin (tap_r c H kr) (tap_c c W kc) ch * (at4 mw tw kr kc 0 ch - zw))
    (fun kr kc => zi * (at4 mw tw kr kc 0 ch - zw)).

(** Every output element is the exact sum, nothing else is changed. *)
Definition int_results (S : Z -> Z -> Z -> Z) (tout : tensor) (m m' : mem) : Prop :=
  (forall H W oc, valid (t_shape tout) [H; W; oc] -> hwc_elem m' tout H W oc = Some (S H W oc)) /\ frame_ok tout m m'.

(** * One value *)

Lemma sub0 n a : 1 <= n -> Z.abs a <= smax n -> sub_fx n 0 a = - a.
Proof.
  intros Hn Ha. pose proof (abs_in_bits n a Ha) as I.
  assert (I0 : in_bits n 0) by (apply abs_in_bits; cbn; lia).
  rewrite sub_fx_spec by auto. rewrite Z.sub_0_l. apply sat_id. apply abs_in_bits. lia.
Qed.

Lemma result_int rm a : Z.abs a <= smax 32 -> result_cast_int rm a = a.
Proof.
  intros Ha. pose proof (abs_in_bits 32 a Ha) as I. unfold result_cast_int. rewrite cast_same_spec by (auto; lia).
  reflexivity.
Qed.

(** Sum of all weights of filter [oc]. *)
Definition wsum (mw : mem) (w : wtensor) (nin oc : Z) : Z :=
  zsum 0 (w_kh w) (fun kr => zsum 0 (w_kw w) (fun kc => zsum 0 nin (fun ic => rd mw (wa w kr kc ic oc)))).

Section IntVal.
Context (rm : rmode) (full : bool) (lo hi : Z) (mi mw : mem) (i : ptensor) (w : wtensor) (g : geom) (H W : Z).
Context (Ha : axis_ok (H * g_sh g - g_pt g) (w_kh w) (g_dh g) (p_h i)) (Hb : axis_ok (W * g_sw g - g_pl g) (w_kw w) (g_dw g) (p_w i)).
Context (zi c1 c2 : Z) (Hc1 : 0 <= c1) (Hc2 : 0 <= c2) (Hzi : Z.abs zi <= 32767).
Context (Hp : forall a b, Z.abs (rd mi a * rd mw b) <= c1) (Hpz : forall a, Z.abs (zi * rd mw a) <= c2).

Let v := window i w g H W.

(** The window covers the whole kernel [wf] iff its size is that of [wf]. *)
Lemma window_full wf : 0 < w_kh wf -> 0 < w_kw wf -> w_kh w <= w_kh wf -> w_kw w <= w_kw wf ->
  wn_rows v * wn_cols v = w_kh wf * w_kw wf ->
  w_kh w = w_kh wf /\ w_kw w = w_kw wf /\ forall F G, ptaps i w g H W F G = ptaps i w g H W F (fun _ _ => 0)
    /\ ptaps i w g H W F (fun _ _ => 0) = zsum 0 (w_kh w) (fun kr => zsum 0 (w_kw w) (fun kc => F kr kc)).
Proof.
  intros P1 P2 L1 L2 E.
  destruct (window_spec i w g H W Ha Hb) as (t & l & X). fold v in X. cbv zeta in X.
  destruct X as (T & L & R & C & TR & LC & Ei & Ew & Gr & Gc).
  assert (E1 : wn_rows v = w_kh wf /\ wn_cols v = w_kw wf) by (clear - E P1 P2 L1 L2 R C TR LC T L; nia).
  destruct E1 as [E1 E2]. split; [lia|]. split; [lia|]. intros F G.
  assert (In : forall kr kc, 0 <= kr < w_kh w -> 0 <= kc < w_kw w -> inside (p_h i) (p_w i) (H * g_sh g - g_pt g + kr * g_dh g) (W * g_sw g - g_pl g + kc * g_dw g) = true).
  { intros kr kc Hr Hc. apply inside_spec. split; [apply Gr|apply Gc]; lia. }
  split.
  - apply taps_ext; auto. intros kr kc Hr Hc Hn. rewrite In in Hn by auto. discriminate.
  - unfold ptaps, taps. apply zsum_ext. intros kr Hr. apply zsum_ext. intros kc Hc. now rewrite In.
Qed.

Lemma conv_int_value wf oc :
  0 <= p_ch i -> 0 < w_kh wf -> 0 < w_kw wf -> w_kh w <= w_kh wf -> w_kw w <= w_kw wf ->
  p_ch i * w_kh wf * w_kw wf * (c1 + 2 * c2) <= smax 32 ->
  (forall r cl ic, 0 <= r < p_h i -> 0 <= cl < p_w i -> 0 <= ic < p_ch i -> allocated mi (ia i r cl (0 + ic))) ->
  (forall kr kc ic, 0 <= kr < w_kh w -> 0 <= kc < w_kw w -> 0 <= ic < p_ch i -> allocated mw (wa w kr kc ic oc)) ->
  (forall kr kc ic, 0 <= kr < w_kh wf -> 0 <= kc < w_kw wf -> 0 <= ic < p_ch i -> allocated mw (wa wf kr kc ic oc)) ->
  conv_value rm full (Q_int zi 0) lo hi mi mw None i wf w g H W oc
  = Some (ptaps i w g H W (fun kr kc => zsum 0 (p_ch i) (fun ic => rd mi (ia i (tr g H kr) (tc g W kc) ic) * rd mw (wa w kr kc ic oc))) (fun _ _ => 0)
      + (if wn_rows v * wn_cols v =? w_kh wf * w_kw wf then 0 else
         zi * (wsum mw wf (p_ch i) oc - ptaps i w g H W (fun kr kc => zsum 0 (p_ch i) (fun ic => rd mw (wa w kr kc ic oc))) (fun _ _ => 0)))).
Proof.
  intros Hn P1 P2 L1 L2 HB AI AW AF.
  set (N := p_ch i * w_kh wf * w_kw wf) in *.
  assert (NW : p_ch i * w_kh w * w_kw w <= N).
  { unfold N. destruct Ha as (_ & _ & K1 & _), Hb as (_ & _ & K2 & _). rewrite <- !Z.mul_assoc. apply Z.mul_le_mono_nonneg_l; auto. apply Z.mul_le_mono_nonneg; auto. }
  assert (N0 : 0 <= N) by (apply Z.mul_nonneg_nonneg; [apply Z.mul_nonneg_nonneg|]; lia).
  assert (NW0 : 0 <= p_ch i * w_kh w * w_kw w).
  { destruct Ha as (_ & _ & K1 & _), Hb as (_ & _ & K2 & _). apply Z.mul_nonneg_nonneg; auto. apply Z.mul_nonneg_nonneg; auto. }
  assert (M1 : p_ch i * w_kh w * w_kw w * c1 <= N * c1) by (apply Z.mul_le_mono_nonneg_r; auto).
  assert (M2 : p_ch i * w_kh w * w_kw w * c2 <= N * c2) by (apply Z.mul_le_mono_nonneg_r; auto).
  assert (M3 : 0 <= N * c2) by (apply Z.mul_nonneg_nonneg; auto).
  assert (HB' : N * c1 + 2 * (N * c2) <= smax 32) by lia.
  destruct (conv_dot mi mw i w g H W Ha Hb 32 c1 0 (p_ch i) oc Hc1 Hn Hp ltac:(lia) AI AW) as [D1 D2].
  fold v in D1. cbv zeta in D1, D2. rewrite Z.mul_0_r, Z.add_0_r in D1.
  unfold conv_value. cbv zeta. cbn [acc_bits q_in_add3 q_weights_add3 q_zp_add q_result]. fold v. rewrite D1. cbn [bind].
  match type of D2 with Z.abs ?S <= _ => set (S1 := S) in * end.
  assert (B1 : Z.abs S1 <= N * c1) by lia.
  assert (S1e : S1 = ptaps i w g H W (fun kr kc => zsum 0 (p_ch i) (fun ic => rd mi (ia i (tr g H kr) (tc g W kc) ic) * rd mw (wa w kr kc ic oc))) (fun _ _ => 0)).
  { unfold S1, ptaps. apply taps_ext; auto. }
  rewrite <- S1e. clear S1e.
  destruct (Z.eqb_spec (wn_rows v * wn_cols v) (w_kh wf * w_kw wf)) as [E|E]; cbn [negb].
  { cbn [bind]. rewrite result_int by lia. f_equal. lia. }
  clearbody S1. rewrite (sub0 32 S1) by lia.
  assert (Kf : forall k r cl, w_ptr wf + w_outs wf * oc + k * w_ins wf + r * w_row wf + cl * w_col wf = wa wf r cl k oc) by (intros; unfold wa; ring).
  destruct (additive3D_ok 32 mw (N * c1) c2 (w_ptr wf + w_outs wf * oc) (- S1) zi (w_kw wf) (w_kh wf) (p_ch i) (w_col wf) (w_row wf) (w_ins wf)
    Hc2 ltac:(lia) ltac:(lia) Hn Hzi Hpz ltac:(lia)) as [F1 F2].
  { fold N. lia. }
  { intros k Hk r cl Hr Hcl. rewrite Kf. apply AF; auto. }
  assert (ES : sum3D mw (w_ptr wf + w_outs wf * oc) (w_kw wf) (w_kh wf) (p_ch i) (w_col wf) (w_row wf) (w_ins wf) = wsum mw wf (p_ch i) oc).
  { unfold sum3D, sum2D. rewrite zsum_swap3. unfold wsum.
    apply zsum_ext. intros r Hr. apply zsum_ext. intros cl Hcl. apply zsum_ext. intros k Hk. now rewrite Kf. }
  rewrite ES in F1, F2. rewrite F1. cbn [bind]. fold N in F2.
  rewrite sub0 by lia.
  destruct (conv_wadd mw i w g H W Ha Hb 32 c2 (N * c1 + N * c2) zi (p_ch i) oc (- (- S1 - zi * wsum mw wf (p_ch i) oc)) Hc2 Hn Hzi Hpz ltac:(lia) ltac:(lia) AW) as [G1 G2].
  fold v in G1. cbv zeta in G1, G2. rewrite G1. cbn [bind].
  match type of G2 with Z.abs (_ - zi * ?S) <= _ => set (S2 := S) in * end. clearbody S2.
  rewrite sub0 by lia.
  destruct (window_size i w g H W Ha Hb) as [Wsz _]. fold v in Wsz. cbv zeta in Wsz.
  assert (Wf : w_kh w * w_kw w <= w_kh wf * w_kw wf).
  { destruct Ha as (_ & _ & K1 & _), Hb as (_ & _ & K2 & _). apply Z.mul_le_mono_nonneg; auto. }
  rewrite zp_additive_zero; [|lia|apply abs_in_bits; lia]. cbn [bind].
  rewrite sub0 by lia. rewrite result_int by lia. f_equal. ring.
Qed.

Context (zw c3 c4 : Z) (Hc3 : 0 <= c3) (Hzw : Z.abs zw <= 32767) (Hpw : forall a, Z.abs (zw * rd mi a) <= c3) (Hpzz : Z.abs (zw * zi) <= c4).

Lemma depthwise_int_value ch :
  0 < w_kh w -> 0 < w_kw w -> w_kh w * w_kw w * (c1 + 2 * c2 + c3 + c4) <= smax 32 ->
  (forall r cl, 0 <= r < p_h i -> 0 <= cl < p_w i -> allocated mi (ia i r cl ch)) ->
  (forall kr kc, 0 <= kr < w_kh w -> 0 <= kc < w_kw w -> allocated mw (wa w kr kc 0 ch)) ->
  depthwise_value rm full (Q_int zi zw) lo hi mi mw None i w g H W ch
  = Some (ptaps i w g H W (fun kr kc => rd mi (ia i (tr g H kr) (tc g W kc) ch) * (rd mw (wa w kr kc 0 ch) - zw))
      (fun kr kc => zi * (rd mw (wa w kr kc 0 ch) - zw))).
Proof.
  intros P1 P2 HB AI AW.
  set (N := w_kh w * w_kw w) in *.
  assert (N0 : 0 <= N) by (apply Z.mul_nonneg_nonneg; lia).
  assert (Hc4 : 0 <= c4) by lia.
  assert (HB' : N * c1 + 2 * (N * c2) + N * c3 + N * c4 <= smax 32) by lia.
  assert (M1 : 0 <= N * c1) by (apply Z.mul_nonneg_nonneg; auto). assert (M2 : 0 <= N * c2) by (apply Z.mul_nonneg_nonneg; auto).
  assert (M3 : 0 <= N * c3) by (apply Z.mul_nonneg_nonneg; auto). assert (M4 : 0 <= N * c4) by (apply Z.mul_nonneg_nonneg; auto).
  destruct (dw_dot mi mw i w g H W Ha Hb 32 c1 ch Hc1 Hp ltac:(fold N; lia) AI AW) as [D1 D2].
  destruct (dw_iadd mi i w g H W Ha Hb 32 c3 (N * c1) zw ch _ Hc3 Hzw Hpw D2 ltac:(fold N; lia) AI) as [I1 I2].
  fold v in D1, I1. fold N in D2, I2. cbv zeta in D1, D2, I1, I2.
  unfold depthwise_value. cbv zeta. cbn [acc_bits q_in_add2 q_weights_add2 q_zp_add q_result]. fold v. rewrite D1. cbn [bind]. rewrite I1. cbn [bind].
  rewrite ptaps_sub in *.
  match type of I2 with Z.abs ?S <= _ => set (S1 := S) in * end.
  destruct (Z.eqb_spec (wn_rows v * wn_cols v) (w_kh w * w_kw w)) as [E|E]; cbn [negb].
  { cbn [bind]. rewrite result_int by lia. f_equal. destruct (window_full w P1 P2 ltac:(lia) ltac:(lia) E) as (_ & _ & X).
    match goal with |- _ = ptaps _ _ _ _ _ ?F ?G => rewrite (proj1 (X F G)) end.
    unfold S1, ptaps. apply taps_ext; auto. intros; ring. }
  destruct (additive2D_ok 32 mw (N * c1 + N * c3) c2 (w_ptr w + w_outs w * ch) (- S1) zi (w_kw w) (w_kh w) (w_col w) (w_row w)
    Hc2 ltac:(lia) ltac:(lia) Hzi Hpz ltac:(lia)) as [F1 F2].
  { fold N. lia. }
  { intros r cl Hr Hcl. replace (_ + _ + _ + _) with (wa w r cl 0 ch) by (unfold wa; ring). apply AW; auto. }
  fold N in F2.
  rewrite (sub0 32 S1) by lia. rewrite F1. cbn [bind].
  assert (ES : sum2D mw (w_ptr w + w_outs w * ch) (w_kw w) (w_kh w) (w_col w) (w_row w)
     = ptaps i w g H W (fun kr kc => rd mw (wa w kr kc 0 ch)) (fun kr kc => rd mw (wa w kr kc 0 ch))).
  { unfold sum2D, ptaps, taps. apply zsum_ext. intros r Hr. apply zsum_ext. intros cl Hcl. destruct (inside _ _ _ _); f_equal; unfold wa; ring. }
  rewrite ES in F1, F2 |- *. rewrite sub0 by lia.
  destruct (dw_wadd mw i w g H W Ha Hb 32 c2 (N * c1 + N * c3 + N * c2) zi ch _ Hc2 Hzi Hpz (eq_ind_r (fun x => x <= _) F2 (Z.abs_opp _)) ltac:(fold N; lia) AW) as [G1 G2].
  fold v in G1. cbv zeta in G1, G2. fold N in G2. rewrite G1. cbn [bind].
  destruct (window_size i w g H W Ha Hb) as [Wsz Wtp]. fold v in Wsz, Wtp. cbv zeta in Wsz, Wtp. fold N in Wsz.
  rewrite (Z.mul_comm (w_kh w) (w_kw w)). rewrite (Z.mul_comm (w_kw w) (w_kh w)). fold N.
  match type of G2 with Z.abs ?S <= _ => set (S2 := S) in * end.
  assert (L0 : 0 <= N - wn_cols v * wn_rows v <= N) by lia.
  assert (L4 : (N - wn_cols v * wn_rows v) * Z.abs (zw * zi) <= N * c4) by (apply Z.mul_le_mono_nonneg; [lia|lia|apply Z.abs_nonneg|exact Hpzz]).
  assert (G3 : Z.abs S2 <= smax 32) by (clear - G2 M1 M2 M3 M4 HB'; lia).
  rewrite (sub0 32 S2) by (exact G3 || lia).
  destruct (zp_additive_ok 32 (N * c1 + N * c3 + N * c2 + N * c2) (- S2) zw zi (N - wn_cols v * wn_rows v) (proj1 L0)
    (eq_ind_r (fun x => x <= _) G2 (Z.abs_opp _)) ltac:(clear - L4 HB'; lia)) as [K1 K2].
  rewrite K1. cbn [bind].
  assert (K3 : Z.abs (- S2 + (N - wn_cols v * wn_rows v) * (zw * zi)) <= smax 32) by (eapply Z.le_trans; [exact K2|]; clear - L4 HB'; lia).
  rewrite (sub0 32 (- S2 + _)) by (exact K3 || lia). rewrite result_int by (rewrite Z.abs_opp; exact K3). f_equal.
  assert (EN : N = ptaps i w g H W (fun _ _ => 1) (fun _ _ => 1)).
  { unfold ptaps, taps. transitivity (zsum 0 (w_kh w) (fun _ => zsum 0 (w_kw w) (fun _ => 1))).
    - rewrite !zsum_const by lia. unfold N. ring.
    - apply zsum_ext. intros. apply zsum_ext. intros. destruct (inside _ _ _ _); reflexivity. }
  rewrite Wtp, EN. unfold S2, S1.
  unfold ptaps.
  transitivity (taps (p_h i) (p_w i) (w_kh w) (w_kw w) (H * g_sh g - g_pt g) (W * g_sw g - g_pl g) (g_dh g) (g_dw g)
      (fun a b => rd mi (ia i (tr g H a) (tc g W b) ch) * rd mw (wa w a b 0 ch) - zw * rd mi (ia i (tr g H a) (tc g W b) ch)) (fun _ _ => 0)
    + zi * taps (p_h i) (p_w i) (w_kh w) (w_kw w) (H * g_sh g - g_pt g) (W * g_sw g - g_pl g) (g_dh g) (g_dw g) (fun kr kc => rd mw (wa w kr kc 0 ch)) (fun kr kc => rd mw (wa w kr kc 0 ch))
    + (- zi) * taps (p_h i) (p_w i) (w_kh w) (w_kw w) (H * g_sh g - g_pt g) (W * g_sw g - g_pl g) (g_dh g) (g_dw g) (fun kr kc => rd mw (wa w kr kc 0 ch)) (fun _ _ => 0)
    + (- (zw * zi)) * taps (p_h i) (p_w i) (w_kh w) (w_kw w) (H * g_sh g - g_pt g) (W * g_sw g - g_pl g) (g_dh g) (g_dw g) (fun _ _ => 1) (fun _ _ => 1)
    + (zw * zi) * taps (p_h i) (p_w i) (w_kh w) (w_kw w) (H * g_sh g - g_pt g) (W * g_sw g - g_pl g) (g_dh g) (g_dw g) (fun _ _ => 1) (fun _ _ => 0)).
  { ring. }
  rewrite !taps_scale, !taps_add. apply taps_ext; intros; ring.
Qed.
End IntVal.

(** * Kernels *)

(** MLI 3.0 has no run-time checker; the shapes must be those that the MLI 2.0 checker accepts (with some bias). *)
Definition conv_shapes (tin tw tout : tensor) (c : conv_cfg) : Prop :=
  exists tb, fits32 tb /\ chk_conv2d tin tw tb tout c 0 = ST_OK.
Definition depthwise_shapes (tin tw tout : tensor) (c : conv_cfg) : Prop :=
  exists tb, fits32 tb /\ chk_depthwise tin tw tb tout c 0 = ST_OK.

(** C55: the MLI 3.0 convolution computes the exact 32-bit sums with the input zero point as padding.
    N * (1 + 2) products of 8-bit values bound the accumulator. *)
Theorem conv2d_int_correct rm full zi oq mi mw m tin tw tout c :
  conv_shapes tin tw tout c -> conv_fits tin tw tout c -> fits32 tin -> fits32 tw -> fits32 tout ->
  backed tin mi -> backed tw mw -> backed tout m -> mem_bits 8 mi -> mem_bits 8 mw -> in_bits 8 zi ->
  dim tin 2 * dim tw 0 * dim tw 1 * (3 * 2 ^ 14) <= smax 32 ->
  exists m', conv2d rm full (Q_int zi 0) 32 oq 0 mi mw None tin tw tout c m = Some m'
    /\ int_results (conv_int_sum mi mw tin tw c zi) tout m m'.
Proof.
  intros (tb & Fb & Hchk) Hf Fi Fw Fo Bi Bw Bo Mi Mw Iz HB. unfold chk_conv2d in Hchk.
  destruct (chk_conv_spec _ _ _ _ _ _ _ Hchk Hf Fi Fw Fb Fo) as (Ch & _ & _ & _ & _ & _ & _ & _ & Hx).
  repeat (apply andb_true_iff in Ch; let X := fresh "Ch" in destruct Ch as [Ch X]). apply Z.eqb_eq in Ch, Ch1, Ch0.
  change (dim tin 2 = dim tw 2) in Ch. change (dim tout 2 = dim tw 3) in Ch1.
  set (w := get_weights_hwcn tw 0). assert (Hw : wlike tw w) by (apply wlike_hwcn; auto).
  destruct (setup_sizes _ _ _ _ _ _ _ _ Hchk Hf Fi Fw Fb Fo Hw) as (Ec & Sh & Sw).
  destruct (setup_pos _ _ _ _ _ _ _ Hchk Hf Fi Fw Fb Fo) as (D1 & D2 & D3 & D4 & D5 & D6).
  pose proof Hw as (_ & Kh & Kw & _).
  unfold conv2d. destruct (get_relu_limits 32 (cv_relu c) oq) as [lo hi]. fold w.
  set (g := conv_geom c 0) in *. set (o := get_tensor_hwc tout) in *. set (i := conv_shrink (get_tensor_hwc tin) o w g) in *.
  assert (V : forall H W oc, 0 <= H < dim tout 0 -> 0 <= W < dim tout 1 -> 0 <= oc < dim tout 2 ->
    conv_value rm full (Q_int zi 0) lo hi mi mw None i w w g H W oc = Some (conv_int_sum mi mw tin tw c zi H W oc)).
  { intros H W oc HH HW HO.
    destruct (setup_window _ _ _ _ _ _ _ _ Hchk Hf Fi Fw Fb Fo Hw H W HH HW) as (A1 & A2 & T & Tr & Tc).
    fold g o i in A1, A2, T, Tr, Tc.
    pose proof (proj1 (ib8 _) Iz).
    rewrite (conv_int_value rm full lo hi mi mw i w g H W A1 A2 zi (2 ^ 14) (2 ^ 14) ltac:(lia) ltac:(lia) ltac:(lia)
      (s8_prods _ _ Mi Mw) (s8_zprods _ _ Iz Mw) w); [|lia|lia|lia|lia|lia| | | |].
    - f_equal. assert (ES : ptaps i w g H W (fun kr kc => zsum 0 (p_ch i) (fun ic => rd mi (ia i (tr g H kr) (tc g W kc) ic) * rd mw (wa w kr kc ic oc)))
        (fun kr kc => zsum 0 (p_ch i) (fun ic => zi * rd mw (wa w kr kc ic oc))) = conv_int_sum mi mw tin tw c zi H W oc).
      { unfold conv_int_sum. rewrite T. unfold conv_taps. apply taps_ext; intros kr kc _ _ _; rewrite Ec; apply zsum_ext; intros ic _;
        unfold at3, at4; rewrite <- (setup_wa _ _ _ _ _ _ _ _ Hchk Hf Fi Fw Fb Fo Hw); [|reflexivity].
        rewrite Tr, Tc. rewrite <- (setup_ia _ _ _ _ _ _ _ _ Hchk Hf Fi Fw Fb Fo Hw). reflexivity. }
      rewrite <- ES. destruct (Z.eqb_spec (wn_rows (window i w g H W) * wn_cols (window i w g H W)) (w_kh w * w_kw w)) as [E|E].
      + destruct (window_full mi mw i w g H W A1 A2 zi (2 ^ 14) (2 ^ 14) (s8_prods _ _ Mi Mw) (s8_zprods _ _ Iz Mw) w ltac:(lia) ltac:(lia) ltac:(lia) ltac:(lia) E) as (_ & _ & X).
        rewrite Z.add_0_r. symmetry. apply X.
      + assert (EW : wsum mw w (p_ch i) oc = ptaps i w g H W (fun kr kc => zsum 0 (p_ch i) (fun ic => rd mw (wa w kr kc ic oc))) (fun kr kc => zsum 0 (p_ch i) (fun ic => rd mw (wa w kr kc ic oc)))).
        { unfold wsum, ptaps, taps. apply zsum_ext. intros. apply zsum_ext. intros. destruct (inside _ _ _ _); reflexivity. }
        rewrite EW. unfold ptaps. rewrite Z.mul_sub_distr_l.
        match goal with |- ?a + (?b - zi * ?d) = _ => transitivity (a + b + (- zi) * d); [ring|] end.
        rewrite !taps_scale, !taps_add. apply taps_ext; intros kr kc _ _ _; [ring|].
        rewrite zsum_mul_l. ring.
    - rewrite Ec, Kh, Kw. lia.
    - intros r cl ic Hr Hcl Hic. apply (setup_ai _ _ _ _ _ _ _ _ _ Hchk Hf Fi Fw Fb Fo Bi Hw); auto; lia.
    - intros kr kc ic Hr Hcl Hic. apply (setup_aw _ _ _ _ _ _ _ _ _ Hchk Hf Fi Fw Fb Fo Bw Hw); auto; lia.
    - intros kr kc ic Hr Hcl Hic. apply (setup_aw _ _ _ _ _ _ _ _ _ Hchk Hf Fi Fw Fb Fo Bw Hw); auto; lia. }
  destruct (setup_out _ m _ _ _ _ _ _ Hchk Hf Fi Fw Fb Fo Bo (conv_value rm full (Q_int zi 0) lo hi mi mw None i w w g)) as (m' & E & E1 & E2).
  { intros H W oc HH HW HO. rewrite V by auto. eauto. }
  exists m'. split; [exact E|]. split; [|exact E2]. intros H W oc Hv. destruct (E1 H W oc Hv) as (HH & HW & HO & X).
  rewrite X. apply V; auto.
Qed.

(** C56: the MLI 3.0 depthwise convolution, with a weights zero point. *)
Theorem depthwise_int_correct rm full zi zw oq mi mw m tin tw tout c :
  depthwise_shapes tin tw tout c -> conv_fits tin tw tout c -> fits32 tin -> fits32 tw -> fits32 tout ->
  backed tin mi -> backed tw mw -> backed tout m -> mem_bits 8 mi -> mem_bits 8 mw -> in_bits 8 zi -> in_bits 8 zw ->
  dim tw 0 * dim tw 1 * (5 * 2 ^ 14) <= smax 32 ->
  exists m', depthwise_conv2d rm full (Q_int zi zw) 32 oq 0 mi mw None tin tw tout c m = Some m'
    /\ int_results (depthwise_int_sum mi mw tin tw c zi zw) tout m m'.
Proof.
  intros (tb & Fb & Hchk) Hf Fi Fw Fo Bi Bw Bo Mi Mw Iz Iw HB. unfold chk_depthwise in Hchk.
  destruct (chk_conv_spec _ _ _ _ _ _ _ Hchk Hf Fi Fw Fb Fo) as (Ch & _ & _ & _ & _ & _ & _ & _ & Hx).
  repeat (apply andb_true_iff in Ch; let X := fresh "Ch" in destruct Ch as [Ch X]). apply Z.eqb_eq in Ch, Ch1, Ch0, Ch2.
  change (dim tw 2 = 1) in Ch. change (dim tw 3 = dim tout 2) in Ch0. change (dim tw 3 = dim tin 2) in Ch1.
  set (w := get_weights_hw1n tw 0). assert (Hw : wlike tw w) by (apply wlike_hw1n; auto).
  destruct (setup_sizes _ _ _ _ _ _ _ _ Hchk Hf Fi Fw Fb Fo Hw) as (Ec & Sh & Sw).
  destruct (setup_pos _ _ _ _ _ _ _ Hchk Hf Fi Fw Fb Fo) as (D1 & D2 & D3 & D4 & D5 & D6).
  pose proof Hw as (_ & Kh & Kw & _).
  unfold depthwise_conv2d. destruct (get_relu_limits 32 (cv_relu c) oq) as [lo hi]. fold w.
  set (g := conv_geom c 0) in *. set (o := get_tensor_hwc tout) in *. set (i := conv_shrink (get_tensor_hwc tin) o w g) in *.
  assert (V : forall H W oc, 0 <= H < dim tout 0 -> 0 <= W < dim tout 1 -> 0 <= oc < dim tout 2 ->
    depthwise_value rm full (Q_int zi zw) lo hi mi mw None i w g H W oc = Some (depthwise_int_sum mi mw tin tw c zi zw H W oc)).
  { intros H W oc HH HW HO.
    destruct (setup_window _ _ _ _ _ _ _ _ Hchk Hf Fi Fw Fb Fo Hw H W HH HW) as (A1 & A2 & T & Tr & Tc).
    fold g o i in A1, A2, T, Tr, Tc.
    pose proof (proj1 (ib8 _) Iz). pose proof (proj1 (ib8 _) Iw).
    rewrite (depthwise_int_value rm full lo hi mi mw i w g H W A1 A2 zi (2 ^ 14) (2 ^ 14) ltac:(lia) ltac:(lia) ltac:(lia)
      (s8_prods _ _ Mi Mw) (s8_zprods _ _ Iz Mw) zw (2 ^ 14) (2 ^ 14) ltac:(lia) ltac:(lia) (s8_zprods _ _ Iw Mi)).
    - f_equal. unfold depthwise_int_sum. rewrite T. unfold conv_taps. apply taps_ext; intros kr kc _ _ _;
        unfold at3, at4; rewrite <- (setup_wa _ _ _ _ _ _ _ _ Hchk Hf Fi Fw Fb Fo Hw); [|reflexivity].
      rewrite Tr, Tc. rewrite <- (setup_ia _ _ _ _ _ _ _ _ Hchk Hf Fi Fw Fb Fo Hw). reflexivity.
    - apply (prod_bits 8 8); auto; lia.
    - lia.
    - lia.
    - rewrite Kh, Kw. lia.
    - intros r cl Hr Hcl. apply (setup_ai _ _ _ _ _ _ _ _ _ Hchk Hf Fi Fw Fb Fo Bi Hw); auto; lia.
    - intros kr kc Hr Hcl. apply (setup_aw _ _ _ _ _ _ _ _ _ Hchk Hf Fi Fw Fb Fo Bw Hw); auto; lia. }
  destruct (setup_out _ m _ _ _ _ _ _ Hchk Hf Fi Fw Fb Fo Bo (depthwise_value rm full (Q_int zi zw) lo hi mi mw None i w g)) as (m' & E & E1 & E2).
  { intros H W oc HH HW HO. rewrite V by auto. eauto. }
  exists m'. split. { change (p_ch (get_tensor_hwc tin)) with (dim tin 2). rewrite <- Ch1, Ch0. exact E. }
  split; [|exact E2]. intros H W oc Hv. destruct (E1 H W oc Hv) as (HH & HW & HO & X).
  rewrite X. apply V; auto.
Qed.

(** * Examples *)

Example conv_int_ex_ok : conv_shapes cv_ex_in cv_ex_w cv_ex_out cv_ex_none /\ depthwise_shapes cv_ex_in (hwcn_t 2 3 1 2) cv_ex_out cv_ex_none
  /\ dim cv_ex_in 2 * dim cv_ex_w 0 * dim cv_ex_w 1 * (5 * 2 ^ 14) <= smax 32.
Proof.
  split; [exists (vec_t 2); split; [fits32_tac|reflexivity]|]. split; [exists (vec_t 2); split; [fits32_tac|reflexivity]|].
  vm_compute. discriminate.
Qed.

(** The first output sees 5 padded taps: they contribute 10 times the sum of their weights. *)
Example conv2d_int_ex : option_map (mem_list 8)
    (conv2d RM_UP true (Q_int 10 0) 32 (fx_qpar 0) 0 (list_mem cv_ex_mi) (list_mem cv_ex_mw) None cv_ex_in cv_ex_w cv_ex_out cv_ex_none (list_mem cv_ex_mo))
  = Some (map (fun p => Some (conv_int_sum (list_mem cv_ex_mi) (list_mem cv_ex_mw) cv_ex_in cv_ex_w cv_ex_none 10 (fst (fst p)) (snd (fst p)) (snd p)))
      [(0, 0, 0); (0, 0, 1); (0, 1, 0); (0, 1, 1); (1, 0, 0); (1, 0, 1); (1, 1, 0); (1, 1, 1)]).
Proof. vm_compute. reflexivity. Qed.

(** * What the code does not guarantee *)

(** With a weights zero point the MLI 3.0 convolution is wrong already without padding: it computes the sum
    of x * w, not of x * (w - zw) as the depthwise kernel does. *)
Theorem conv2d_int_zero_point_refuted :
  ~ (forall rm full zi zw oq mi mw m m' tin tw tout c,
      conv_shapes tin tw tout c -> conv_fits tin tw tout c -> fits32 tin -> fits32 tw -> fits32 tout ->
      backed tin mi -> backed tw mw -> backed tout m -> mem_bits 8 mi -> mem_bits 8 mw -> in_bits 8 zi -> in_bits 8 zw ->
      conv2d rm full (Q_int zi zw) 32 oq 0 mi mw None tin tw tout c m = Some m' ->
      hwc_elem m' tout 0 0 0 = Some (conv_taps tin tw c 0 0
        (fun kr kc => zsum 0 (dim tin 2) (fun ic => at3 mi tin (tap_r c 0 kr) (tap_c c 0 kc) ic * (at4 mw tw kr kc ic 0 - zw)))
        (fun kr kc => zsum 0 (dim tin 2) (fun ic => zi * (at4 mw tw kr kc ic 0 - zw))))).
Proof.
  intros G. set (c := mkCv RELU_NONE 1 1 0 0 0 0 1 1).
  specialize (G RM_UP true 0 1 (fx_qpar 0) (list_mem [2; 3]) (list_mem [4; 5]) (list_mem [0])).
  destruct (conv2d RM_UP true (Q_int 0 1) 32 (fx_qpar 0) 0 (list_mem [2; 3]) (list_mem [4; 5]) None (hwc_t 1 1 2) (hwcn_t 1 1 2 1) (hwc_t 1 1 1) c (list_mem [0])) as [m'|] eqn:E;
    [|vm_compute in E; discriminate].
  specialize (G m' (hwc_t 1 1 2) (hwcn_t 1 1 2 1) (hwc_t 1 1 1) c).
  assert (X : hwc_elem m' (hwc_t 1 1 1) 0 0 0 = Some 23).
  { assert (Y : option_map (fun m => hwc_elem m (hwc_t 1 1 1) 0 0 0) (conv2d RM_UP true (Q_int 0 1) 32 (fx_qpar 0) 0 (list_mem [2; 3]) (list_mem [4; 5]) None (hwc_t 1 1 2) (hwcn_t 1 1 2 1) (hwc_t 1 1 1) c (list_mem [0])) = Some (Some 23)) by (vm_compute; reflexivity).
    rewrite E in Y. cbn in Y. congruence. }
  rewrite X in G.
  assert (G' : Some 23 = Some 18).
  { etransitivity; [apply G; [| |fits32_tac|fits32_tac|fits32_tac|apply list_backed; cbn; lia|apply list_backed; cbn; lia|apply list_backed; cbn; lia
      |apply list_bits; reflexivity|apply list_bits; reflexivity|split; vm_compute; discriminate|split; vm_compute; discriminate|exact E]|vm_compute; reflexivity].
    - exists (vec_t 1). split; [fits32_tac|reflexivity].
    - unfold conv_fits, in_ubits, dim. cbn. repeat (split; [lia|]). intros t [ -> | [ -> | -> ]]; cbn; lia. }
  discriminate.
Qed.
