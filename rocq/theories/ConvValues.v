(** One output value of the convolution kernels, and the loops over the output. *)
From Coq Require Import ZArith List Lia Bool.
From Verif Require Import Base FxMath FxMathProofs Tensor TensorProofs MovProofs Quant QuantProofs
  DotProd DotProdProofs Layout PoolProofs PoolKernels Conv ConvSpec ConvProofs.
Import ListNotations.
Open Scope Z_scope.

(** * The zero points of a quantization scheme *)

Definition q_zi (q : quant) : Z := match q with Q_s8 p => s8_in_off p | Q_int zi _ => zi | _ => 0 end.
Definition q_zw (q : quant) : Z := match q with Q_s8 p => s8_w_off p | Q_int _ zw => zw | _ => 0 end.
Definition q_biased (q : quant) : Prop := match q with Q_int _ _ => False | _ => True end.

Lemma q_weights_add3_eq q m p acc w h ch col row chs :
  q_weights_add3 q m p acc w h ch col row chs = additive3D (acc_bits q) m p acc (q_zi q) w h ch col row chs.
Proof. destruct q; reflexivity. Qed.
Lemma q_weights_add2_eq q m p acc w h col row :
  q_weights_add2 q m p acc w h col row = additive2D (acc_bits q) m p acc (q_zi q) w h col row.
Proof. destruct q; reflexivity. Qed.
Lemma q_in_add3_eq q m p acc w h ch col row chs : q_biased q ->
  q_in_add3 q m p acc w h ch col row chs = additive3D (acc_bits q) m p acc (q_zw q) w h ch col row chs.
Proof. destruct q; intros Hq; [reflexivity..|destruct Hq]. Qed.
Lemma q_in_add2_eq q m p acc w h col row :
  q_in_add2 q m p acc w h col row = additive2D (acc_bits q) m p acc (q_zw q) w h col row.
Proof. destruct q; reflexivity. Qed.
Lemma q_zp_add_eq q acc len : q_zp_add q acc len = zp_additive (acc_bits q) acc (q_zw q) (q_zi q) len.
Proof. destruct q; reflexivity. Qed.

(** Without a weights zero point the last correction changes nothing. *)
Lemma zp_additive_zero n acc zi len : 0 <= len -> in_bits n acc -> zp_additive n acc 0 zi len = Some acc.
Proof.
  intros Hl Ha. unfold zp_additive. destruct (_ && _); [reflexivity|]. unfold reduce_sum.
  assert (E : foldM (fun (_ : Z) (s : Z * Z) => let '(acc0, p) := s in
      do x <- load (fun a => if a =? 0 then Some 0 else None) p;
      do acc1 <- mac_chk n acc0 zi x; Some (acc1, p + 0)) (zrange 0 len) (acc, 0) = Some (acc, 0)).
  { generalize (zrange 0 len). induction l; [reflexivity|]. cbn [foldM]. unfold load at 1. cbn [Z.eqb bind].
    unfold mac_chk. rewrite Z.mul_0_r, Z.add_0_r. unfold in_bits in Ha.
    destruct (Z.leb_spec (smin n) acc); [|lia]. destruct (Z.leb_spec acc (smax n)); [|lia]. cbn [andb bind]. exact IHl. }
  rewrite E. reflexivity.
Qed.

Lemma ptaps_sub i w g H W F1 F2 z :
  ptaps i w g H W F1 (fun _ _ => 0) - z * ptaps i w g H W F2 (fun _ _ => 0)
  = ptaps i w g H W (fun a b => F1 a b - z * F2 a b) (fun _ _ => 0).
Proof.
  unfold ptaps. replace (- z) with (- z) by reflexivity.
  match goal with |- ?A - z * ?B = _ => transitivity (A + (- z) * B); [ring|] end.
  rewrite taps_scale, taps_add. apply taps_ext; intros; ring.
Qed.

Lemma acc_bits_pos q : 1 <= acc_bits q.
Proof. destruct q; cbn; lia. Qed.

Lemma bias_add_bits rm full q b acc : q_biased q -> in_bits (acc_bits q) acc -> q_zw q = 0 ->
  forall len, 0 <= len -> q_zp_add q (q_bias_add rm full q b acc) len = Some (q_bias_add rm full q b acc).
Proof.
  intros Hq Ha Hz len Hl. destruct q; try reflexivity; [|destruct Hq]. cbn [q_zp_add]. cbn [q_zw] in Hz. rewrite Hz.
  apply zp_additive_zero; auto. cbn [q_bias_add]. unfold bias_additive_s8. rewrite add_fx_spec.
  - apply sat_in_bits. lia.
  - lia.
  - exact Ha.
  - apply wrap_in_bits. lia.
Qed.

Section Val.
Context (rm : rmode) (full : bool) (q : quant) (lo hi : Z) (mi mw mb : mem) (pb : Z) (i : ptensor) (w : wtensor) (g : geom) (H W : Z).
Context (Ha : axis_ok (H * g_sh g - g_pt g) (w_kh w) (g_dh g) (p_h i)) (Hb : axis_ok (W * g_sw g - g_pl g) (w_kw w) (g_dw g) (p_w i)).
Context (c1 c2 : Z) (Hc1 : 0 <= c1) (Hc2 : 0 <= c2) (Hq : q_biased q) (Hzw : q_zw q = 0) (Hzi : Z.abs (q_zi q) <= 32767).
Context (Hp : forall a b, Z.abs (rd mi a * rd mw b) <= c1) (Hpz : forall a, Z.abs (q_zi q * rd mw a) <= c2).

(** The exact sum over [nin] channels from channel [ch0]. *)
Definition psum (ch0 nin oc : Z) : Z :=
  ptaps i w g H W (fun kr kc => zsum 0 nin (fun ic =>
    (rd mi (ia i (tr g H kr) (tc g W kc) (ch0 + ic)) - q_zi q) * rd mw (wa w kr kc ic oc))) (fun _ _ => 0).

(** dot product minus the input zero point times the weights *)
Lemma psum_acc ch0 nin oc :
  0 <= nin -> nin * w_kh w * w_kw w * (c1 + c2) <= smax (acc_bits q) ->
  (forall r cl ic, 0 <= r < p_h i -> 0 <= cl < p_w i -> 0 <= ic < nin -> allocated mi (ia i r cl (ch0 + ic))) ->
  (forall kr kc ic, 0 <= kr < w_kh w -> 0 <= kc < w_kw w -> 0 <= ic < nin -> allocated mw (wa w kr kc ic oc)) ->
  let v := window i w g H W in
  exists S1, dotprod3D (acc_bits q) mi mw (p_ptr i + wn_in v + p_chs i * ch0) (w_ptr w + wn_w v + w_outs w * oc) (wn_cols v) (wn_rows v) nin
    (p_col i * g_dw g) (p_row i * g_dh g) (p_chs i) (w_col w) (w_row w) (w_ins w) 0 = Some S1
  /\ additive3D (acc_bits q) mw (w_ptr w + wn_w v + w_outs w * oc) S1 (q_zi q) (wn_cols v) (wn_rows v) nin (w_col w) (w_row w) (w_ins w)
     = Some (psum ch0 nin oc)
  /\ Z.abs (psum ch0 nin oc) <= nin * w_kh w * w_kw w * (c1 + c2).
Proof.
  intros Hn HB AI AW v.
  assert (N0 : 0 <= nin * w_kh w * w_kw w).
  { destruct Ha as (_ & _ & K1 & _), Hb as (_ & _ & K2 & _). apply Z.mul_nonneg_nonneg; auto. apply Z.mul_nonneg_nonneg; auto. }
  assert (N2 : 0 <= nin * w_kh w * w_kw w * c2) by (apply Z.mul_nonneg_nonneg; auto).
  rewrite Z.mul_add_distr_l in *.
  destruct (conv_dot mi mw i w g H W Ha Hb (acc_bits q) c1 ch0 nin oc Hc1 Hn Hp ltac:(lia) AI AW) as [D1 D2]. fold v in D1.
  eexists. split; [exact D1|].
  destruct (conv_wadd mw i w g H W Ha Hb (acc_bits q) c2 (nin * w_kh w * w_kw w * c1) (q_zi q) nin oc _ Hc2 Hn Hzi Hpz D2 ltac:(lia) AW) as [E1 E2].
  fold v in E1.
  assert (ES : forall A B, A - q_zi q * B = psum ch0 nin oc -> A - q_zi q * B = psum ch0 nin oc) by auto.
  rewrite ptaps_sub in E1, E2.
  match type of E1 with _ = Some ?X => assert (EX : X = psum ch0 nin oc) end.
  { unfold psum, ptaps. apply taps_ext; [|reflexivity]. intros kr kc _ _ _. rewrite <- zsum_mul_l, <- zsum_sub. apply zsum_ext. intros; ring. }
  rewrite EX in E1, E2. auto.
Qed.

Lemma conv_value_ok wf oc :
  0 <= p_ch i -> p_ch i * w_kh w * w_kw w * (c1 + c2) <= smax (acc_bits q) ->
  (forall r cl ic, 0 <= r < p_h i -> 0 <= cl < p_w i -> 0 <= ic < p_ch i -> allocated mi (ia i r cl (0 + ic))) ->
  (forall kr kc ic, 0 <= kr < w_kh w -> 0 <= kc < w_kw w -> 0 <= ic < p_ch i -> allocated mw (wa w kr kc ic oc)) ->
  allocated mb (pb + oc) ->
  conv_value rm full q lo hi mi mw (Some (mb, pb)) i wf w g H W oc
  = Some (relu_clip (q_result rm full q oc (q_bias_add rm full q (rd mb (pb + oc)) (psum 0 (p_ch i) oc))) lo hi)
  /\ Z.abs (psum 0 (p_ch i) oc) <= p_ch i * w_kh w * w_kw w * (c1 + c2).
Proof.
  intros Hn HB AI AW Ab. destruct (psum_acc 0 (p_ch i) oc Hn HB AI AW) as (S1 & D1 & D2 & D3). cbv zeta in D1, D2.
  split; [|exact D3]. unfold conv_value. cbv zeta.
  rewrite Z.mul_0_r, Z.add_0_r in D1. rewrite D1. cbn [bind].
  rewrite q_in_add3_eq by auto. rewrite Hzw. unfold additive3D at 1. cbn [Z.eqb bind].
  rewrite q_weights_add3_eq, D2. cbn [bind]. rewrite q_zp_add_eq, Hzw. rewrite zp_additive_zero.
  - cbn [bind]. rewrite rd_load by auto. reflexivity.
  - apply (window_size i w g H W Ha Hb).
  - apply abs_in_bits. lia.
Qed.

Lemma group_value_ok oc :
  let fpg := Z.quot (w_out w) (Z.quot (p_ch i) (w_in w)) in
  0 < w_in w -> 0 < Z.quot (p_ch i) (w_in w) -> 0 < fpg ->
  w_in w * w_kh w * w_kw w * (c1 + c2) <= smax (acc_bits q) ->
  (forall r cl ic, 0 <= r < p_h i -> 0 <= cl < p_w i -> 0 <= ic < w_in w -> allocated mi (ia i r cl (w_in w * Z.quot oc fpg + ic))) ->
  (forall kr kc ic, 0 <= kr < w_kh w -> 0 <= kc < w_kw w -> 0 <= ic < w_in w -> allocated mw (wa w kr kc ic oc)) ->
  allocated mb (pb + oc) ->
  group_value rm full q lo hi mi mw i w g mb pb H W oc
  = Some (relu_clip (q_result rm full q oc (q_bias_add rm full q (rd mb (pb + oc)) (psum (w_in w * Z.quot oc fpg) (w_in w) oc))) lo hi)
  /\ Z.abs (psum (w_in w * Z.quot oc fpg) (w_in w) oc) <= w_in w * w_kh w * w_kw w * (c1 + c2).
Proof.
  intros fpg G1 G2 G3 HB AI AW Ab.
  destruct (psum_acc (w_in w * Z.quot oc fpg) (w_in w) oc ltac:(lia) HB AI AW) as (S1 & D1 & D2 & D3). cbv zeta in D1, D2.
  split; [|exact D3]. unfold group_value. cbv zeta. fold fpg.
  destruct (Z.eqb_spec (w_in w) 0); [lia|]. destruct (Z.eqb_spec (Z.quot (p_ch i) (w_in w)) 0); [lia|].
  destruct (Z.eqb_spec fpg 0); [lia|]. cbn [orb]. rewrite Z.mul_assoc in D1. rewrite D1. cbn [bind].
  rewrite q_weights_add3_eq, D2. cbn [bind].
  rewrite q_in_add3_eq by auto. rewrite Hzw. unfold additive3D at 1. cbn [Z.eqb bind].
  rewrite q_zp_add_eq, Hzw. rewrite zp_additive_zero.
  - cbn [bind]. rewrite rd_load by auto. reflexivity.
  - apply (window_size i w g H W Ha Hb).
  - apply abs_in_bits. lia.
Qed.

Definition dsum (ch : Z) : Z :=
  ptaps i w g H W (fun kr kc => (rd mi (ia i (tr g H kr) (tc g W kc) ch) - q_zi q) * rd mw (wa w kr kc 0 ch)) (fun _ _ => 0).

Lemma depthwise_value_ok ch :
  w_kh w * w_kw w * (c1 + c2) <= smax (acc_bits q) ->
  (forall r cl, 0 <= r < p_h i -> 0 <= cl < p_w i -> allocated mi (ia i r cl ch)) ->
  (forall kr kc, 0 <= kr < w_kh w -> 0 <= kc < w_kw w -> allocated mw (wa w kr kc 0 ch)) ->
  allocated mb (pb + ch) ->
  depthwise_value rm full q lo hi mi mw (Some (mb, pb)) i w g H W ch
  = Some (relu_clip (q_result rm full q ch (q_bias_add rm full q (rd mb (pb + ch)) (dsum ch))) lo hi)
  /\ Z.abs (dsum ch) <= w_kh w * w_kw w * (c1 + c2).
Proof.
  intros HB AI AW Ab.
  assert (N0 : 0 <= w_kh w * w_kw w).
  { destruct Ha as (_ & _ & K1 & _), Hb as (_ & _ & K2 & _). apply Z.mul_nonneg_nonneg; auto. }
  assert (N2 : 0 <= w_kh w * w_kw w * c2) by (apply Z.mul_nonneg_nonneg; auto).
  rewrite Z.mul_add_distr_l in *.
  destruct (dw_dot mi mw i w g H W Ha Hb (acc_bits q) c1 ch Hc1 Hp ltac:(lia) AI AW) as [D1 D2].
  destruct (dw_wadd mw i w g H W Ha Hb (acc_bits q) c2 (w_kh w * w_kw w * c1) (q_zi q) ch _ Hc2 Hzi Hpz D2 ltac:(lia) AW) as [E1 E2].
  cbv zeta in D1, E1. rewrite ptaps_sub in E1, E2.
  match type of E1 with _ = Some ?X => assert (EX : X = dsum ch) end.
  { unfold dsum, ptaps. apply taps_ext; [|reflexivity]. intros; ring. }
  rewrite EX in E1, E2. split; [|exact E2]. unfold depthwise_value. cbv zeta. rewrite D1. cbn [bind].
  rewrite q_in_add2_eq, Hzw. unfold additive2D at 1. cbn [Z.eqb bind]. rewrite q_weights_add2_eq, E1. cbn [bind].
  rewrite rd_load by auto. cbn [bind]. rewrite bias_add_bits; [reflexivity|auto|apply abs_in_bits; lia|auto|apply (window_size i w g H W Ha Hb)].
Qed.
End Val.

(** * The output loops *)

Lemma out_loops_ok (value : Z -> Z -> Z -> option Z) (o : ptensor) rows cols nch m :
  let dom h w c := 0 <= h < rows /\ 0 <= w < cols /\ 0 <= c < nch in
  let at_ h w c := p_ptr o + p_row o * h + p_col o * w + p_chs o * c in
  0 <= rows -> 0 <= cols -> 0 <= nch ->
  (forall h w c h' w' c', dom h w c -> dom h' w' c' -> at_ h w c = at_ h' w' c' -> h = h' /\ w = w' /\ c = c') ->
  (forall h w c, dom h w c -> allocated m (at_ h w c)) ->
  (forall h w c, dom h w c -> exists v, value h w c = Some v) ->
  exists m', out_loops value o rows cols nch m = Some m'
    /\ (forall h w c, dom h w c -> m' (at_ h w c) = value h w c)
    /\ (forall a, (forall h w c, dom h w c -> at_ h w c <> a) -> m' a = m a).
Proof.
  intros dom at_ R C N Inj Al Val.
  assert (G : exists m', out_loops value o rows cols nch m = Some m' /\ filled dom at_ value m (fun h w c => False \/ exists x, 0 <= x < rows /\ h = x) m').
  { unfold out_loops. apply filled_loop0; auto.
    { split; [|split]; [tauto|reflexivity|auto]. }
    intros h R1 m1 Hh F1.
    destruct (filled_loop0 dom at_ value m Inj (fun w m2 => foldM (fun oc m3 => do v <- value h w oc;
        store m3 (p_ptr o + p_row o * h + p_col o * w + p_chs o * oc) v) (zrange 0 nch) m2) (fun w h' w' c' => h' = h /\ w' = w) 0 cols R1 m1 C F1) as (m2 & E2 & F2).
    { intros w R2 m2 Hw F2.
      destruct (filled_loop0 dom at_ value m Inj (fun oc m3 => do v <- value h w oc;
        store m3 (p_ptr o + p_row o * h + p_col o * w + p_chs o * oc) v) (fun c h' w' c' => h' = h /\ w' = w /\ c' = c) 0 nch R2 m2 N F2) as (m3 & E3 & F3).
      { intros c R3 m3 Hcc F3. assert (D : dom h w c) by (unfold dom; lia). destruct (Val h w c D) as (v & Ev). rewrite Ev. cbn [bind].
        apply (filled_store dom at_ value m Inj); auto. }
      exists m3. split; [exact E3|]. eapply filled_ext; [exact F3|]. intros h' w' c' (D1 & D2 & D3). cbv beta. split.
      - intros [?|(x & Hx & ? & ? & ?)]; auto.
      - intros [?|(? & ?)]; [auto|]. right. exists c'. auto. }
    exists m2. split; [exact E2|]. eapply filled_ext; [exact F2|]. intros h' w' c' (D1 & D2 & D3). cbv beta. split.
    - intros [?|(x & Hx & ? & ?)]; auto.
    - intros [?|?]; [auto|]. right. exists w'. auto. }
  destruct G as (m' & E & F1 & F2 & F3). exists m'. split; [exact E|]. split.
  - intros h w c D. destruct (F1 h w c D) as (v & Ev & Em); [|congruence]. right. exists h. destruct D. auto.
  - intros a Hn. apply F2. auto.
Qed.
