(** C35, C57: the transposed convolution kernels. *)
From Coq Require Import ZArith List Lia Bool QArith Qabs.
From Verif Require Import Base FxMath FxMathProofs Tensor TensorProofs Permute PermuteProofs Mov MovProofs ArgMax ArgMaxProofs QSpec Quant QuantProofs QuantCastProofs
  DotProd DotProdProofs Layout Pool PoolProofs PoolKernels Conv ConvSpec ConvProofs ConvValues ConvKernels ConvTheorems ConvInt TransConv TransConvProofs.
Import ListNotations.
Open Scope Z_scope.

Section Setup.
Context (mi mw mb m : mem) (tin tw tb tout : tensor) (c : conv_cfg).
Context (Hchk : chk_transpose tin tw tb tout c = ST_OK) (Hf : conv_fits tin tw tout c).
Context (Fi : fits32 tin) (Fw : fits32 tw) (Fb : fits32 tb) (Fo : fits32 tout).
Context (Bi : backed tin mi) (Bw : backed tw mw) (Bb : backed tb mb) (Bo : backed tout m).

Definition tph (kh : Z) : phase := trans_phase (dim tin 0) (dim tout 0) (dim tw 0) (cv_sh c) (dim tw 0 - cv_top c - 1) kh.
Definition tpw (kw : Z) : phase := trans_phase (dim tin 1) (dim tout 1) (dim tw 1) (cv_sw c) (dim tw 1 - cv_left c - 1) kw.
Definition tw0 : wtensor := get_weights_hwcn tw 0.
Definition tws (kh kw : Z) : wtensor := sub_weights (mirrored tw0) (cv_sw c) (cv_sh c) kw kh.
Definition tin' (kh kw : Z) : ptensor :=
  mkP (t_data tin + (nth 0 (t_stride tin) 0 * ph_in_off (tph kh) + nth 1 (t_stride tin) 0 * ph_in_off (tpw kw)))
    (ph_in (tpw kw)) (ph_in (tph kh)) (dim tin 2) (nth 1 (t_stride tin) 0) (nth 0 (t_stride tin) 0) 1.
Definition tg (kh kw : Z) : geom := mkG 1 1 1 1 (ph_pad (tph kh)) (ph_pad (tpw kw)).

Lemma trans_ax : trans_axis (dim tin 0) (dim tout 0) (dim tw 0) (cv_sh c) (cv_top c) (cv_bottom c)
  /\ trans_axis (dim tin 1) (dim tout 1) (dim tw 1) (cv_sw c) (cv_left c) (cv_right c).
Proof. destruct (chk_trans_spec _ _ _ _ _ Hchk Hf Fi Fw Fb Fo) as (_ & _ & _ & _ & _ & _ & A & B). auto. Qed.

Lemma trans_loops rm full q lo hi bias (V : Z -> Z -> Z -> option Z) :
  (forall H W oc, 0 <= H < dim tout 0 -> 0 <= W < dim tout 1 -> 0 <= oc < dim tout 2 -> exists v, V H W oc = Some v) ->
  (forall kh kw j l oc, 0 <= kh < cv_sh c -> 0 <= kw < cv_sw c -> 0 <= j < ph_out (tph kh) -> 0 <= l < ph_out (tpw kw) -> 0 <= oc < dim tout 2 ->
     conv_value rm full q lo hi mi mw bias (tin' kh kw) (match bias with Some _ => tws kh kw | None => mirrored tw0 end) (tws kh kw) (tg kh kw) j l oc
     = V (ph_out_off (tph kh) + j * cv_sh c) (ph_out_off (tpw kw) + l * cv_sw c) oc) ->
  exists m', transpose_run rm full q lo hi mi mw bias (get_tensor_hwc tin) tw0 (get_tensor_hwc tout) c m = Some m'
    /\ (forall H W oc, valid (t_shape tout) [H; W; oc] ->
          0 <= H < dim tout 0 /\ 0 <= W < dim tout 1 /\ 0 <= oc < dim tout 2 /\ hwc_elem m' tout H W oc = V H W oc)
    /\ frame_ok tout m m'.
Proof.
  intros HV HC.
  destruct trans_ax as [(A1 & A2 & A3 & A4 & A5 & A6 & A7) (B1 & B2 & B3 & B4 & B5 & B6 & B7)].
  destruct (chk_trans_spec _ _ _ _ _ Hchk Hf Fi Fw Fb Fo) as ((_ & _ & _ & Co) & _ & _ & _ & _ & (h & ww & ch & sr & sc & Es & Et & P1 & P2 & P3) & _).
  set (dom := fun H W k => 0 <= H < dim tout 0 /\ 0 <= W < dim tout 1 /\ 0 <= k < dim tout 2).
  set (at_ := hwc_addr tout).
  assert (Dom : forall H W k, dom H W k <-> valid (t_shape tout) [H; W; k]).
  { intros. unfold dom, dim. rewrite Es. cbn [nth valid]. tauto. }
  assert (Inj : forall a1 a2 a3 b1 b2 b3, dom a1 a2 a3 -> dom b1 b2 b3 -> at_ a1 a2 a3 = at_ b1 b2 b3 -> a1 = b1 /\ a2 = b2 /\ a3 = b3).
  { intros a1 a2 a3 b1 b2 b3 Da Db E. destruct (chk_tensor_nested tout Fo Co) as [N _]. unfold at_, hwc_addr in E.
    assert (E2 : [a1; a2; a3] = [b1; b2; b3]) by (eapply nested_inj; [exact N|now apply Dom|now apply Dom|lia]).
    injection E2. auto. }
  assert (F0 : filled dom at_ V m (fun _ _ _ => False) m).
  { split; [|split]; [tauto|reflexivity|]. intros H W k D. apply (chk_backed tout m Fo Co Bo). now apply Dom. }
  assert (D2 : 0 <= dim tout 2) by (unfold dim; rewrite Es; cbn [nth]; lia).
  destruct (phases_filled dom at_ V m Inj
    (fun kh kw m => out_loops (conv_value rm full q lo hi mi mw bias (tin' kh kw) (match bias with Some _ => tws kh kw | None => mirrored tw0 end) (tws kh kw) (tg kh kw))
      (mkP (t_data tout + nth 0 (t_stride tout) 0 * ph_out_off (tph kh) + nth 1 (t_stride tout) 0 * ph_out_off (tpw kw)) (ph_out (tpw kw)) (ph_out (tph kh)) (dim tout 2)
         (nth 1 (t_stride tout) 0 * cv_sw c) (nth 0 (t_stride tout) 0 * cv_sh c) 1) (ph_out (tph kh)) (ph_out (tpw kw)) (dim tout 2) m)
    (fun kh kw H W k => exists j, 0 <= j < ph_out (tph kh) /\ exists l, 0 <= l < ph_out (tpw kw) /\ exists k', 0 <= k' < dim tout 2
       /\ H = ph_out_off (tph kh) + j * cv_sh c /\ W = ph_out_off (tpw kw) + l * cv_sw c /\ k = k')
    (cv_sh c) (cv_sw c) (fun _ _ _ => False) m) as (m' & E & F); [lia|lia| |exact F0|].
  { intros kh kw R m1 Hkh Hkw F1.
    pose proof (phase_off (dim tin 0) (dim tout 0) (dim tw 0) (cv_sh c) (cv_top c) kh ltac:(auto) ltac:(auto) ltac:(auto)) as OH.
    pose proof (phase_off (dim tin 1) (dim tout 1) (dim tw 1) (cv_sw c) (cv_left c) kw ltac:(auto) ltac:(auto) ltac:(auto)) as OW.
    apply (out_loops_filled dom at_ V m Inj _ _ (fun j => ph_out_off (tph kh) + j * cv_sh c) (fun l => ph_out_off (tpw kw) + l * cv_sw c)); auto.
    - change (ph_out (tph kh)) with (ceil_div (dim tout 0 - ph_out_off (tph kh)) (cv_sh c)). fold (tph kh) in OH. rewrite ceil_div_div by lia. apply Z.div_pos; lia.
    - change (ph_out (tpw kw)) with (ceil_div (dim tout 1 - ph_out_off (tpw kw)) (cv_sw c)). fold (tpw kw) in OW. rewrite ceil_div_div by lia. apply Z.div_pos; lia.
    - intros j l k Hj Hl Hk. split.
      { destruct (phase_out (dim tin 0) (dim tout 0) (dim tw 0) (cv_sh c) (cv_top c) kh ltac:(auto) ltac:(auto) ltac:(auto) ltac:(auto) j) as [X _]. destruct (X Hj) as [_ X1].
        destruct (phase_out (dim tin 1) (dim tout 1) (dim tw 1) (cv_sw c) (cv_left c) kw ltac:(auto) ltac:(auto) ltac:(auto) ltac:(auto) l) as [Y _]. destruct (Y Hl) as [_ Y1].
        split; [exact X1|]. split; [exact Y1|exact Hk]. }
      split. { cbn [p_ptr p_row p_col p_chs]. unfold at_, hwc_addr. rewrite Et. cbn [nth addr]. ring. }
      split; [apply HC; auto|]. apply HV.
      + destruct (phase_out (dim tin 0) (dim tout 0) (dim tw 0) (cv_sh c) (cv_top c) kh ltac:(auto) ltac:(auto) ltac:(auto) ltac:(auto) j) as [X _]. apply X, Hj.
      + destruct (phase_out (dim tin 1) (dim tout 1) (dim tw 1) (cv_sw c) (cv_left c) kw ltac:(auto) ltac:(auto) ltac:(auto) ltac:(auto) l) as [Y _]. apply Y, Hl.
      + exact Hk. }
  destruct F as (F1 & F2 & F3). exists m'. split; [exact E|]. split.
  - intros H W k Vd. apply Dom in Vd. pose proof Vd as (D1 & D3 & D4). do 3 (split; [auto|]).
    destruct (F1 H W k Vd) as (v & Ev & Em).
    + right. destruct (phase_cover (dim tin 0) (dim tout 0) (dim tw 0) (cv_sh c) (cv_top c) H A2 A4 D1) as (kh & j & K1 & K2 & K3).
      destruct (phase_cover (dim tin 1) (dim tout 1) (dim tw 1) (cv_sw c) (cv_left c) W B2 B4 D3) as (kw & l & L1 & L2 & L3).
      exists kh. split; [exact K1|]. exists kw. split; [exact L1|]. exists j. split; [exact K2|]. exists l. split; [exact L2|]. exists k. auto.
    + unfold hwc_elem. fold at_. congruence.
  - intros a Ha. apply F2. intros H W k D _ X. apply (Ha [H; W; k]); [now apply Dom|]. symmetry. exact X.
Qed.

Lemma trans_ia kh kw r cl ic : ia (tin' kh kw) r cl ic = t_data tin + addr (t_stride tin) [r + ph_in_off (tph kh); cl + ph_in_off (tpw kw); ic].
Proof.
  destruct (chk_trans_spec _ _ _ _ _ Hchk Hf Fi Fw Fb Fo) as (_ & _ & (h & ww & ch & sr & sc & Es & Et & _) & _).
  unfold ia, tin'. cbn [p_ptr p_row p_col p_chs]. rewrite Et. cbn [nth addr]. ring.
Qed.

Lemma trans_wa kh kw t u ic oc : wa (tws kh kw) t u ic oc
  = t_data tw + addr (t_stride tw) [dim tw 0 - 1 - (kh + t * cv_sh c); dim tw 1 - 1 - (kw + u * cv_sw c); ic; oc].
Proof.
  destruct (chk_trans_spec _ _ _ _ _ Hchk Hf Fi Fw Fb Fo) as (_ & _ & _ & (h & ww & d & n & sr & sc & sd & Es & Et & _) & _).
  unfold wa, tws, sub_weights, mirrored, tw0, get_weights_hwcn, dim. cbn [w_ptr w_row w_col w_ins w_outs w_kh w_kw Z.eqb negb]. rewrite Et. cbn [nth addr]. ring.
Qed.

Lemma trans_wm kr kc ic oc : wa (mirrored tw0) kr kc ic oc
  = t_data tw + addr (t_stride tw) [dim tw 0 - 1 - kr; dim tw 1 - 1 - kc; ic; oc].
Proof.
  destruct (chk_trans_spec _ _ _ _ _ Hchk Hf Fi Fw Fb Fo) as (_ & _ & _ & (h & ww & d & n & sr & sc & sd & Es & Et & _) & _).
  unfold wa, mirrored, tw0, get_weights_hwcn, dim. cbn [w_ptr w_row w_col w_ins w_outs w_kh w_kw Z.eqb negb]. rewrite Et. cbn [nth addr]. ring.
Qed.

Lemma trans_ai kh kw r cl ic : 0 <= kh < cv_sh c -> 0 <= kw < cv_sw c ->
  0 <= r < p_h (tin' kh kw) -> 0 <= cl < p_w (tin' kh kw) -> 0 <= ic < dim tin 2 -> allocated mi (ia (tin' kh kw) r cl ic).
Proof.
  intros Hkh Hkw Hr Hcl Hic. rewrite trans_ia.
  destruct trans_ax as [(A1 & A2 & A3 & A4 & A5 & A6 & A7) (B1 & B2 & B3 & B4 & B5 & B6 & B7)].
  pose proof (phase_pad (dim tin 0) (dim tout 0) (dim tw 0) (cv_sh c) (cv_top c) kh ltac:(auto) ltac:(auto) ltac:(auto) ltac:(auto)) as (_ & PH & _).
  pose proof (phase_pad (dim tin 1) (dim tout 1) (dim tw 1) (cv_sw c) (cv_left c) kw ltac:(auto) ltac:(auto) ltac:(auto) ltac:(auto)) as (_ & PW & _).
  fold (tph kh) in PH. fold (tpw kw) in PW.
  destruct (chk_trans_spec _ _ _ _ _ Hchk Hf Fi Fw Fb Fo) as ((Ci & _) & _ & (h & ww & ch & sr & sc & Es & Et & P1 & P2 & P3) & _).
  apply (chk_backed tin mi Fi Ci Bi). cbn [p_h p_w tin'] in Hr, Hcl.
  assert (X : r + ph_in_off (tph kh) < dim tin 0).
  { assert (E : ph_in (tph kh) <= dim tin 0 - ph_in_off (tph kh)) by apply Z.le_min_r. lia. }
  assert (Y : cl + ph_in_off (tpw kw) < dim tin 1).
  { assert (E : ph_in (tpw kw) <= dim tin 1 - ph_in_off (tpw kw)) by apply Z.le_min_r. lia. }
  unfold dim in X, Y, Hic. rewrite Es in X, Y, Hic |- *. cbn [nth valid] in *. lia.
Qed.

Lemma trans_aw kh kw t u ic oc : 0 <= kh < cv_sh c -> 0 <= kw < cv_sw c ->
  0 <= t < w_kh (tws kh kw) -> 0 <= u < w_kw (tws kh kw) -> 0 <= ic < dim tw 2 -> 0 <= oc < dim tw 3 -> allocated mw (wa (tws kh kw) t u ic oc).
Proof.
  intros Hkh Hkw Ht Hu Hic Hoc. rewrite trans_wa.
  destruct trans_ax as [(A1 & A2 & A3 & A4 & A5 & A6 & A7) (B1 & B2 & B3 & B4 & B5 & B6 & B7)].
  change (w_kh (tws kh kw)) with (ceil_div (dim tw 0 - kh) (cv_sh c)) in Ht. change (w_kw (tws kh kw)) with (ceil_div (dim tw 1 - kw) (cv_sw c)) in Hu.
  assert (X : t * cv_sh c < dim tw 0 - kh) by (apply ceil_div_range; lia).
  assert (Y : u * cv_sw c < dim tw 1 - kw) by (apply ceil_div_range; lia).
  assert (0 <= t * cv_sh c) by (apply Z.mul_nonneg_nonneg; lia). assert (0 <= u * cv_sw c) by (apply Z.mul_nonneg_nonneg; lia).
  destruct (chk_trans_spec _ _ _ _ _ Hchk Hf Fi Fw Fb Fo) as ((_ & Cw & _) & _ & _ & (h & ww & d & n & sr & sc & sd & Es & Et & _) & _).
  apply (chk_backed tw mw Fw Cw Bw). unfold dim in *. rewrite Es in *. cbn [nth valid] in *. lia.
Qed.

Lemma trans_am kr kc ic oc : 0 <= kr < dim tw 0 -> 0 <= kc < dim tw 1 -> 0 <= ic < dim tw 2 -> 0 <= oc < dim tw 3 -> allocated mw (wa (mirrored tw0) kr kc ic oc).
Proof.
  intros Hr Hc Hic Hoc. rewrite trans_wm.
  destruct (chk_trans_spec _ _ _ _ _ Hchk Hf Fi Fw Fb Fo) as ((_ & Cw & _) & _ & _ & (h & ww & d & n & sr & sc & sd & Es & Et & _) & _).
  apply (chk_backed tw mw Fw Cw Bw). unfold dim in *. rewrite Es in *. cbn [nth valid] in *. lia.
Qed.

Lemma trans_bias k : rd mb (t_data tb + k) = at1 mb tb k /\ (0 <= k < dim tb 0 -> allocated mb (t_data tb + k)).
Proof.
  destruct (chk_trans_spec _ _ _ _ _ Hchk Hf Fi Fw Fb Fo) as ((_ & _ & Cb & _) & _ & _ & _ & (n & Es & Et & _) & _).
  pose proof (chk_backed tb mb Fb Cb Bb [k]) as A. unfold at1, dim. rewrite Es, Et in *. cbn [nth addr valid] in *.
  replace (t_data tb + (1 * k + 0)) with (t_data tb + k) in * by ring. split; [reflexivity|]. intros. apply A. lia.
Qed.

(** The taps of a phase gather the inputs that meet the kernel. *)
Lemma trans_ptaps kh kw j l (X : Z -> Z -> Z -> Z -> Z) : 0 <= kh < cv_sh c -> 0 <= kw < cv_sw c -> 0 <= j < ph_out (tph kh) -> 0 <= l < ph_out (tpw kw) ->
  ptaps (tin' kh kw) (tws kh kw) (tg kh kw) j l
    (fun t u => X (tr (tg kh kw) j t + ph_in_off (tph kh)) (tc (tg kh kw) l u + ph_in_off (tpw kw)) (dim tw 0 - 1 - (kh + t * cv_sh c)) (dim tw 1 - 1 - (kw + u * cv_sw c))) (fun _ _ => 0)
  = gather2 (dim tin 0) (dim tin 1) (dim tw 0) (dim tw 1) (cv_sh c) (cv_sw c) (cv_top c) (cv_left c)
      (ph_out_off (tph kh) + j * cv_sh c) (ph_out_off (tpw kw) + l * cv_sw c) X (fun _ _ => 0).
Proof.
  intros Hkh Hkw Hj Hl.
  destruct trans_ax as [(A1 & A2 & A3 & A4 & A5 & A6 & A7) (B1 & B2 & B3 & B4 & B5 & B6 & B7)].
  etransitivity; [|apply (taps_gather (dim tin 0) (dim tout 0) (dim tw 0) (cv_sh c) (cv_top c) (cv_bottom c) kh (dim tin 1) (dim tout 1) (dim tw 1) (cv_sw c) (cv_left c) (cv_right c) kw j l X); auto].
  unfold ptaps. apply taps_ext; [|reflexivity]. intros t u _ _ _. unfold tr, tc, tg. cbn [g_sh g_sw g_pt g_pl g_dh g_dw].
  rewrite !Z.mul_1_r. reflexivity.
Qed.

Lemma trans_axes kh kw j l : 0 <= kh < cv_sh c -> 0 <= kw < cv_sw c -> 0 <= j < ph_out (tph kh) -> 0 <= l < ph_out (tpw kw) ->
  axis_ok (j * g_sh (tg kh kw) - g_pt (tg kh kw)) (w_kh (tws kh kw)) (g_dh (tg kh kw)) (p_h (tin' kh kw))
  /\ axis_ok (l * g_sw (tg kh kw) - g_pl (tg kh kw)) (w_kw (tws kh kw)) (g_dw (tg kh kw)) (p_w (tin' kh kw))
  /\ 0 <= w_kh (tws kh kw) <= dim tw 0 /\ 0 <= w_kw (tws kh kw) <= dim tw 1.
Proof.
  intros Hkh Hkw Hj Hl.
  destruct trans_ax as [(A1 & A2 & A3 & A4 & A5 & A6 & A7) (B1 & B2 & B3 & B4 & B5 & B6 & B7)].
  split; [apply (phase_axis (dim tin 0) (dim tout 0) (dim tw 0) (cv_sh c) (cv_top c) (cv_bottom c) kh); auto|].
  split; [apply (phase_axis (dim tin 1) (dim tout 1) (dim tw 1) (cv_sw c) (cv_left c) (cv_right c) kw); auto|].
  change (w_kh (tws kh kw)) with (ceil_div (dim tw 0 - kh) (cv_sh c)). change (w_kw (tws kh kw)) with (ceil_div (dim tw 1 - kw) (cv_sw c)).
  rewrite !ceil_div_div by lia. split; (split; [apply Z.div_pos; lia|]).
  - apply Z.div_le_upper_bound; [lia|]. clear - A2 A3 A4 Hkh. nia.
  - apply Z.div_le_upper_bound; [lia|]. clear - B2 B3 B4 Hkw. nia.
Qed.
End Setup.

Lemma gather2_abs nh nw kh kw sh sw pt pl H W X b : 0 <= kh -> 0 <= kw -> 0 <= b -> (forall r cl kr kc, Z.abs (X r cl kr kc) <= b) ->
  Z.abs (gather2 nh nw kh kw sh sw pt pl H W X (fun _ _ => 0)) <= kh * (kw * b).
Proof.
  intros K1 K2 Hb HX. unfold gather2. apply zsum_abs_le; auto. intros kr _. apply zsum_abs_le; auto. intros kc _.
  destruct (_ && _); [apply HX|]. rewrite Z.abs_0. exact Hb.
Qed.

Lemma transpose_conv_run rm full q no oq mi mw mb m tin tw tb tout c c1 c2 :
  chk_transpose tin tw tb tout c = ST_OK -> conv_fits tin tw tout c ->
  fits32 tin -> fits32 tw -> fits32 tb -> fits32 tout -> backed tin mi -> backed tw mw -> backed tb mb -> backed tout m ->
  0 <= c1 -> 0 <= c2 -> q_biased q -> q_zw q = 0 -> Z.abs (q_zi q) <= 32767 ->
  (forall a b, Z.abs (rd mi a * rd mw b) <= c1) -> (forall a, Z.abs (q_zi q * rd mw a) <= c2) ->
  dim tin 2 * dim tw 0 * dim tw 1 * (c1 + c2) <= smax (acc_bits q) ->
  exists m', transpose_conv2d rm full q no oq mi mw (Some (mb, t_data tb)) tin tw tout c m = Some m'
    /\ computes rm full q no oq (cv_relu c) (dim tin 2 * dim tw 0 * dim tw 1 * (c1 + c2))
         (transpose_sum mi mw tin tw c (q_zi q) 0) (at1 mb tb) tout m m'.
Proof.
  intros Hchk Hf Fi Fw Fb Fo Bi Bw Bb Bo Hc1 Hc2 Hq Hzw Hzi Hp Hpz HB.
  destruct (chk_trans_spec _ _ _ _ _ Hchk Hf Fi Fw Fb Fo) as (_ & (Ch1 & Ch2 & Ch3) & (h & ww & ch & sr & sc & Es & Et & P1 & P2 & P3)
    & (kh0 & kw0 & d & n & wr & wc & wd & Es1 & Et1 & Q1 & Q2 & Q3 & Q4) & _ & _ & (A1 & A2 & A3 & A4 & A5 & A6 & A7) & (B1 & B2 & B3 & B4 & B5 & B6 & B7)).
  assert (D2 : 0 < dim tin 2) by (unfold dim; rewrite Es; exact P3).
  unfold transpose_conv2d, computes. destruct (get_relu_limits no (cv_relu c) oq) as [lo hi].
  set (S := transpose_sum mi mw tin tw c (q_zi q) 0).
  assert (SG : forall H W oc, S H W oc = gather2 (dim tin 0) (dim tin 1) (dim tw 0) (dim tw 1) (cv_sh c) (cv_sw c) (cv_top c) (cv_left c) H W
    (fun r cl kr kc => zsum 0 (dim tin 2) (fun ic => (at3 mi tin r cl ic - q_zi q) * (at4 mw tw kr kc ic oc - 0))) (fun _ _ => 0)).
  { intros H W oc. unfold S, transpose_sum. apply scatter_gather; lia. }
  destruct (trans_loops mi mw m tin tw tb tout c Hchk Hf Fi Fw Fb Fo Bo rm full q lo hi (Some (mb, t_data tb))
    (fun H W oc => Some (relu_clip (q_result rm full q oc (q_bias_add rm full q (at1 mb tb oc) (S H W oc))) lo hi))) as (m' & E & E1 & E2).
  - eauto.
  - intros kh kw j l oc Hkh Hkw Hj Hl Hoc.
    destruct (trans_axes tin tw tb tout c Hchk Hf Fi Fw Fb Fo kh kw j l Hkh Hkw Hj Hl) as (X1 & X2 & X3 & X4).
    destruct (trans_bias mb tin tw tb tout c Hchk Hf Fi Fw Fb Fo Bb oc) as [Eb Ab].
    destruct (conv_value_ok rm full q lo hi mi mw mb (t_data tb) (tin' tin tw tout c kh kw) (tws tw c kh kw) (tg tin tw tout c kh kw) j l X1 X2
      c1 c2 Hc1 Hc2 Hq Hzw Hzi Hp Hpz (tws tw c kh kw) oc) as [V1 V2].
    + exact (Z.lt_le_incl _ _ D2).
    + eapply Z.le_trans; [|exact HB]. cbn [p_ch tin']. apply mul3_le; lia.
    + intros r cl ic Hr Hcl Hic. apply (trans_ai mi tin tw tb tout c Hchk Hf Fi Fw Fb Fo Bi); auto.
    + intros kr kc ic Hr Hcl Hic. cbn [p_ch tin'] in Hic. apply (trans_aw mw tin tw tb tout c Hchk Hf Fi Fw Fb Fo Bw); auto; lia.
    + apply Ab. lia.
    + rewrite V1, Eb. do 5 f_equal. rewrite SG.
      rewrite <- (trans_ptaps tin tw tb tout c Hchk Hf Fi Fw Fb Fo kh kw j l _ Hkh Hkw Hj Hl). unfold psum, ptaps. apply taps_ext; [|reflexivity].
      intros t u _ _ _. cbn [p_ch tin']. apply zsum_ext. intros ic _. unfold at3, at4.
      rewrite (trans_ia tin tw tb tout c Hchk Hf Fi Fw Fb Fo), (trans_wa tin tw tb tout c Hchk Hf Fi Fw Fb Fo). rewrite Z.sub_0_r, Z.add_0_l. reflexivity.
  - exists m'. split; [exact E|]. split; [|exact E2]. intros H W oc Hv. destruct (E1 H W oc Hv) as (_ & _ & _ & X). split; [|exact X].
    rewrite SG. eapply Z.le_trans; [apply gather2_abs with (b := dim tin 2 * (c1 + c2)); [lia|lia|apply Z.mul_nonneg_nonneg; lia|]|].
    + intros r cl kr kc. apply zsum_abs_le; [lia|]. intros ic _. unfold at3, at4. rewrite Z.sub_0_r, Z.mul_sub_distr_r.
      match goal with |- Z.abs (rd mi ?a * rd mw ?b - _) <= _ => pose proof (Hp a b); pose proof (Hpz b) end. lia.
    + apply Z.eq_le_incl. ring.
Qed.

(** * C35 *)

(** C35: mli_krn_transpose_conv2d for FX. *)
Theorem transpose_conv2d_fx_correct rm full na nb no fin fw fb fout mi mw mb m tin tw tb tout c :
  chk_transpose tin tw tb tout c = ST_OK -> conv_fits tin tw tout c ->
  fits32 tin -> fits32 tw -> fits32 tb -> fits32 tout -> backed tin mi -> backed tw mw -> backed tb mb -> backed tout m ->
  mem_bits na mi -> mem_bits nb mw -> mem_bits nb mb ->
  1 <= na -> (no = 8 \/ no = 16) -> (nb = 16 -> no = 16) -> in_bits 8 fout -> (cv_relu c = RELU_1 -> fout < 30) ->
  fx_acc_ok na nb no (dim tin 2 * dim tw 0 * dim tw 1) fin fw fb fout ->
  exists m', transpose_conv2d rm full (fx_quant nb no fin fw fb fout) no (fx_qpar fout) mi mw (Some (mb, t_data tb)) tin tw tout c m = Some m'
    /\ fx_results rm no (cv_relu c) fin fw fb fout (transpose_sum mi mw tin tw c 0 0) (at1 mb tb) tout m m'.
Proof.
  intros Hchk Hf Fi Fw Fb Fo Bi Bw Bb Bo Mi Mw Mb Hna Hno H16 If H1 Hok.
  assert (Hnb : 1 <= nb) by (destruct Hok as [? _]; lia).
  destruct (fx_zi nb no fin fw fb fout) as (Z1 & Z2 & Z3 & Z4).
  destruct (chk_trans_spec _ _ _ _ _ Hchk Hf Fi Fw Fb Fo) as (_ & _ & (h & w & ch & sr & sc & Es & _ & _ & _ & P3) & _ & _ & _ & (A1 & A2 & A3 & _) & (B1 & B2 & B3 & _)).
  assert (D2 : 0 < dim tin 2) by (unfold dim; rewrite Es; exact P3).
  destruct (transpose_conv_run rm full (fx_quant nb no fin fw fb fout) no (fx_qpar fout) mi mw mb m tin tw tb tout c (2 ^ (na + nb - 2)) 0
    Hchk Hf Fi Fw Fb Fo Bi Bw Bb Bo) as (m' & E & C); auto; try lia.
  - intros a b. apply prod_bits; auto; apply rd_bits; auto.
  - rewrite Z4. eapply fx_acc_room; eauto.
  - rewrite Z1 in C. exists m'. split; [exact E|]. refine (fx_computes _ _ na _ _ _ _ _ _ _ _ _ _ _ _ _ Hno Hna _ H16 Hok If H1 _ C).
    + rewrite <- Z.mul_assoc. apply Z.mul_nonneg_nonneg; [lia|]. apply Z.mul_nonneg_nonneg; lia.
    + intros. now apply at1_bits.
Qed.

(** C35: mli_krn_transpose_conv2d for SA8 (FULL_ACCU builds). *)
Theorem transpose_conv2d_sa8_correct rm i o wdim wzp wsc wfr mi mw mb m tin tw tb tout c :
  chk_transpose tin tw tb tout c = ST_OK -> chk_quant_sa8 i o wdim (dim tw 3) wzp wsc = true -> conv_fits tin tw tout c ->
  fits32 tin -> fits32 tw -> fits32 tb -> fits32 tout -> backed tin mi -> backed tw mw -> backed tb mb -> backed tout m ->
  mem_bits 8 mi -> mem_bits 8 mw -> mem_bits 32 mb ->
  sa_fields i -> sa_fields o -> (forall k, wsc k <= 32767) -> relu_frac_ok (cv_relu c) o ->
  (forall oc, 0 <= oc < dim tw 3 -> sa8_acc_ok (dim tin 2 * dim tw 0 * dim tw 1) (at1 mb tb oc)) ->
  exists m', transpose_conv2d rm true (Q_s8 (define_s8_params rm i o wdim wzp wsc wfr)) 8 o mi mw (Some (mb, t_data tb)) tin tw tout c m = Some m'
    /\ sa8_results (cv_relu c) i o wdim wsc wfr (transpose_sum mi mw tin tw c (q_zp i) 0) (at1 mb tb) tout m m'.
Proof.
  intros Hchk Hq Hf Fi Fw Fb Fo Bi Bw Bb Bo Mi Mw Mb Si So Hs Hr Hacc.
  destruct (chk_trans_spec _ _ _ _ _ Hchk Hf Fi Fw Fb Fo) as (_ & (Ch1 & Ch2 & Ch3) & _ & (kh0 & kw0 & d & n & wr & wc & wd & Es1 & Et1 & Q01 & Q02 & Q03 & Q04) & _ & (h & w & ch & sr & sc & Es & _) & _).
  assert (D5 : 0 < dim tw 3) by (unfold dim; rewrite Es1; exact Q04).
  destruct (chk_quant_spec _ _ _ _ _ _ Hq D5) as (Q1 & Q2 & Q3 & Q4 & Q5 & Q6).
  set (q := Q_s8 (define_s8_params rm i o wdim wzp wsc wfr)).
  assert (Z1 : q_zi q = q_zp i) by (cbn; unfold define_s8_params; destruct (norm_cast_fx rm 32 32 (q_scale i)); reflexivity).
  assert (Z2 : q_zw q = 0) by (cbn; unfold define_s8_params; destruct (norm_cast_fx rm 32 32 (q_scale i)); exact Q5).
  destruct (transpose_conv_run rm true q 8 o mi mw mb m tin tw tb tout c (2 ^ 14) (2 ^ 14) Hchk Hf Fi Fw Fb Fo Bi Bw Bb Bo) as (m' & E & C); auto; try lia.
  - exact I.
  - rewrite Z1. pose proof (proj1 (ib8 _) Q3). lia.
  - now apply s8_prods.
  - rewrite Z1. now apply s8_zprods.
  - specialize (Hacc 0 ltac:(lia)). unfold sa8_acc_ok in Hacc. change (acc_bits q) with 32. lia.
  - rewrite Z1 in C. exists m'. split; [exact E|].
    refine (sa8_computes rm _ _ i o wdim wzp wsc wfr (dim tw 3) _ _ _ _ _ Hq D5 Si So Hs Hr _ _ _ Hacc C).
    + intros. apply at1_bits; auto. lia.
    + exact Ch2.
    + rewrite Es. reflexivity.
Qed.

(** C35: no access outside of the tensors, whatever the sizes (the addresses do not depend on the data). *)
Theorem transpose_stays_inside rm full q no oq mi mw mb m tin tw tb tout c :
  scheme_ok q -> chk_transpose tin tw tb tout c = ST_OK -> conv_fits tin tw tout c ->
  fits32 tin -> fits32 tw -> fits32 tb -> fits32 tout -> backed tin mi -> backed tw mw -> backed tb mb -> backed tout m ->
  exists m', transpose_conv2d rm full q no oq (zeroed mi) (zeroed mw) (Some (mb, t_data tb)) tin tw tout c m = Some m' /\ frame_ok tout m m'.
Proof.
  intros (Z1 & Z2 & Z3) Hchk Hf Fi Fw Fb Fo Bi Bw Bb Bo. apply zeroed_backed in Bi, Bw.
  assert (P : forall a b, Z.abs (rd (zeroed mi) a * rd (zeroed mw) b) <= 0) by (intros; rewrite !zeroed_rd; reflexivity).
  assert (P2 : forall a, Z.abs (q_zi q * rd (zeroed mw) a) <= 0) by (intros; rewrite !zeroed_rd, Z.mul_0_r; reflexivity).
  assert (S0 : 0 <= smax (acc_bits q)) by (destruct q; vm_compute; discriminate).
  destruct (transpose_conv_run rm full q no oq (zeroed mi) (zeroed mw) mb m tin tw tb tout c 0 0 Hchk Hf Fi Fw Fb Fo Bi Bw Bb Bo) as (m' & E & _ & F); auto; try lia. eauto.
Qed.

(** * MLI 3.0 *)

Lemma gather2_fill nh nw kh kw sh sw pt pl H W X G :
  gather2 nh nw kh kw sh sw pt pl H W X G
  = gather2 nh nw kh kw sh sw pt pl H W X (fun _ _ => 0) + (zsum 0 kh (fun kr => zsum 0 kw (fun kc => G kr kc))
      - gather2 nh nw kh kw sh sw pt pl H W (fun _ _ kr kc => G kr kc) (fun _ _ => 0)).
Proof.
  unfold gather2. rewrite <- zsum_sub, <- zsum_add. apply zsum_ext. intros kr _. rewrite <- zsum_sub, <- zsum_add. apply zsum_ext. intros kc _.
  destruct (_ && _); lia.
Qed.

Lemma gather2_scale nh nw kh kw sh sw pt pl H W z G :
  gather2 nh nw kh kw sh sw pt pl H W (fun _ _ kr kc => z * G kr kc) (fun _ _ => 0) = z * gather2 nh nw kh kw sh sw pt pl H W (fun _ _ kr kc => G kr kc) (fun _ _ => 0).
Proof.
  unfold gather2. rewrite <- zsum_mul_l. apply zsum_ext. intros kr _. rewrite <- zsum_mul_l. apply zsum_ext. intros kc _.
  destruct (_ && _); lia.
Qed.

Lemma full_phase k ko s : 0 <= ko < s -> s <= k -> ceil_div (k - ko) s = k -> ko = 0 /\ s = 1.
Proof.
  intros A B E. rewrite ceil_div_div in E by lia. pose proof (Z.div_mod (k - ko + s - 1) s ltac:(lia)) as D.
  pose proof (Z.mod_pos_bound (k - ko + s - 1) s ltac:(lia)). rewrite E in D.
  assert ((k - 1) * (s - 1) + ko <= 0) by lia. clear - A B H0. nia.
Qed.

(** MLI 3.0 has no run-time checker; see [conv_shapes]. *)
Definition transpose_shapes (tin tw tout : tensor) (c : conv_cfg) : Prop :=
  exists tb, fits32 tb /\ chk_transpose tin tw tb tout c = ST_OK.

(** C57: the MLI 3.0 transposed convolution. *)
Theorem transpose_conv2d_int_correct rm full zi oq mi mw m tin tw tout c :
  transpose_shapes tin tw tout c -> conv_fits tin tw tout c -> fits32 tin -> fits32 tw -> fits32 tout ->
  backed tin mi -> backed tw mw -> backed tout m -> mem_bits 8 mi -> mem_bits 8 mw -> in_bits 8 zi ->
  dim tin 2 * dim tw 0 * dim tw 1 * (3 * 2 ^ 14) <= smax 32 ->
  exists m', transpose_conv2d rm full (Q_int zi 0) 32 oq mi mw None tin tw tout c m = Some m'
    /\ int_results (transpose_int_sum mi mw tin tw c zi) tout m m'.
Proof.
  intros (tb & Fb & Hchk) Hf Fi Fw Fo Bi Bw Bo Mi Mw Iz HB.
  destruct (chk_trans_spec _ _ _ _ _ Hchk Hf Fi Fw Fb Fo) as (_ & (Ch1 & Ch2 & Ch3) & (h & ww & ch & sr & sc & Es & Et & P1 & P2 & P3)
    & _ & _ & _ & (A1 & A2 & A3 & A4 & A5 & A6 & A7) & (B1 & B2 & B3 & B4 & B5 & B6 & B7)).
  assert (D2 : 0 < dim tin 2) by (unfold dim; rewrite Es; exact P3).
  unfold transpose_conv2d. destruct (get_relu_limits 32 (cv_relu c) oq) as [lo hi].
  pose proof (proj1 (ib8 _) Iz) as Bz.
  set (WS := fun oc kr kc => zsum 0 (dim tin 2) (fun ic => at4 mw tw kr kc ic oc)).
  set (XS := fun oc r cl kr kc => zsum 0 (dim tin 2) (fun ic => at3 mi tin r cl ic * at4 mw tw kr kc ic oc)).
  destruct (trans_loops mi mw m tin tw tb tout c Hchk Hf Fi Fw Fb Fo Bo rm full (Q_int zi 0) lo hi None
    (fun H W oc => Some (transpose_int_sum mi mw tin tw c zi H W oc))) as (m' & E & E1 & E2).
  - eauto.
  - intros kh kw j l oc Hkh Hkw Hj Hl Hoc.
    destruct (trans_axes tin tw tb tout c Hchk Hf Fi Fw Fb Fo kh kw j l Hkh Hkw Hj Hl) as (X1 & X2 & X3 & X4).
    set (H := ph_out_off (tph tin tw tout c kh) + j * cv_sh c). set (W := ph_out_off (tpw tin tw tout c kw) + l * cv_sw c).
    set (i := tin' tin tw tout c kh kw) in *. set (ws := tws tw c kh kw) in *. set (g := tg tin tw tout c kh kw) in *.
    change (w_kh (mirrored (tw0 tw))) with (dim tw 0) in *.
    rewrite (conv_int_value rm full lo hi mi mw i ws g j l X1 X2 zi (2 ^ 14) (2 ^ 14) ltac:(lia) ltac:(lia) ltac:(lia)
      (s8_prods _ _ Mi Mw) (s8_zprods _ _ Iz Mw) (mirrored (tw0 tw))).
    + f_equal. change (p_ch i) with (dim tin 2).
      change (w_kh (mirrored (tw0 tw))) with (dim tw 0). change (w_kw (mirrored (tw0 tw))) with (dim tw 1).
      assert (EX : ptaps i ws g j l (fun kr kc => zsum 0 (dim tin 2) (fun ic => rd mi (ia i (tr g j kr) (tc g l kc) ic) * rd mw (wa ws kr kc ic oc))) (fun _ _ => 0)
        = gather2 (dim tin 0) (dim tin 1) (dim tw 0) (dim tw 1) (cv_sh c) (cv_sw c) (cv_top c) (cv_left c) H W (XS oc) (fun _ _ => 0)).
      { unfold H, W. rewrite <- (trans_ptaps tin tw tb tout c Hchk Hf Fi Fw Fb Fo kh kw j l _ Hkh Hkw Hj Hl). unfold ptaps. apply taps_ext; [|reflexivity].
        intros t u _ _ _. unfold XS. apply zsum_ext. intros ic _. unfold at3, at4, i, ws.
        rewrite (trans_ia tin tw tb tout c Hchk Hf Fi Fw Fb Fo), (trans_wa tin tw tb tout c Hchk Hf Fi Fw Fb Fo). reflexivity. }
      assert (EW : ptaps i ws g j l (fun kr kc => zsum 0 (dim tin 2) (fun ic => rd mw (wa ws kr kc ic oc))) (fun _ _ => 0)
        = gather2 (dim tin 0) (dim tin 1) (dim tw 0) (dim tw 1) (cv_sh c) (cv_sw c) (cv_top c) (cv_left c) H W (fun _ _ => WS oc) (fun _ _ => 0)).
      { unfold H, W. rewrite <- (trans_ptaps tin tw tb tout c Hchk Hf Fi Fw Fb Fo kh kw j l _ Hkh Hkw Hj Hl). unfold ptaps. apply taps_ext; [|reflexivity].
        intros t u _ _ _. unfold WS. apply zsum_ext. intros ic _. unfold at4, ws.
        rewrite (trans_wa tin tw tb tout c Hchk Hf Fi Fw Fb Fo). reflexivity. }
      assert (EF : wsum mw (mirrored (tw0 tw)) (dim tin 2) oc = zsum 0 (dim tw 0) (fun kr => zsum 0 (dim tw 1) (fun kc => WS oc kr kc))).
      { rewrite (zsum_rev (dim tw 0)). unfold wsum. apply zsum_ext. intros kr _. etransitivity; [|symmetry; apply zsum_rev]. apply zsum_ext. intros kc _.
        unfold WS. apply zsum_ext. intros ic _. rewrite (trans_wm tin tw tb tout c Hchk Hf Fi Fw Fb Fo). reflexivity. }
      assert (ER : (if wn_rows (window i ws g j l) * wn_cols (window i ws g j l) =? dim tw 0 * dim tw 1 then 0 else
          zi * (wsum mw (mirrored (tw0 tw)) (dim tin 2) oc - ptaps i ws g j l (fun kr kc => zsum 0 (dim tin 2) (fun ic => rd mw (wa ws kr kc ic oc))) (fun _ _ => 0)))
        = zi * (wsum mw (mirrored (tw0 tw)) (dim tin 2) oc - ptaps i ws g j l (fun kr kc => zsum 0 (dim tin 2) (fun ic => rd mw (wa ws kr kc ic oc))) (fun _ _ => 0))).
      { destruct (Z.eqb_spec (wn_rows (window i ws g j l) * wn_cols (window i ws g j l)) (dim tw 0 * dim tw 1)) as [e|_]; [|reflexivity].
        destruct (window_full mi mw i ws g j l X1 X2 zi (2 ^ 14) (2 ^ 14) (s8_prods _ _ Mi Mw) (s8_zprods _ _ Iz Mw) (mirrored (tw0 tw))) as (K1 & K2 & K3);
          [change (0 < dim tw 0); lia|change (0 < dim tw 1); lia|change (w_kh ws <= dim tw 0); lia|change (w_kw ws <= dim tw 1); lia|exact e|].
        destruct (K3 (fun kr kc => zsum 0 (dim tin 2) (fun ic => rd mw (wa ws kr kc ic oc))) (fun _ _ => 0)) as [_ K4]. rewrite K4, K1, K2.
        destruct (full_phase (dim tw 0) kh (cv_sh c)) as [F1 F2]; [lia|lia|exact K1|]. destruct (full_phase (dim tw 1) kw (cv_sw c)) as [F3 F4]; [lia|lia|exact K2|].
        match goal with |- 0 = zi * (?a - ?b) => assert (a = b) as ->; [|ring] end.
        unfold wsum. apply zsum_ext. intros kr _. apply zsum_ext. intros kc _. apply zsum_ext. intros ic _. unfold ws.
        rewrite (trans_wa tin tw tb tout c Hchk Hf Fi Fw Fb Fo), (trans_wm tin tw tb tout c Hchk Hf Fi Fw Fb Fo). rewrite F1, F2, F3, F4, !Z.mul_1_r. reflexivity. }
      rewrite ER, EX, EW, EF.
      transitivity (gather2 (dim tin 0) (dim tin 1) (dim tw 0) (dim tw 1) (cv_sh c) (cv_sw c) (cv_top c) (cv_left c) H W (XS oc) (fun kr kc => zi * WS oc kr kc)).
      * rewrite (gather2_fill _ _ _ _ _ _ _ _ _ _ (XS oc) (fun kr kc => zi * WS oc kr kc)). rewrite (gather2_scale _ _ _ _ _ _ _ _ _ _ zi (WS oc)). rewrite Z.mul_sub_distr_l. do 2 f_equal. rewrite <- zsum_mul_l. apply zsum_ext. intros kr _. now rewrite <- zsum_mul_l.
      * unfold transpose_int_sum, gather2. apply zsum_ext. intros kr _. apply zsum_ext. intros kc _. destruct (_ && _); [reflexivity|].
        unfold WS. now rewrite <- zsum_mul_l.
    + change (0 <= dim tin 2). lia.
    + change (0 < dim tw 0). lia.
    + change (0 < dim tw 1). lia.
    + change (w_kh ws <= dim tw 0). lia.
    + change (w_kw ws <= dim tw 1). lia.
    + exact HB.
    + intros r cl ic Hr Hcl Hic. apply (trans_ai mi tin tw tb tout c Hchk Hf Fi Fw Fb Fo Bi); auto.
    + intros kr kc ic Hr Hcl Hic. change (p_ch i) with (dim tin 2) in Hic. apply (trans_aw mw tin tw tb tout c Hchk Hf Fi Fw Fb Fo Bw); auto; lia.
    + intros kr kc ic Hr Hcl Hic. change (p_ch i) with (dim tin 2) in Hic. apply (trans_am mw tin tw tb tout c Hchk Hf Fi Fw Fb Fo Bw); auto; lia.
  - exists m'. split; [exact E|]. split; [|exact E2]. intros H W oc Hv. destruct (E1 H W oc Hv) as (_ & _ & _ & X). exact X.
Qed.

(** * Examples *)

(** 2 x 3 inputs, 3 x 2 kernel, strides 2: the output is 3 x 5. *)
Definition tr_ex_in : tensor := hwc_t 2 3 2.
Definition tr_ex_w : tensor := hwcn_t 3 2 2 2.
Definition tr_ex_out : tensor := hwc_t 3 5 2.
Definition tr_ex_cfg : conv_cfg := mkCv RELU_NONE 2 2 1 0 1 1 1 1.
Definition tr_ex_mo : list Z := repeat 0 30.
Definition tr_ex_pos : list (Z * Z * Z) :=
  flat_map (fun H => flat_map (fun W => map (fun k => (H, W, k)) [0; 1]) [0; 1; 2; 3; 4]) [0; 1; 2].

Example transpose_ex_ok :
  chk_transpose tr_ex_in tr_ex_w cv_ex_b tr_ex_out tr_ex_cfg = ST_OK /\ conv_fits tr_ex_in tr_ex_w tr_ex_out tr_ex_cfg
  /\ fits32 tr_ex_in /\ fits32 tr_ex_w /\ fits32 cv_ex_b /\ fits32 tr_ex_out
  /\ backed tr_ex_in (list_mem cv_ex_mi) /\ backed tr_ex_w (list_mem cv_ex_mw) /\ backed cv_ex_b (list_mem cv_ex_mb) /\ backed tr_ex_out (list_mem tr_ex_mo)
  /\ mem_bits 8 (list_mem cv_ex_mi) /\ mem_bits 8 (list_mem cv_ex_mw) /\ mem_bits 8 (list_mem cv_ex_mb)
  /\ fx_acc_ok 8 8 8 (dim tr_ex_in 2 * dim tr_ex_w 0 * dim tr_ex_w 1) 7 7 7 9
  /\ chk_quant_sa8 (mkQ 20000 14 5) (mkQ 30000 10 (-3)) 3 (dim tr_ex_w 3) (fun _ => 0) (fun k => 100 + k) = true
  /\ sa8_acc_ok (dim tr_ex_in 2 * dim tr_ex_w 0 * dim tr_ex_w 1) (at1 (list_mem cv_ex_mb) cv_ex_b 0)
  /\ transpose_shapes tr_ex_in tr_ex_w tr_ex_out tr_ex_cfg
  /\ dim tr_ex_in 2 * dim tr_ex_w 0 * dim tr_ex_w 1 * (3 * 2 ^ 14) <= smax 32.
Proof.
  split; [reflexivity|]. split. { unfold conv_fits, in_ubits, dim. cbn. repeat (split; [lia|]). intros t [ -> | [ -> | -> ]]; cbn; lia. }
  do 4 (split; [fits32_tac|]). do 4 (split; [apply list_backed; cbn; lia|]).
  do 3 (split; [apply list_bits; reflexivity|]).
  split. { unfold fx_acc_ok. cbv zeta. repeat split; try (vm_compute; discriminate); try lia. left. vm_compute. discriminate. }
  split; [reflexivity|]. split; [vm_compute; discriminate|]. split; [exists cv_ex_b; split; [fits32_tac|reflexivity]|vm_compute; discriminate].
Qed.

Example transpose_sum_ex :
  map (fun p => transpose_sum (list_mem cv_ex_mi) (list_mem cv_ex_mw) tr_ex_in tr_ex_w tr_ex_cfg 0 0 (fst (fst p)) (snd (fst p)) (snd p)) tr_ex_pos
  = [23; -23; 39; -39; 53; -53; 61; -61; 83; -83; 88; -88; 62; -62; 70; -70; 94; -94; 102; -102; 113; -113; -17; 17; -23; 23; -39; 39; -53; 53].
Proof. vm_compute. reflexivity. Qed.

(** Without a shift the outputs are the sums plus the bias, saturated. *)
Example transpose_conv2d_fx_ex : option_map (mem_list 30)
    (transpose_conv2d RM_UP true (fx_quant 8 8 3 4 7 7) 8 (fx_qpar 7) (list_mem cv_ex_mi) (list_mem cv_ex_mw) (Some (list_mem cv_ex_mb, 0)) tr_ex_in tr_ex_w tr_ex_out tr_ex_cfg (list_mem tr_ex_mo))
  = Some (map (fun p => Some (sat 8 (transpose_sum (list_mem cv_ex_mi) (list_mem cv_ex_mw) tr_ex_in tr_ex_w tr_ex_cfg 0 0 (fst (fst p)) (snd (fst p)) (snd p) + at1 (list_mem cv_ex_mb) cv_ex_b (snd p)))) tr_ex_pos).
Proof. vm_compute. reflexivity. Qed.

Example transpose_conv2d_int_ex : option_map (mem_list 30)
    (transpose_conv2d RM_UP true (Q_int 10 0) 32 (fx_qpar 0) (list_mem cv_ex_mi) (list_mem cv_ex_mw) None tr_ex_in tr_ex_w tr_ex_out tr_ex_cfg (list_mem tr_ex_mo))
  = Some (map (fun p => Some (transpose_int_sum (list_mem cv_ex_mi) (list_mem cv_ex_mw) tr_ex_in tr_ex_w tr_ex_cfg 10 (fst (fst p)) (snd (fst p)) (snd p))) tr_ex_pos).
Proof. vm_compute. reflexivity. Qed.
