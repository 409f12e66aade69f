(** Properties C30 - C34: the convolution kernels compute the mathematical convolutions. *)
From Coq Require Import ZArith List Lia Bool QArith Qabs.
From Verif Require Import Base FxMath FxMathProofs Tensor TensorProofs MovProofs QSpec Quant QuantProofs QuantCastProofs
  DotProd DotProdProofs ArgMax Permute PermuteProofs Layout PoolProofs PoolKernels Conv ConvSpec ConvProofs ConvValues ConvKernels.
Import ListNotations.
Open Scope Z_scope.

(** * Formats *)

(** The output elements are FX outputs of the exact sums [S] plus bias. *)
Definition fx_results (rm : rmode) (no : Z) (t : relu_type) (fin fw fb fout : Z)
    (S : Z -> Z -> Z -> Z) (bias : Z -> Z) (tout : tensor) (m m' : mem) : Prop :=
  (forall H W oc, valid (t_shape tout) [H; W; oc] -> exists v, hwc_elem m' tout H W oc = Some v
     /\ fx_output rm no t (fin + fw) fout (S H W oc + bias oc * 2 ^ (fin + fw - fb)) v)
  /\ frame_ok tout m m'.

(** The output elements are SA8 outputs of the exact sums [S] plus bias; the weights scale may differ per
    output channel ([wdim] >= 0). *)
Definition sa8_results (t : relu_type) (i o : qpar) (wdim : Z) (wsc wfr : Z -> Z)
    (S : Z -> Z -> Z -> Z) (bias : Z -> Z) (tout : tensor) (m m' : mem) : Prop :=
  (forall H W oc, valid (t_shape tout) [H; W; oc] -> exists v, hwc_elem m' tout H W oc = Some v
     /\ sa8_output ((1 # 2) + (1 # 32)) t o (out_factor i o (wsc (wsel wdim oc)) (wfr (wsel wdim oc))) (S H W oc + bias oc) v)
  /\ frame_ok tout m m'.

Lemma fx_computes rm full na nb no t N fin fw fb fout S bias tout m m' :
  (no = 8 \/ no = 16) -> 1 <= na -> 0 <= N -> (nb = 16 -> no = 16) -> fx_acc_ok na nb no N fin fw fb fout -> in_bits 8 fout ->
  (t = RELU_1 -> fout < 30) -> (forall oc, in_bits nb (bias oc)) ->
  computes rm full (fx_quant nb no fin fw fb fout) no (fx_qpar fout) t (N * (2 ^ (na + nb - 2) + 0)) S bias tout m m' ->
  fx_results rm no t fin fw fb fout S bias tout m m'.
Proof.
  intros Hno Hna HN H16 Hok If H1 Hb [C F]. split; [|exact F]. intros H W oc V. destruct (C H W oc V) as [B E].
  rewrite Z.add_0_r in B.
  pose proof (fx_out rm full na nb no t N fin fw fb fout (S H W oc) (bias oc) Hno Hna HN Hok If H1 B (Hb oc) H16) as X.
  destruct (get_relu_limits no t (fx_qpar fout)) as [lo hi]. eexists. split; [exact E|]. apply X.
Qed.

Lemma chk_quant_spec i o wdim nsc wzp wsc : chk_quant_sa8 i o wdim nsc wzp wsc = true -> 0 < nsc ->
  0 < q_scale i /\ 0 < q_scale o /\ in_bits 8 (q_zp i) /\ in_bits 8 (q_zp o) /\ wzp 0 = 0
  /\ (forall k, 0 <= k < nsc -> 0 < wsc (wsel wdim k)).
Proof.
  intros K Hn. unfold chk_quant_sa8 in K. apply andb_true_iff in K. destruct K as [K F].
  repeat (apply andb_true_iff in K; let X := fresh "K" in destruct K as [K X]).
  apply Z.ltb_lt in K, K5. apply Z.leb_le in K1, K2, K3, K4. rewrite forallb_forall in F.
  assert (G : forall k, 0 <= k < (if wdim <? 0 then 1 else nsc) -> 0 < wsc k /\ wzp k = 0).
  { intros k Hk. specialize (F k). rewrite in_zrange in F. specialize (F Hk). apply andb_true_iff in F. destruct F as [F1 F2].
    apply Z.ltb_lt in F1. apply Z.eqb_eq in F2. auto. }
  split; [auto|]. split; [auto|]. split; [apply ib8; lia|]. split; [apply ib8; lia|].
  split. { apply G. destruct (wdim <? 0); lia. }
  intros k Hk. unfold wsel. destruct (wdim <? 0); apply G; lia.
Qed.

(** The value ranges of the fields of SA tensors: 16-bit scales, 8-bit scale_frac_bits. *)
Definition sa_fields (q : qpar) : Prop := q_scale q <= 32767 /\ in_bits 8 (q_frac q).

Lemma sa8_computes rm t N i o wdim wzp wsc wfr nsc S bias tout m m' :
  chk_quant_sa8 i o wdim nsc wzp wsc = true -> 0 < nsc -> sa_fields i -> sa_fields o -> (forall k, wsc k <= 32767) ->
  relu_frac_ok t o -> (forall oc, in_bits 32 (bias oc)) -> dim tout 2 = nsc -> length (t_shape tout) = 3%nat ->
  (forall oc, 0 <= oc < nsc -> sa8_acc_ok N (bias oc)) ->
  computes rm true (Q_s8 (define_s8_params rm i o wdim wzp wsc wfr)) 8 o t (N * (2 ^ 14 + 2 ^ 14)) S bias tout m m' ->
  sa8_results t i o wdim wsc wfr S bias tout m m'.
Proof.
  intros Hq Hn [I1 I2] [O1 O2] Hs Hr Hb Hd L3 Hacc [C F]. split; [|exact F]. intros H W oc V. destruct (C H W oc V) as [B E].
  destruct (chk_quant_spec _ _ _ _ _ _ Hq Hn) as (Q1 & Q2 & Q3 & Q4 & Q5 & Q6).
  assert (Ho : 0 <= oc < nsc).
  { unfold dim in Hd. destruct (t_shape tout) as [|a [|b [|d [|]]]]; cbn [length] in L3; try discriminate. cbn [valid nth] in *. lia. }
  specialize (Hacc oc Ho). unfold sa8_acc_ok in Hacc.
  pose proof (sa8_out rm t i o wdim wzp wsc wfr (S H W oc) (bias oc) oc) as X. cbv zeta in X.
  destruct (get_relu_limits 8 t o) as [lo hi]. eexists. split; [exact E|]. apply X; auto.
  - split; [lia|]. auto.
  - split; [lia|]. auto.
  - clear - B Hacc. lia.
Qed.

Lemma at1_bits n m t k : 1 <= n -> mem_bits n m -> in_bits n (at1 m t k).
Proof. intros. now apply rd_bits. Qed.

Lemma fx_zi nb no fin fw fb fout : q_zi (fx_quant nb no fin fw fb fout) = 0 /\ q_zw (fx_quant nb no fin fw fb fout) = 0
  /\ q_biased (fx_quant nb no fin fw fb fout) /\ acc_bits (fx_quant nb no fin fw fb fout) = fx_acc_bits nb.
Proof. unfold fx_quant, fx_acc_bits. destruct (nb =? 16); cbn; auto. Qed.

Lemma fx_acc_room na nb no N fin fw fb fout : 1 <= na -> fx_acc_ok na nb no N fin fw fb fout ->
  N * (2 ^ (na + nb - 2) + 0) <= smax (fx_acc_bits nb).
Proof.
  intros Hna (Hnb & F1 & _ & _ & F4 & _). cbv zeta in F4. rewrite Z.add_0_r.
  assert (0 < 2 ^ (nb - 1 + (fin + fw - fb))) by (apply pow2_gt0; lia). lia.
Qed.

Lemma s8_prods mi mw : mem_bits 8 mi -> mem_bits 8 mw -> forall a b, Z.abs (rd mi a * rd mw b) <= 2 ^ 14.
Proof. intros Bi Bw a b. apply (prod_bits 8 8); try lia; apply rd_bits; auto; lia. Qed.

Lemma s8_zprods z mw : in_bits 8 z -> mem_bits 8 mw -> forall b, Z.abs (z * rd mw b) <= 2 ^ 14.
Proof. intros Bi Bw b. apply (prod_bits 8 8); try lia; auto. apply rd_bits; auto; lia. Qed.

(** * C30 *)

(** C30: mli_krn_conv2d for FX ([na], [nb], [no] = 16, 16, 16 for fx16 and 16, 8, 16 for fx16_fx8_fx8). *)
Theorem conv2d_fx_correct rm full na nb no fin fw fb fout fixed mi mw mb m tin tw tb tout c :
  chk_conv2d tin tw tb tout c fixed = ST_OK -> conv_fits tin tw tout c ->
  fits32 tin -> fits32 tw -> fits32 tb -> fits32 tout -> backed tin mi -> backed tw mw -> backed tb mb -> backed tout m ->
  mem_bits na mi -> mem_bits nb mw -> mem_bits nb mb ->
  1 <= na -> (no = 8 \/ no = 16) -> (nb = 16 -> no = 16) -> in_bits 8 fout -> (cv_relu c = RELU_1 -> fout < 30) ->
  fx_acc_ok na nb no (dim tin 2 * dim tw 0 * dim tw 1) fin fw fb fout ->
  exists m', conv2d rm full (fx_quant nb no fin fw fb fout) no (fx_qpar fout) fixed mi mw (Some (mb, t_data tb)) tin tw tout c m = Some m'
    /\ fx_results rm no (cv_relu c) fin fw fb fout (conv_sum mi mw tin tw c 0 0) (at1 mb tb) tout m m'.
Proof.
  intros Hchk Hf Fi Fw Fb Fo Bi Bw Bb Bo Mi Mw Mb Hna Hno H16 If H1 Hok.
  assert (Hnb : 1 <= nb) by (destruct Hok as [? _]; lia).
  destruct (fx_zi nb no fin fw fb fout) as (Z1 & Z2 & Z3 & Z4).
  destruct (setup_pos _ _ _ _ _ _ _ Hchk Hf Fi Fw Fb Fo) as (D1 & D2 & D3 & _).
  destruct (conv2d_run rm full (fx_quant nb no fin fw fb fout) no (fx_qpar fout) fixed mi mw mb m tin tw tb tout c (2 ^ (na + nb - 2)) 0
    Hchk Hf Fi Fw Fb Fo Bi Bw Bb Bo) as (m' & E & C); auto; try lia.
  - intros a b. apply prod_bits; auto; apply rd_bits; auto.
  - rewrite Z4. eapply fx_acc_room; eauto.
  - rewrite Z1 in C. exists m'. split; [exact E|]. refine (fx_computes _ _ na _ _ _ _ _ _ _ _ _ _ _ _ _ Hno Hna _ H16 Hok If H1 _ C).
    + rewrite <- Z.mul_assoc. apply Z.mul_nonneg_nonneg; [lia|]. apply Z.mul_nonneg_nonneg; lia.
    + intros. now apply at1_bits.
Qed.

(** * C31 *)

(** C31: mli_krn_conv2d for SA8 (FULL_ACCU builds). *)
Theorem conv2d_sa8_correct rm i o wdim wzp wsc wfr fixed mi mw mb m tin tw tb tout c :
  chk_conv2d tin tw tb tout c fixed = ST_OK -> chk_quant_sa8 i o wdim (dim tw 3) wzp wsc = true -> conv_fits tin tw tout c ->
  fits32 tin -> fits32 tw -> fits32 tb -> fits32 tout -> backed tin mi -> backed tw mw -> backed tb mb -> backed tout m ->
  mem_bits 8 mi -> mem_bits 8 mw -> mem_bits 32 mb ->
  sa_fields i -> sa_fields o -> (forall k, wsc k <= 32767) -> relu_frac_ok (cv_relu c) o ->
  (forall oc, 0 <= oc < dim tw 3 -> sa8_acc_ok (dim tin 2 * dim tw 0 * dim tw 1) (at1 mb tb oc)) ->
  exists m', conv2d rm true (Q_s8 (define_s8_params rm i o wdim wzp wsc wfr)) 8 o fixed mi mw (Some (mb, t_data tb)) tin tw tout c m = Some m'
    /\ sa8_results (cv_relu c) i o wdim wsc wfr (conv_sum mi mw tin tw c (q_zp i) 0) (at1 mb tb) tout m m'.
Proof.
  intros Hchk Hq Hf Fi Fw Fb Fo Bi Bw Bb Bo Mi Mw Mb Si So Hs Hr Hacc.
  destruct (setup_pos _ _ _ _ _ _ _ Hchk Hf Fi Fw Fb Fo) as (D1 & D2 & D3 & D4 & D5 & _).
  destruct (chk_quant_spec _ _ _ _ _ _ Hq D5) as (Q1 & Q2 & Q3 & Q4 & Q5 & Q6).
  set (q := Q_s8 (define_s8_params rm i o wdim wzp wsc wfr)).
  assert (Z1 : q_zi q = q_zp i) by (cbn; unfold define_s8_params; destruct (norm_cast_fx rm 32 32 (q_scale i)); reflexivity).
  assert (Z2 : q_zw q = 0) by (cbn; unfold define_s8_params; destruct (norm_cast_fx rm 32 32 (q_scale i)); exact Q5).
  destruct (conv2d_run rm true q 8 o fixed mi mw mb m tin tw tb tout c (2 ^ 14) (2 ^ 14) Hchk Hf Fi Fw Fb Fo Bi Bw Bb Bo) as (m' & E & C); auto; try lia.
  - exact I.
  - rewrite Z1. pose proof (proj1 (ib8 _) Q3). lia.
  - now apply s8_prods.
  - rewrite Z1. now apply s8_zprods.
  - specialize (Hacc 0 ltac:(lia)). unfold sa8_acc_ok in Hacc. change (acc_bits q) with 32. lia.
  - rewrite Z1 in C. exists m'. split; [exact E|].
    destruct (chk_conv_spec _ _ _ _ _ _ _ Hchk Hf Fi Fw Fb Fo) as (Ch & _ & _ & _ & _ & (h & w & ch & sr & sc & Es & _) & _).
    refine (sa8_computes rm _ _ i o wdim wzp wsc wfr (dim tw 3) _ _ _ _ _ Hq D5 Si So Hs Hr _ _ _ Hacc C).
    + intros. apply at1_bits; auto. lia.
    + apply andb_true_iff in Ch. destruct Ch as [Ch _]. apply andb_true_iff in Ch. destruct Ch as [_ Ch]. apply Z.eqb_eq in Ch. exact Ch.
    + rewrite Es. reflexivity.
Qed.

(** * C33 *)

(** C33: mli_krn_depthwise_conv2d for FX. *)
Theorem depthwise_fx_correct rm full na nb no fin fw fb fout fixed mi mw mb m tin tw tb tout c :
  chk_depthwise tin tw tb tout c fixed = ST_OK -> conv_fits tin tw tout c ->
  fits32 tin -> fits32 tw -> fits32 tb -> fits32 tout -> backed tin mi -> backed tw mw -> backed tb mb -> backed tout m ->
  mem_bits na mi -> mem_bits nb mw -> mem_bits nb mb ->
  1 <= na -> (no = 8 \/ no = 16) -> (nb = 16 -> no = 16) -> in_bits 8 fout -> (cv_relu c = RELU_1 -> fout < 30) ->
  fx_acc_ok na nb no (dim tw 0 * dim tw 1) fin fw fb fout ->
  exists m', depthwise_conv2d rm full (fx_quant nb no fin fw fb fout) no (fx_qpar fout) fixed mi mw (Some (mb, t_data tb)) tin tw tout c m = Some m'
    /\ fx_results rm no (cv_relu c) fin fw fb fout (depthwise_sum mi mw tin tw c 0 0) (at1 mb tb) tout m m'.
Proof.
  intros Hchk Hf Fi Fw Fb Fo Bi Bw Bb Bo Mi Mw Mb Hna Hno H16 If H1 Hok.
  assert (Hnb : 1 <= nb) by (destruct Hok as [? _]; lia).
  destruct (fx_zi nb no fin fw fb fout) as (Z1 & Z2 & Z3 & Z4).
  destruct (setup_pos _ _ _ _ _ _ _ Hchk Hf Fi Fw Fb Fo) as (D1 & D2 & D3 & _).
  destruct (depthwise_run rm full (fx_quant nb no fin fw fb fout) no (fx_qpar fout) fixed mi mw mb m tin tw tb tout c (2 ^ (na + nb - 2)) 0
    Hchk Hf Fi Fw Fb Fo Bi Bw Bb Bo) as (m' & E & C); auto; try lia.
  - intros a b. apply prod_bits; auto; apply rd_bits; auto.
  - rewrite Z4. eapply fx_acc_room; eauto.
  - rewrite Z1 in C. exists m'. split; [exact E|]. refine (fx_computes _ _ na _ _ _ _ _ _ _ _ _ _ _ _ _ Hno Hna _ H16 Hok If H1 _ C).
    + apply Z.mul_nonneg_nonneg; lia.
    + intros. now apply at1_bits.
Qed.

(** C33: mli_krn_depthwise_conv2d for SA8 (FULL_ACCU builds). *)
Theorem depthwise_sa8_correct rm i o wdim wzp wsc wfr fixed mi mw mb m tin tw tb tout c :
  chk_depthwise tin tw tb tout c fixed = ST_OK -> chk_quant_sa8 i o wdim (dim tw 3) wzp wsc = true -> conv_fits tin tw tout c ->
  fits32 tin -> fits32 tw -> fits32 tb -> fits32 tout -> backed tin mi -> backed tw mw -> backed tb mb -> backed tout m ->
  mem_bits 8 mi -> mem_bits 8 mw -> mem_bits 32 mb ->
  sa_fields i -> sa_fields o -> (forall k, wsc k <= 32767) -> relu_frac_ok (cv_relu c) o ->
  (forall oc, 0 <= oc < dim tw 3 -> sa8_acc_ok (dim tw 0 * dim tw 1) (at1 mb tb oc)) ->
  exists m', depthwise_conv2d rm true (Q_s8 (define_s8_params rm i o wdim wzp wsc wfr)) 8 o fixed mi mw (Some (mb, t_data tb)) tin tw tout c m = Some m'
    /\ sa8_results (cv_relu c) i o wdim wsc wfr (depthwise_sum mi mw tin tw c (q_zp i) 0) (at1 mb tb) tout m m'.
Proof.
  intros Hchk Hq Hf Fi Fw Fb Fo Bi Bw Bb Bo Mi Mw Mb Si So Hs Hr Hacc.
  destruct (setup_pos _ _ _ _ _ _ _ Hchk Hf Fi Fw Fb Fo) as (D1 & D2 & D3 & D4 & D5 & _).
  destruct (chk_quant_spec _ _ _ _ _ _ Hq D5) as (Q1 & Q2 & Q3 & Q4 & Q5 & Q6).
  set (q := Q_s8 (define_s8_params rm i o wdim wzp wsc wfr)).
  assert (Z1 : q_zi q = q_zp i) by (cbn; unfold define_s8_params; destruct (norm_cast_fx rm 32 32 (q_scale i)); reflexivity).
  assert (Z2 : q_zw q = 0) by (cbn; unfold define_s8_params; destruct (norm_cast_fx rm 32 32 (q_scale i)); exact Q5).
  destruct (depthwise_run rm true q 8 o fixed mi mw mb m tin tw tb tout c (2 ^ 14) (2 ^ 14) Hchk Hf Fi Fw Fb Fo Bi Bw Bb Bo) as (m' & E & C); auto; try lia.
  - exact I.
  - rewrite Z1. pose proof (proj1 (ib8 _) Q3). lia.
  - now apply s8_prods.
  - rewrite Z1. now apply s8_zprods.
  - specialize (Hacc 0 ltac:(lia)). unfold sa8_acc_ok in Hacc. change (acc_bits q) with 32. lia.
  - rewrite Z1 in C. exists m'. split; [exact E|].
    destruct (chk_conv_spec _ _ _ _ _ _ _ Hchk Hf Fi Fw Fb Fo) as (Ch & _ & _ & _ & _ & (h & w & ch & sr & sc & Es & _) & _).
    refine (sa8_computes rm _ _ i o wdim wzp wsc wfr (dim tw 3) _ _ _ _ _ Hq D5 Si So Hs Hr _ _ _ Hacc C).
    + intros. apply at1_bits; auto. lia.
    + apply andb_true_iff in Ch. destruct Ch as [_ Ch]. apply Z.eqb_eq in Ch. symmetry. exact Ch.
    + rewrite Es. reflexivity.
Qed.

(** * C34 *)

(** C34: mli_krn_group_conv2d for FX. *)
Theorem group_conv2d_fx_correct rm full na nb no fin fw fb fout fixed mi mw mb m tin tw tb tout c :
  chk_group tin tw tb tout c fixed = Some ST_OK -> conv_fits tin tw tout c ->
  fits32 tin -> fits32 tw -> fits32 tb -> fits32 tout -> backed tin mi -> backed tw mw -> backed tb mb -> backed tout m ->
  mem_bits na mi -> mem_bits nb mw -> mem_bits nb mb ->
  1 <= na -> (no = 8 \/ no = 16) -> (nb = 16 -> no = 16) -> in_bits 8 fout -> (cv_relu c = RELU_1 -> fout < 30) ->
  fx_acc_ok na nb no (dim tw 2 * dim tw 0 * dim tw 1) fin fw fb fout ->
  exists m', group_conv2d rm full (fx_quant nb no fin fw fb fout) no (fx_qpar fout) fixed mi mw mb (t_data tb) tin tw tout c m = Some m'
    /\ fx_results rm no (cv_relu c) fin fw fb fout (group_sum mi mw tin tw c 0 0) (at1 mb tb) tout m m'.
Proof.
  intros Hchk Hf Fi Fw Fb Fo Bi Bw Bb Bo Mi Mw Mb Hna Hno H16 If H1 Hok.
  assert (Hnb : 1 <= nb) by (destruct Hok as [? _]; lia).
  destruct (fx_zi nb no fin fw fb fout) as (Z1 & Z2 & Z3 & Z4).
  pose proof Hchk as Hc. unfold chk_group in Hc.
  match type of Hc with (if _ && ?b then _ else Some ?x) = _ => assert (Hc' : x = ST_OK) by (destruct (_ && b); congruence) end. clear Hc.
  destruct (setup_pos _ _ _ _ _ _ _ Hc' Hf Fi Fw Fb Fo) as (D1 & D2 & D3 & D4 & _).
  destruct (group_run rm full (fx_quant nb no fin fw fb fout) no (fx_qpar fout) fixed mi mw mb m tin tw tb tout c (2 ^ (na + nb - 2)) 0
    Hchk Hf Fi Fw Fb Fo Bi Bw Bb Bo) as (m' & E & C); auto; try lia.
  - intros a b. apply prod_bits; auto; apply rd_bits; auto.
  - rewrite Z4. eapply fx_acc_room; eauto.
  - rewrite Z1 in C. exists m'. split; [exact E|]. refine (fx_computes _ _ na _ _ _ _ _ _ _ _ _ _ _ _ _ Hno Hna _ H16 Hok If H1 _ C).
    + rewrite <- Z.mul_assoc. apply Z.mul_nonneg_nonneg; [lia|]. apply Z.mul_nonneg_nonneg; lia.
    + intros. now apply at1_bits.
Qed.

(** C34: mli_krn_group_conv2d for SA8 (FULL_ACCU builds). *)
Theorem group_conv2d_sa8_correct rm i o wdim wzp wsc wfr fixed mi mw mb m tin tw tb tout c :
  chk_group tin tw tb tout c fixed = Some ST_OK -> chk_quant_sa8 i o wdim (dim tw 3) wzp wsc = true -> conv_fits tin tw tout c ->
  fits32 tin -> fits32 tw -> fits32 tb -> fits32 tout -> backed tin mi -> backed tw mw -> backed tb mb -> backed tout m ->
  mem_bits 8 mi -> mem_bits 8 mw -> mem_bits 32 mb ->
  sa_fields i -> sa_fields o -> (forall k, wsc k <= 32767) -> relu_frac_ok (cv_relu c) o ->
  (forall oc, 0 <= oc < dim tw 3 -> sa8_acc_ok (dim tw 2 * dim tw 0 * dim tw 1) (at1 mb tb oc)) ->
  exists m', group_conv2d rm true (Q_s8 (define_s8_params rm i o wdim wzp wsc wfr)) 8 o fixed mi mw mb (t_data tb) tin tw tout c m = Some m'
    /\ sa8_results (cv_relu c) i o wdim wsc wfr (group_sum mi mw tin tw c (q_zp i) 0) (at1 mb tb) tout m m'.
Proof.
  intros Hchk Hq Hf Fi Fw Fb Fo Bi Bw Bb Bo Mi Mw Mb Si So Hs Hr Hacc.
  pose proof Hchk as Hc. unfold chk_group in Hc.
  match type of Hc with (if _ && ?b then _ else Some ?x) = _ => assert (Hc' : x = ST_OK) by (destruct (_ && b); congruence) end. clear Hc.
  destruct (setup_pos _ _ _ _ _ _ _ Hc' Hf Fi Fw Fb Fo) as (D1 & D2 & D3 & D4 & D5 & _).
  destruct (chk_quant_spec _ _ _ _ _ _ Hq D5) as (Q1 & Q2 & Q3 & Q4 & Q5 & Q6).
  set (q := Q_s8 (define_s8_params rm i o wdim wzp wsc wfr)).
  assert (Z1 : q_zi q = q_zp i) by (cbn; unfold define_s8_params; destruct (norm_cast_fx rm 32 32 (q_scale i)); reflexivity).
  assert (Z2 : q_zw q = 0) by (cbn; unfold define_s8_params; destruct (norm_cast_fx rm 32 32 (q_scale i)); exact Q5).
  destruct (group_run rm true q 8 o fixed mi mw mb m tin tw tb tout c (2 ^ 14) (2 ^ 14) Hchk Hf Fi Fw Fb Fo Bi Bw Bb Bo) as (m' & E & C); auto; try lia.
  - exact I.
  - rewrite Z1. pose proof (proj1 (ib8 _) Q3). lia.
  - now apply s8_prods.
  - rewrite Z1. now apply s8_zprods.
  - specialize (Hacc 0 ltac:(lia)). unfold sa8_acc_ok in Hacc. change (acc_bits q) with 32. lia.
  - rewrite Z1 in C. exists m'. split; [exact E|].
    destruct (chk_conv_spec _ _ _ _ _ _ _ Hc' Hf Fi Fw Fb Fo) as (Ch & _ & _ & _ & _ & (h & w & ch & sr & sc & Es & _) & _).
    refine (sa8_computes rm _ _ i o wdim wzp wsc wfr (dim tw 3) _ _ _ _ _ Hq D5 Si So Hs Hr _ _ _ Hacc C).
    + intros. apply at1_bits; auto. lia.
    + apply andb_true_iff in Ch. destruct Ch as [_ Ch]. apply Z.eqb_eq in Ch. exact Ch.
    + rewrite Es. reflexivity.
Qed.

(** * C32 *)

(** The same buffers, all elements zero. The addresses that a kernel of the model uses do not depend on the data,
    and with zero input and weights no accumulator can overflow: the run fails iff an access is outside of
    its buffer. *)
Definition zeroed (m : mem) : mem := fun a => option_map (fun _ => 0) (m a).

Lemma zeroed_backed t m : backed t m -> backed t (zeroed m).
Proof. intros B a H0 H1. specialize (B a H0 H1). unfold allocated, zeroed in *. destruct (m (t_data t + a)); cbn; congruence. Qed.

Lemma zeroed_rd m a : rd (zeroed m) a = 0.
Proof. unfold rd, zeroed. destruct (m a); reflexivity. Qed.

(** A scheme of the kernels with a bias operand, with zero weights zero point. *)
Definition scheme_ok (q : quant) : Prop := q_biased q /\ q_zw q = 0 /\ Z.abs (q_zi q) <= 32767.

(** C32: with accepted parameters no access of the convolution kernels leaves a buffer, whatever the sizes, and
    nothing but output elements is written. *)
Theorem conv_stays_inside rm full q no oq fixed mi mw mb m tin tw tb tout c :
  scheme_ok q -> conv_fits tin tw tout c ->
  fits32 tin -> fits32 tw -> fits32 tb -> fits32 tout -> backed tin mi -> backed tw mw -> backed tb mb -> backed tout m ->
  (chk_conv2d tin tw tb tout c fixed = ST_OK ->
     exists m', conv2d rm full q no oq fixed (zeroed mi) (zeroed mw) (Some (mb, t_data tb)) tin tw tout c m = Some m' /\ frame_ok tout m m')
  /\ (chk_depthwise tin tw tb tout c fixed = ST_OK ->
     exists m', depthwise_conv2d rm full q no oq fixed (zeroed mi) (zeroed mw) (Some (mb, t_data tb)) tin tw tout c m = Some m' /\ frame_ok tout m m')
  /\ (chk_group tin tw tb tout c fixed = Some ST_OK ->
     exists m', group_conv2d rm full q no oq fixed (zeroed mi) (zeroed mw) mb (t_data tb) tin tw tout c m = Some m' /\ frame_ok tout m m').
Proof.
  intros (Z1 & Z2 & Z3) Hf Fi Fw Fb Fo Bi Bw Bb Bo. apply zeroed_backed in Bi, Bw.
  assert (P : forall a b, Z.abs (rd (zeroed mi) a * rd (zeroed mw) b) <= 0) by (intros; rewrite !zeroed_rd; reflexivity).
  assert (P2 : forall a, Z.abs (q_zi q * rd (zeroed mw) a) <= 0) by (intros; rewrite !zeroed_rd, Z.mul_0_r; reflexivity).
  assert (S0 : 0 <= smax (acc_bits q)) by (destruct q; vm_compute; discriminate).
  split; [|split]; intros Hchk.
  - destruct (conv2d_run rm full q no oq fixed (zeroed mi) (zeroed mw) mb m tin tw tb tout c 0 0 Hchk Hf Fi Fw Fb Fo Bi Bw Bb Bo) as (m' & E & _ & F); auto; try lia. eauto.
  - destruct (depthwise_run rm full q no oq fixed (zeroed mi) (zeroed mw) mb m tin tw tb tout c 0 0 Hchk Hf Fi Fw Fb Fo Bi Bw Bb Bo) as (m' & E & _ & F); auto; try lia. eauto.
  - destruct (group_run rm full q no oq fixed (zeroed mi) (zeroed mw) mb m tin tw tb tout c 0 0 Hchk Hf Fi Fw Fb Fo Bi Bw Bb Bo) as (m' & E & _ & F); auto; try lia. eauto.
Qed.

(** * Examples *)

Definition hwcn_t (h w d n : Z) : tensor := mkTensor 0 (h * w * d * n) 1 [h; w; d; n] [w * d * n; d * n; n; 1] false (-1) 0.
Definition vec_t (n : Z) : tensor := mkTensor 0 n 1 [n] [1] false (-1) 0.

Lemma list_bits n l : forallb (fun x => (smin n <=? x) && (x <=? smax n)) l = true -> mem_bits n (list_mem l).
Proof.
  intros F a x E. unfold list_mem in E. destruct (a <? 0); [discriminate|]. apply nth_error_In in E.
  rewrite forallb_forall in F. specialize (F x E). apply andb_true_iff in F. destruct F as [F1 F2]. apply Z.leb_le in F1, F2. split; auto.
Qed.

(** 3x4 input with 2 channels, 2x3 kernels, 2 output channels, dilation 2 horizontally, stride 2 vertically, padding. *)
Definition cv_ex_in : tensor := hwc_t 3 4 2.
Definition cv_ex_w : tensor := hwcn_t 2 3 2 2.
Definition cv_ex_b : tensor := vec_t 2.
Definition cv_ex_out : tensor := hwc_t 2 2 2.
Definition cv_ex_cfg : conv_cfg := mkCv RELU_GEN 2 2 2 1 1 0 2 1.
Definition cv_ex_mi : list Z := [1; 2; 3; 4; 5; 6; 7; 8;  -1; -2; -3; -4; -5; -6; -7; -8;  10; -20; 30; -40; 50; -60; 70; -80].
Definition cv_ex_mw : list Z := [1; -1; 2; -2; 3; -3; 4; -4; 5; -5; 6; -6;  7; -7; 8; -8; 9; -9; 10; -10; 11; -11; 12; -12].
Definition cv_ex_mb : list Z := [100; -50].
Definition cv_ex_mo : list Z := [0; 0; 0; 0; 0; 0; 0; 0].

Example conv_ex_ok :
  chk_conv2d cv_ex_in cv_ex_w cv_ex_b cv_ex_out cv_ex_cfg 0 = ST_OK /\ conv_fits cv_ex_in cv_ex_w cv_ex_out cv_ex_cfg
  /\ fits32 cv_ex_in /\ fits32 cv_ex_w /\ fits32 cv_ex_b /\ fits32 cv_ex_out
  /\ backed cv_ex_in (list_mem cv_ex_mi) /\ backed cv_ex_w (list_mem cv_ex_mw) /\ backed cv_ex_b (list_mem cv_ex_mb) /\ backed cv_ex_out (list_mem cv_ex_mo)
  /\ mem_bits 8 (list_mem cv_ex_mi) /\ mem_bits 8 (list_mem cv_ex_mw) /\ mem_bits 8 (list_mem cv_ex_mb)
  /\ fx_acc_ok 8 8 8 (dim cv_ex_in 2 * dim cv_ex_w 0 * dim cv_ex_w 1) 7 7 7 9
  /\ chk_quant_sa8 (mkQ 20000 14 5) (mkQ 30000 10 (-3)) 3 2 (fun _ => 0) (fun k => 100 + k) = true
  /\ sa8_acc_ok (dim cv_ex_in 2 * dim cv_ex_w 0 * dim cv_ex_w 1) (at1 (list_mem cv_ex_mb) cv_ex_b 0).
Proof.
  split; [reflexivity|]. split. { unfold conv_fits, in_ubits, dim. cbn. repeat (split; [lia|]). intros t [ -> | [ -> | -> ]]; cbn; lia. }
  do 4 (split; [fits32_tac|]). do 4 (split; [apply list_backed; cbn; lia|]).
  do 3 (split; [apply list_bits; reflexivity|]).
  split. { unfold fx_acc_ok. cbv zeta. repeat split; try (vm_compute; discriminate); try lia. left. vm_compute. discriminate. }
  split; [reflexivity|]. vm_compute. discriminate.
Qed.

(** Dilation 2 needs columns 0, 2, 4 of the padded input; the second output row uses input rows 1 and 2. *)
Definition cv_ex_none : conv_cfg := mkCv RELU_NONE 2 2 2 1 1 0 2 1.

Example conv_sum_ex : map (fun p => conv_sum (list_mem cv_ex_mi) (list_mem cv_ex_mw) cv_ex_in cv_ex_w cv_ex_none 5 0 (fst (fst p)) (snd (fst p)) (snd p))
    [(0, 0, 0); (0, 0, 1); (0, 1, 0); (0, 1, 1); (1, 0, 0); (1, 0, 1); (1, 1, 0); (1, 1, 1)] = [-54; 54; -42; 42; -652; 652; -504; 504].
Proof. vm_compute. reflexivity. Qed.

Example conv2d_fx_ex : option_map (mem_list 8)
    (conv2d RM_UP true (fx_quant 8 8 7 7 7 5) 8 (fx_qpar 5) 0 (list_mem cv_ex_mi) (list_mem cv_ex_mw) (Some (list_mem cv_ex_mb, 0)) cv_ex_in cv_ex_w cv_ex_out cv_ex_none (list_mem cv_ex_mo))
  = Some [Some 25; Some (-13); Some 25; Some (-13); Some 24; Some (-12); Some 24; Some (-12)].
Proof. vm_compute. reflexivity. Qed.

Definition cv_ex_s8 : quant :=
  Q_s8 (define_s8_params RM_UP (mkQ 20000 14 5) (mkQ 20000 10 (-3)) 3 (fun _ => 0) (fun k => 1000 + k) (fun _ => 10)).

Example conv2d_sa8_ex : option_map (mem_list 8)
    (conv2d RM_UP true cv_ex_s8 8 (mkQ 20000 10 (-3)) 0 (list_mem cv_ex_mi) (list_mem cv_ex_mw) (Some (list_mem cv_ex_mb, 0)) cv_ex_in cv_ex_w cv_ex_out cv_ex_none (list_mem cv_ex_mo))
  = Some [Some 0; Some (-3); Some 1; Some (-3); Some (-37); Some 34; Some (-28); Some 25].
Proof. vm_compute. reflexivity. Qed.

Example depthwise_ex :
  chk_depthwise cv_ex_in (hwcn_t 2 3 1 2) cv_ex_b cv_ex_out cv_ex_none 0 = ST_OK
  /\ option_map (mem_list 8)
    (depthwise_conv2d RM_UP true (fx_quant 8 8 7 7 7 5) 8 (fx_qpar 5) 0 (list_mem cv_ex_mi) (list_mem cv_ex_mw) (Some (list_mem cv_ex_mb, 0)) cv_ex_in (hwcn_t 2 3 1 2) cv_ex_out cv_ex_none (list_mem cv_ex_mo))
  = Some [Some 25; Some (-13); Some 25; Some (-13); Some 26; Some (-12); Some 26; Some (-12)].
Proof. split; vm_compute; reflexivity. Qed.

(** 4 input channels in two groups of 2, 4 filters. *)
Example group_ex :
  chk_group (hwc_t 3 2 4) (hwcn_t 2 1 2 4) (vec_t 4) (hwc_t 2 1 4) cv_ex_cfg 0 <> Some ST_OK
  /\ chk_group (hwc_t 3 2 4) (hwcn_t 2 1 2 4) (vec_t 4) (hwc_t 2 2 4) (mkCv RELU_NONE 1 1 0 0 0 0 1 1) 0 = Some ST_OK
  /\ option_map (mem_list 16)
    (group_conv2d RM_UP true (fx_quant 8 8 7 7 7 7) 8 (fx_qpar 7) 0 (list_mem cv_ex_mi) (list_mem cv_ex_mw) (list_mem [1; 2; 3; 4]) 0
      (hwc_t 3 2 4) (hwcn_t 2 1 2 4) (hwc_t 2 2 4) (mkCv RELU_NONE 1 1 0 0 0 0 1 1) (const_mem 16 0))
  = Some [Some 1; Some 2; Some 3; Some 4; Some 1; Some 2; Some 3; Some 4; Some 0; Some 3; Some 2; Some 5; Some (-1); Some 4; Some 1; Some 6].
Proof. split; [vm_compute; discriminate|]. split; vm_compute; reflexivity. Qed.

(** * What the code does not guarantee *)

(** The checker of the group convolution divides by zero when the weights are deeper than the input: the
    group count is zero when it computes the remainder of the number of filters by it. *)
Theorem chk_group_division_refuted :
  ~ (forall tin tw tb tout c fixed, fits32 tin -> fits32 tw -> fits32 tb -> fits32 tout -> conv_fits tin tw tout c ->
      chk_group tin tw tb tout c fixed <> None).
Proof.
  intros G. apply (G (hwc_t 3 4 2) (hwcn_t 2 3 4 2) (vec_t 2) (hwc_t 2 2 2) cv_ex_none 0); [fits32_tac|fits32_tac|fits32_tac|fits32_tac| |].
  - unfold conv_fits, in_ubits, dim. cbn. repeat (split; [lia|]). intros t [ -> | [ -> | -> ]]; cbn; lia.
  - vm_compute. reflexivity.
Qed.

(** Without the bound on the accumulator the accumulation can fail: 512 products of -32768 by -128
    overflow 32 bits ([None]: signed overflow in C). *)
Theorem conv2d_overflow_refuted :
  ~ (forall rm full tin tw tb tout c mi mw mb m, chk_conv2d tin tw tb tout c 0 = ST_OK -> conv_fits tin tw tout c ->
      fits32 tin -> fits32 tw -> fits32 tb -> fits32 tout -> backed tin mi -> backed tw mw -> backed tb mb -> backed tout m ->
      mem_bits 16 mi -> mem_bits 8 mw -> mem_bits 8 mb ->
      conv2d rm full (fx_quant 8 16 15 7 7 15) 16 (fx_qpar 15) 0 mi mw (Some (mb, t_data tb)) tin tw tout c m <> None).
Proof.
  intros G.
  assert (B : forall t n v, 0 <= n -> t_data t = 0 -> t_cap t <= n * t_esz t -> 0 < t_esz t -> backed t (const_mem n v)).
  { intros t n v Hn H0 Hc Hz a A1 A2. unfold allocated, const_mem. rewrite H0. cbn [Z.add].
    destruct (Z.leb_spec 0 a); [|lia]. destruct (Z.ltb_spec a n); [cbn; discriminate|].
    nia. }
  apply (G RM_UP true (hwc_t 1 1 512) (hwcn_t 1 1 512 1) (vec_t 1) (hwc_t 1 1 1) (mkCv RELU_NONE 1 1 0 0 0 0 1 1)
    (const_mem 512 (- 32768)) (const_mem 512 (-128)) (const_mem 1 0) (const_mem 1 0)); [| |fits32_tac|fits32_tac|fits32_tac|fits32_tac| | | | | | | |].
  - vm_compute. reflexivity.
  - unfold conv_fits, in_ubits, dim. cbn. repeat (split; [lia|]). intros t [ -> | [ -> | -> ]]; cbn; lia.
  - apply B; cbn; lia.
  - apply B; cbn; lia.
  - apply B; cbn; lia.
  - apply B; cbn; lia.
  - intros a x. unfold const_mem. destruct (_ && _); [|discriminate]. intros [= <-]. split; vm_compute; discriminate.
  - intros a x. unfold const_mem. destruct (_ && _); [|discriminate]. intros [= <-]. split; vm_compute; discriminate.
  - intros a x. unfold const_mem. destruct (_ && _); [|discriminate]. intros [= <-]. split; vm_compute; discriminate.
  - vm_compute. reflexivity.
Qed.
