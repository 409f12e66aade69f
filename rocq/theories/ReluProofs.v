(** ReLU, leaky ReLU and PReLU: loops, checker facts and fixed-point values (C38). *)
From Coq Require Import ZArith QArith Qabs List Lia Bool.
From Verif Require Import Base FxMath FxMathProofs Tensor TensorProofs MovProofs PermuteProofs ArgMax QSpec Quant QuantProofs QuantCastProofs DotProdProofs PoolKernels ConvTheorems FullyConnProofs Eltwise EltwiseProofs Relu.
Import ListNotations.
Open Scope Z_scope.

(** * Loops over all elements *)

Lemma map_tensor_run g tin tout m :
  t_shape tin <> [] -> (length (t_shape tin) <= 4)%nat -> Forall (fun d => 0 <= d) (t_shape tin) ->
  length (t_stride tin) = length (t_shape tin) -> length (t_stride tout) = length (t_shape tin) ->
  last (t_stride tin) 0 = 1 -> last (t_stride tout) 0 = 1 ->
  map_tensor g tin tout m = foldM (fun c m =>
    do x <- load m (t_data tin + addr (t_stride tin) c); store m (t_data tout + addr (t_stride tout) c) (g x)) (coords (t_shape tin)) m.
Proof.
  intros Hn Hr Hp L1 L2 E1 E2.
  pose proof (elt_run (fun a _ => g a) false true 0 0 (t_data tin) 0 (t_data tout) (t_shape tin) [t_stride tin; t_stride tout] 0 0 1 m Hn Hr Hp) as Q.
  specialize (Q ltac:(repeat constructor; auto)). cbn [length] in Q. specialize (Q ltac:(lia) ltac:(lia) ltac:(lia)). cbn [nth] in Q.
  transitivity (foldM (fun c => elt_body (fun a _ => g a) false true 0 0 (t_data tin + addr (t_stride tin) c) (0 + addr (t_stride tin) c) (t_data tout + addr (t_stride tout) c)) (coords (t_shape tin)) m).
  - rewrite <- Q. reflexivity.
  - apply foldM_ext. intros c m' _. reflexivity.
Qed.

(** No output element overwrites an input element of another coordinate. *)
Definition unary_ok (tin tout : tensor) : Prop :=
  forall c c', valid (t_shape tout) c -> valid (t_shape tout) c' -> c <> c' ->
    t_data tin + addr (t_stride tin) c <> t_data tout + addr (t_stride tout) c'.

Lemma chk_relu_facts tin tout : chk_relu tin tout = ST_OK -> t_rank tin <> 0 ->
  chk_tensor tin = ST_OK /\ chk_tensor tout = ST_OK /\ t_shape tin = t_shape tout
  /\ last (t_stride tin) 0 = 1 /\ last (t_stride tout) 0 = 1.
Proof.
  intros H R. unfold chk_relu in H. destruct (chk_tensor tin); try discriminate. destruct (chk_tensor tout); try discriminate.
  destruct (same_shape tin tout) eqn:S; [|discriminate]. cbn [negb] in H.
  destruct (inner_stride_is_one tin && inner_stride_is_one tout) eqn:I; [|discriminate]. apply andb_true_iff in I. destruct I as [I1 I2].
  pose proof (same_shape_eq _ _ S) as Es. repeat split; auto.
  - now apply inner_one_last.
  - apply inner_one_last; auto. unfold t_rank in *. now rewrite <- Es.
Qed.

(** A kernel that applies [g] to every element, reading and writing inside the tensors only. *)
Lemma map_tensor_correct g tin tout m :
  chk_relu tin tout = ST_OK -> t_rank tin <> 0 -> fits32 tin -> fits32 tout -> backed tin m -> backed tout m -> unary_ok tin tout ->
  exists m', map_tensor g tin tout m = Some m'
    /\ (forall c, valid (t_shape tout) c -> m' (t_data tout + addr (t_stride tout) c) = Some (g (rd m (t_data tin + addr (t_stride tin) c))))
    /\ frame_ok tout m m'.
Proof.
  intros Hc R FI FO BI BO U. destruct (chk_relu_facts tin tout Hc R) as (CI & CO & Es & L1 & L2).
  pose proof FI as (LI & _). pose proof FO as (LO & _). destruct (chk_tensor_pos tin CI LI) as (R4 & P & _).
  destruct (chk_tensor_nested tout FO CO) as (Nst & _).
  rewrite map_tensor_run; auto using last_pos_shape; try congruence.
  2:{ intros E. apply R. unfold t_rank. now rewrite E. }
  destruct (foldM_inplace (fun c => t_data tout + addr (t_stride tout) c) (fun c => g (rd m (t_data tin + addr (t_stride tin) c)))
    (fun c a => a = t_data tin + addr (t_stride tin) c)
    (fun c m => do x <- load m (t_data tin + addr (t_stride tin) c); store m (t_data tout + addr (t_stride tout) c) (g x)) (coords (t_shape tin)) m)
    as (m' & Em & H1 & H2).
  - apply coords_NoDup.
  - intros c m' Hin Hr. apply in_coords in Hin. rewrite (load_eq m); [reflexivity|now apply chk_backed|now apply Hr].
  - intros c Hin. apply in_coords in Hin. apply chk_backed; auto. now rewrite <- Es.
  - intros c c' Hin Hin' E. apply in_coords in Hin, Hin'. rewrite Es in Hin, Hin'. apply (nested_inj (t_shape tout) (t_stride tout)); auto. lia.
  - intros c c' Hin Hin' Hne E. apply in_coords in Hin, Hin'. rewrite Es in Hin, Hin'. exact (U c c' Hin Hin' Hne (eq_sym E)).
  - exists m'. split; [exact Em|]. split.
    + intros c V. apply H1. apply in_coords. now rewrite Es.
    + intros a Ha. apply H2. intros c Hin E. apply in_coords in Hin. rewrite Es in Hin. apply (Ha c Hin). lia.
Qed.

(** In-place use is allowed, and so are disjoint tensors. *)
Lemma unary_inplace tin tout : chk_tensor tout = ST_OK -> fits32 tout -> t_data tin = t_data tout -> t_stride tin = t_stride tout -> unary_ok tin tout.
Proof.
  intros C F Ed Es c c' V V' Hne E. rewrite Ed, Es in E. destruct (chk_tensor_nested tout F C) as (N & _). apply Hne.
  apply (nested_inj (t_shape tout) (t_stride tout)); auto. lia.
Qed.

(** * ReLU *)

(** [v] is the representable value nearest to [x] among those whose real value lies in the activation range. *)
Definition relu_nearest (n : Z) (t : relu_type) (q : qpar) (x v : Z) : Prop :=
  let real := saval (q_scale q) (q_frac q) (q_zp q) in
  in_bits n v /\ relu_range t (real v) /\ forall w, in_bits n w -> relu_range t (real w) -> Z.abs (v - x) <= Z.abs (w - x).

Lemma relu_one n t q x : n = 8 \/ n = 16 -> 0 < q_scale q <= 32767 -> in_bits 8 (q_frac q) -> in_bits n (q_zp q) -> relu_frac_ok t q -> in_bits n x ->
  let '(lo, hi) := get_relu_limits n t q in
  relu_nearest n t q x (min_fx (max_fx x (wrap n lo)) (wrap n hi)).
Proof.
  intros Hn Hs Hf Hz Hok Hx. pose proof (fun w => relu_limits_exact n t q w Hn Hs Hf Hz Hok) as L.
  pose proof (L x Hx) as Lx. destruct (get_relu_limits n t q) as [lo hi]. destruct Lx as (B1 & B2 & B3 & _).
  rewrite !wrap_id by (auto; lia).
  assert (E : min_fx (max_fx x lo) hi = Z.min (Z.max x lo) hi).
  { unfold min_fx, max_fx. rewrite Z.gtb_ltb. destruct (Z.ltb_spec lo x); [destruct (Z.ltb_spec x hi)|destruct (Z.ltb_spec lo hi)]; lia. }
  rewrite E. set (v := Z.min (Z.max x lo) hi).
  assert (Bv : in_bits n v) by (unfold in_bits in *; unfold v; lia).
  split; [exact Bv|]. split.
  - apply (L v Bv). unfold v; lia.
  - intros w Bw Rw. apply (L w Bw) in Rw. unfold v. lia.
Qed.

(** C38 (ReLU). Every output element is the value of the activation range nearest to the input element; nothing else is
    written, also when the kernel works in place. *)
Theorem relu_correct n t q tin tout m :
  n = 8 \/ n = 16 -> 0 < q_scale q <= 32767 -> in_bits 8 (q_frac q) -> in_bits n (q_zp q) -> relu_frac_ok t q ->
  chk_relu tin tout = ST_OK -> t_rank tin <> 0 -> fits32 tin -> fits32 tout -> backed tin m -> backed tout m -> unary_ok tin tout ->
  mem_bits n m ->
  exists m', relu n t q tin tout m = Some m'
    /\ (forall c, valid (t_shape tout) c -> exists v, m' (t_data tout + addr (t_stride tout) c) = Some v
         /\ relu_nearest n t q (rd m (t_data tin + addr (t_stride tin) c)) v)
    /\ frame_ok tout m m'.
Proof.
  intros Hn Hs Hf Hz Hok Hc R FI FO BI BO U Hm. unfold relu.
  pose proof (fun x => relu_one n t q x Hn Hs Hf Hz Hok) as One. destruct (get_relu_limits n t q) as [lo hi].
  destruct (map_tensor_correct (fun x => min_fx (max_fx x (wrap n lo)) (wrap n hi)) tin tout m Hc R FI FO BI BO U) as (m' & E & V & F).
  exists m'. split; [exact E|]. split; [|exact F]. intros c Hv. eexists. split; [now apply V|]. apply One.
  apply rd_bits; auto. lia.
Qed.

(** * Leaky ReLU, fixed point *)

Lemma rnd_scale rm v k j : 0 <= k -> 0 <= j -> rnd rm (v * 2 ^ j) (k + j) = rnd rm v k.
Proof.
  intros Hk Hj. apply (nearest_unique rm (v * 2 ^ j) (k + j)); [lia|apply rnd_nearest; lia|].
  pose proof (rnd_nearest rm v k Hk) as N. pose proof (pow2_gt0 k Hk). pose proof (pow2_gt0 j Hj).
  set (r := rnd rm v k) in *. unfold nearest, nearest_up, nearest_even in *. rewrite (pow2_split k j) by lia.
  replace (v * 2 ^ j - r * (2 ^ k * 2 ^ j)) with ((v - r * 2 ^ k) * 2 ^ j) by ring.
  set (e := v - r * 2 ^ k) in *. set (p := 2 ^ k) in *. set (w := 2 ^ j) in *.
  destruct rm; [nia|]. destruct N as [N1 N2]. split; [nia|]. intros E. apply N2.
  rewrite Z.mul_assoc, Z.abs_mul, (Z.abs_eq w) in E by lia. nia.
Qed.

Lemma rnd_exact rm v k : 0 <= k -> rnd rm (v * 2 ^ k) k = v.
Proof. intros. rewrite <- (Z.add_0_l k) at 2. rewrite rnd_scale by lia. apply rnd_0. Qed.

(** The exact result: non-negative inputs are unchanged, negative inputs are multiplied by the slope [a] (with [fs] fractional
    bits), rounded to the input's format and saturated. *)
Definition leaky_exact (rm : rmode) (n fs a x : Z) : Z := if 0 <=? x then x else to_format rm n fs 0 (x * a).

Lemma acc_cast_n_spec rm n x k : n = 8 \/ n = 16 -> in_bits 32 x -> acc_cast_n rm n x k = sat n (asr_rnd_fx rm 32 x k).
Proof. intros [-> | ->] Hx; unfold acc_cast_n; cbn [Z.eqb Pos.eqb]; [now apply acc_cast_8_spec|now apply acc_cast_16_spec]. Qed.

Lemma add_0_fx n v : 1 <= n -> in_bits n v -> add_fx n 0 v = v.
Proof. intros Hn Hv. rewrite add_fx_spec; auto; [now rewrite Z.add_0_l, sat_id|]. unfold in_bits, smin, smax. pose proof (pow2_gt0 (n - 1) ltac:(lia)). lia. Qed.

Lemma leaky_fx_one_split rm n s k x : n = 8 \/ n = 16 -> in_bits n x -> in_bits 16 s ->
  leaky_fx_one rm n s k x = if 0 <=? x then x else sat n (asr_rnd_fx rm 32 (x * s) (Z.min k 31)).
Proof.
  intros Hn Hx Hs. unfold leaky_fx_one.
  replace (min_fx k 31) with (Z.min k 31) by (unfold min_fx; destruct (Z.ltb_spec k 31); lia).
  assert (B : in_bits 16 x) by (destruct Hn as [-> | ->]; [apply (in_bits_mono 8 16); auto; lia|auto]).
  rewrite ib16 in B, Hs.
  destruct (Z.leb_spec 0 x).
  - replace (min_fx 0 x) with 0 by (unfold min_fx; destruct (Z.ltb_spec 0 x); lia).
    replace (max_fx 0 x) with x by (unfold max_fx; rewrite Z.gtb_ltb; destruct (Z.ltb_spec x 0); lia).
    rewrite Z.mul_0_l, acc_cast_n_spec by (auto; apply ib32; lia).
    assert (Z0 : asr_rnd_fx rm 32 0 (Z.min k 31) = 0).
    { rewrite asr_rnd_fx_spec; [|lia|apply ib32; lia|].
      - unfold rshift_spec. destruct (Z.leb_spec 0 (Z.min k 31)).
        + rewrite <- (Z.mul_0_l (2 ^ Z.min k 31)). now apply rnd_exact.
        + now rewrite Z.mul_0_l.
      - apply small_rnd_safe; [lia| |lia]. change (2 ^ (32 - 2) - 1) with 1073741823. lia. }
    rewrite Z0. change (sat n 0) with (clamp (smin n) (smax n) 0).
    assert (clamp (smin n) (smax n) 0 = 0) as -> by (destruct Hn as [-> | ->]; reflexivity).
    unfold add_fx. cbn [Z.gtb Z.ltb Z.compare andb]. lia.
  - replace (min_fx 0 x) with x by (unfold min_fx; destruct (Z.ltb_spec 0 x); lia).
    replace (max_fx 0 x) with 0 by (unfold max_fx; rewrite Z.gtb_ltb; destruct (Z.ltb_spec x 0); lia).
    rewrite acc_cast_n_spec; [|auto|apply ib32; nia]. apply add_0_fx; [lia|]. apply sat_in_bits. lia.
Qed.

(** Formats for which the result is exact. *)
Definition leaky_formats (n fs : Z) : Prop := n = 8 \/ (n = 16 /\ fs <= 15).

Lemma shift_to_format rm n fs v : n = 8 \/ n = 16 -> (fs <= 30 /\ Z.abs v <= 2 ^ 30) \/ Z.abs v < 2 ^ 29 ->
  sat n (asr_rnd_fx rm 32 v (Z.min fs 31)) = to_format rm n fs 0 v.
Proof.
  intros Hn H. unfold to_format. change (2 ^ 30) with 1073741824 in H. change (2 ^ 29) with 536870912 in H.
  assert (Hv : in_bits 32 v) by (apply ib32; lia).
  assert (S : rnd_safe rm 32 v (Z.min fs 31)).
  { destruct rm; cbn; auto. destruct (Z_le_gt_dec fs 0); [left; lia|]. right; right. change (smax 32) with 2147483647.
    destruct H as [[H1 H2]|H2].
    - pose proof (pow2_le (Z.min fs 31 - 1) 29 ltac:(lia) ltac:(lia)). change (2 ^ 29) with 536870912 in *. lia.
    - pose proof (pow2_le (Z.min fs 31 - 1) 30 ltac:(lia) ltac:(lia)). change (2 ^ 30) with 1073741824 in *. lia. }
  rewrite asr_rnd_fx_spec by (auto; lia). unfold rshift_spec.
  destruct (Z.leb_spec 0 (Z.min fs 31)), (Z.leb_spec 0 fs); try lia.
  - rewrite Z.sub_0_r. destruct (Z_le_gt_dec fs 31); [now replace (Z.min fs 31) with fs by lia|].
    replace (Z.min fs 31) with 31 by lia.
    assert (Z.abs v < 2 ^ 30) by (change (2 ^ 30) with 1073741824; lia).
    pose proof (pow2_le 30 (fs - 1) ltac:(lia) ltac:(lia)).
    rewrite (rnd_big rm v 31), (rnd_big rm v fs); lia.
  - replace (Z.min fs 31) with fs by lia. rewrite sat_sat by lia. f_equal.
Qed.

Lemma to_format_scale rm n fs k v : 0 <= k -> to_format rm n (fs + k) 0 (v * 2 ^ k) = to_format rm n fs 0 v.
Proof.
  intros Hk. unfold to_format. f_equal. destruct (Z.leb_spec 0 (fs + k)), (Z.leb_spec 0 fs); try lia.
  - rewrite !Z.sub_0_r. now apply rnd_scale.
  - rewrite Z.sub_0_r. replace (v * 2 ^ k) with (v * 2 ^ (0 - fs) * 2 ^ (fs + k)); [now apply rnd_exact|].
    rewrite <- Z.mul_assoc, <- pow2_split by lia. f_equal. f_equal. lia.
  - rewrite <- Z.mul_assoc, <- pow2_split by lia. f_equal. f_equal. lia.
Qed.

(** The parameters of the kernel give the exact result. *)
Definition leaky_norm (rm : rmode) (n a : Z) : Z * Z := if n =? 16 then norm_cast_fx rm 16 16 a else (a, 0).

Lemma norm16 rm a : in_bits 16 a -> exists k, 0 <= k <= 15 /\ norm_cast_fx rm 16 16 a = (a * 2 ^ k, - k) /\ in_bits 16 (a * 2 ^ k).
Proof.
  intros Ha. unfold norm_cast_fx. change (16 <? 16) with false. cbv iota zeta. change (16 - 16) with 0.
  destruct (Z.eq_dec a 0) as [->|H0].
  - exists (norm_fx 16 0). split; [vm_compute; split; discriminate|]. split; [|apply ib16; lia].
    rewrite cast_same_spec by (try apply ib16; lia). destruct rm; vm_compute; reflexivity.
  - destruct (norm_fx_spec 16 a ltac:(lia) Ha H0) as (K & B & _). set (k := norm_fx 16 a) in *. exists k. split; [lia|].
    split; [|exact B]. f_equal. rewrite cast_same_spec by (auto; lia).
    destruct (asr_rnd_fx_total rm 16 a (0 - k) ltac:(lia) Ha) as (_ & _ & E). rewrite E by lia.
    replace (- (0 - k)) with k by lia. now apply sat_id.
Qed.

Lemma leaky_fx_exact rm n fs a x : leaky_formats n fs -> in_bits n a -> in_bits n x ->
  let '(s, k) := leaky_norm rm n a in leaky_fx_one rm n s (fs - k) x = leaky_exact rm n fs a x.
Proof.
  intros Hf Ha Hx. unfold leaky_norm, leaky_exact. destruct Hf as [-> | [-> Hf]].
  - change (8 =? 16) with false. cbv iota. rewrite leaky_fx_one_split; auto. 2:{ apply (in_bits_mono 8 16); auto; lia. }
    destruct (0 <=? x); [reflexivity|]. rewrite Z.sub_0_r. apply shift_to_format; auto. right. rewrite ib8 in *.
    change (2 ^ 29) with 536870912. nia.
  - change (16 =? 16) with true. cbv iota. destruct (norm16 rm a Ha) as (k & K & E & B). rewrite E.
    rewrite leaky_fx_one_split by auto. destruct (0 <=? x); [reflexivity|]. replace (fs - - k) with (fs + k) by lia.
    rewrite shift_to_format; auto. 2:{ left. rewrite ib16 in *. change (2 ^ 30) with 1073741824. split; [lia|]. nia. }
    rewrite Z.mul_assoc. apply to_format_scale. lia.
Qed.

(** The scalar slope. *)
Lemma scalar_slope t m imm : chk_scalar t = ST_OK -> operand_ok t m -> exists a, data_val m t imm = Some a /\ elt_arg m t imm [] = a.
Proof.
  intros Hc OS.
  assert (S : t_rank t = 0 \/ (t_rank t <> 0 /\ chk_tensor t = ST_OK /\ fits32 t /\ backed t m)).
  { destruct (Z.eq_dec (t_rank t) 0) as [|Rs]; [auto|]. right. destruct OS as [|[F B]]; [contradiction|].
    unfold chk_scalar in Hc. destruct (Z.eqb_spec (t_rank t) 0); [contradiction|]. destruct (chk_tensor t); try discriminate. auto. }
  assert (P1 : prod (t_shape t) = 1).
  { destruct S as [R0|(Rs & Cs & Fs & Bs)]; [now rewrite (rank0_shape _ R0)|].
    unfold chk_scalar in Hc. destruct (Z.eqb_spec (t_rank t) 0); [contradiction|]. rewrite Cs in Hc.
    destruct (one_elem t) eqn:O1; [|discriminate]. rewrite (one_elem_prod t m) in O1 by auto. now apply Z.eqb_eq. }
  destruct (data_val_arg t m imm [] S) as (a & Ea & Va). exists a. split; [exact Ea|now apply Va].
Qed.

(** C38 (leaky ReLU, FX8 and FX16). Non-negative elements are copied, negative elements are multiplied by the slope, rounded and
    saturated; nothing else is written, also when the kernel works in place. *)
Theorem leaky_relu_fx_correct rm n f fs tin tslope tout imm m :
  leaky_formats n fs -> chk_leaky_relu tin tslope tout = ST_OK -> t_rank tin <> 0 ->
  fits32 tin -> fits32 tout -> backed tin m -> backed tout m -> unary_ok tin tout -> operand_ok tslope m ->
  mem_bits n m -> in_bits n imm ->
  exists m', leaky_relu_fx rm n f fs f tin tslope tout imm m = Some m'
    /\ (forall c, valid (t_shape tout) c -> m' (t_data tout + addr (t_stride tout) c)
         = Some (leaky_exact rm n fs (elt_arg m tslope imm []) (rd m (t_data tin + addr (t_stride tin) c))))
    /\ frame_ok tout m m'.
Proof.
  intros Hf Hc R FI FO BI BO U OS Hm Hi. assert (Hn : n = 8 \/ n = 16) by (unfold leaky_formats in Hf; lia).
  unfold chk_leaky_relu in Hc. destruct (chk_relu tin tout) eqn:C; try discriminate.
  destruct (scalar_slope tslope m imm Hc OS) as (a & Ea & Va).
  unfold leaky_relu_fx. rewrite Ea. cbn [bind]. rewrite Va. change (if n =? 16 then norm_cast_fx rm 16 16 a else (a, 0)) with (leaky_norm rm n a).
  assert (Ba : in_bits n a) by (rewrite <- Va; apply elt_arg_bits; auto; lia).
  pose proof (fun x => leaky_fx_exact rm n fs a x Hf Ba) as X. destruct (leaky_norm rm n a) as [s k].
  destruct (map_tensor_correct (leaky_fx_one rm n s (f + fs - f - k)) tin tout m C R FI FO BI BO U) as (m' & E & V & F).
  exists m'. split; [exact E|]. split; [|exact F]. intros c Hv. rewrite V by exact Hv. f_equal.
  replace (f + fs - f - k) with (fs - k) by lia. apply X. apply rd_bits; auto. lia.
Qed.

(** At 16 fractional bits of the slope the limit of the shift loses a rounding: -32768 * (-2^-16) is 0.5. *)
Theorem leaky_fx16_refuted : exists a x fs, in_bits 16 a /\ in_bits 16 x /\ fs = 16
  /\ leaky_exact RM_UP 16 fs a x = 1 /\ (let '(s, k) := leaky_norm RM_UP 16 a in leaky_fx_one RM_UP 16 s (fs - k) x) = 0.
Proof. exists (-1), (-32768), 16. repeat split; vm_compute; congruence. Qed.

(** * PReLU loops *)

Lemma drop_at_S k a l : drop_at (S k) (a :: l) = a :: drop_at k l.
Proof. reflexivity. Qed.

Fixpoint ins_at (k : nat) (i : Z) (c : list Z) : list Z :=
  match k, c with O, _ => i :: c | S k', a :: c' => a :: ins_at k' i c' | S _, [] => [i] end.

Lemma addr_split k : forall st x, length st = length x -> (k < length x)%nat ->
  addr st x = nth k x 0 * nth k st 0 + addr (drop_at k st) (drop_at k x).
Proof.
  induction k as [|k IH]; intros [|s st] [|i x] L H; cbn [length] in *; try lia.
  - cbn [drop_at firstn skipn app addr nth]. ring.
  - rewrite !drop_at_S. cbn [addr nth]. rewrite (IH st x) by lia. ring.
Qed.

Lemma valid_split k : forall sh x, valid sh x -> (k < length sh)%nat ->
  0 <= nth k x 0 < nth k sh 0 /\ valid (drop_at k sh) (drop_at k x).
Proof.
  induction k as [|k IH]; intros [|d sh] [|i x] V H; cbn [valid length] in *; try contradiction; try lia.
  - exact V.
  - rewrite !drop_at_S. cbn [nth valid]. destruct (IH sh x) as [A B]; [tauto|lia|]. tauto.
Qed.

Lemma valid_ins k : forall sh i c, valid (drop_at k sh) c -> 0 <= i < nth k sh 0 -> (k < length sh)%nat ->
  valid sh (ins_at k i c) /\ nth k (ins_at k i c) 0 = i /\ drop_at k (ins_at k i c) = c.
Proof.
  induction k as [|k IH]; intros [|d sh] i c V Hi H; cbn [length] in *; try lia.
  - cbn [nth drop_at firstn skipn app valid ins_at] in *. auto.
  - rewrite drop_at_S in V. destruct c as [|j c]; [contradiction|]. cbn [valid nth ins_at] in *.
    destruct (IH sh i c) as (A & B & C); [tauto|lia|lia|]. rewrite drop_at_S, C. tauto.
Qed.

Lemma drop_at_inj k : forall sh x y, valid sh x -> valid sh y -> (k < length sh)%nat -> nth k x 0 = nth k y 0 -> drop_at k x = drop_at k y -> x = y.
Proof.
  induction k as [|k IH]; intros [|d sh] [|i x] [|j y] V V' H E D; cbn [valid length] in *; try contradiction; try lia.
  - cbn [nth drop_at firstn skipn app] in *. congruence.
  - rewrite !drop_at_S in D. cbn [nth] in E. injection D as -> D. f_equal. apply (IH sh); tauto || lia.
Qed.

Lemma drop_at_length k l : (k < length l)%nat -> length (drop_at k l) = (length l - 1)%nat.
Proof. intros. unfold drop_at. rewrite app_length, firstn_length, skipn_length. lia. Qed.

Lemma coords_pad k sh : coords (repeat 1 k ++ sh) = map (app (repeat 0 k)) (coords sh).
Proof.
  induction k as [|k IH]; cbn [repeat app]; [symmetry; apply map_id|]. cbn [coords]. rewrite IH. change (zrange 0 1) with [0].
  cbn [flat_map]. rewrite app_nil_r, map_map. auto.
Qed.

Lemma addr_pad k st c : addr (repeat 0 k ++ st) (repeat 0 k ++ c) = addr st c.
Proof. induction k; cbn [repeat app addr]; auto. Qed.

(** The padded loops visit the coordinates of the unpadded shape. *)
Lemma foldM_pad {S} (F : Z -> Z -> S -> option S) k sh sti sto (s : S) :
  length sti = length sh -> length sto = length sh ->
  foldM (fun c => F (addr (pad_front k 0 sti) c) (addr (pad_front k 0 sto) c)) (coords (pad_front k 1 sh)) s
  = foldM (fun c => F (addr sti c) (addr sto c)) (coords sh) s.
Proof.
  intros L1 L2. unfold pad_front. rewrite coords_pad, foldM_map, L1, L2. apply foldM_ext. intros c s' _. now rewrite !addr_pad.
Qed.

Lemma pad_length k d l : (length l <= k)%nat -> length (pad_front k d l) = k.
Proof. intros. unfold pad_front. rewrite app_length, repeat_length. lia. Qed.

Lemma pad_last k d l : l <> [] -> last (pad_front k d l) 0 = last l 0.
Proof.
  intros H. unfold pad_front. destruct l as [|x l] using rev_ind; [contradiction|]. rewrite app_assoc. now rewrite !last_last.
Qed.

Lemma list3 (l : list Z) : length l = 3%nat -> l = firstn 2 l ++ [nth 2 l 0] /\ nth 2 l 0 = last l 0.
Proof. destruct l as [|a [|b [|c [|]]]]; try discriminate. auto. Qed.

(** The element step. *)
Definition one_step (g : Z -> Z) (ai ao : Z) (m : mem) : option mem := do x <- load m ai; store m ao (g x).

Lemma broadcast_nest g pi po sh sti sto m : sh <> [] -> (length sh <= 3)%nat -> length sti = length sh -> length sto = length sh ->
  last sti 0 = 1 -> last sto 0 = 1 ->
  foldM (fun c m => map_inner g (pi + addr (firstn 2 (pad_front 3 0 sti)) c) (po + addr (firstn 2 (pad_front 3 0 sto)) c) (nth 2 (pad_front 3 1 sh) 0) m)
    (coords (firstn 2 (pad_front 3 1 sh))) m
  = foldM (fun c => one_step g (pi + addr sti c) (po + addr sto c)) (coords sh) m.
Proof.
  intros Hn H3 L1 L2 E1 E2. rewrite <- (foldM_pad (fun a b => one_step g (pi + a) (po + b)) 3 sh sti sto m L1 L2).
  assert (Ni : sti <> []) by (intros ->; destruct sh; [contradiction|discriminate]).
  assert (No : sto <> []) by (intros ->; destruct sh; [contradiction|discriminate]).
  pose proof (pad_length 3 1 sh H3) as LP. pose proof (pad_length 3 0 sti ltac:(lia)) as LPi. pose proof (pad_length 3 0 sto ltac:(lia)) as LPo.
  rewrite <- (pad_last 3 0) in E1 by auto. rewrite <- (pad_last 3 0) in E2 by auto.
  set (P := pad_front 3 1 sh) in *. set (Pi := pad_front 3 0 sti) in *. set (Po := pad_front 3 0 sto) in *.
  destruct (list3 P LP) as [EP _], (list3 Pi LPi) as [EPi EPi'], (list3 Po LPo) as [EPo EPo'].
  replace (coords P) with (coords (firstn 2 P ++ [nth 2 P 0])) by (now rewrite <- EP). rewrite coords_snoc, foldM_flat_map. apply foldM_ext. intros c m' Hc. apply in_coords in Hc.
  rewrite foldM_map. unfold map_inner. apply foldM_ext. intros i m'' _. unfold one_step.
  apply valid_length in Hc. rewrite firstn_length, LP in Hc.
  assert (A1 : addr Pi (c ++ [i]) = addr (firstn 2 Pi) c + i).
  { rewrite EPi at 1. rewrite addr_app by (rewrite firstn_length, LPi; lia). cbn [addr]. rewrite EPi', E1. ring. }
  assert (A2 : addr Po (c ++ [i]) = addr (firstn 2 Po) c + i).
  { rewrite EPo at 1. rewrite addr_app by (rewrite firstn_length, LPo; lia). cbn [addr]. rewrite EPo', E2. ring. }
  rewrite A1, A2, !Z.add_assoc. reflexivity.
Qed.

Lemma firstn3_pad d l : l <> [] -> (length l <= 4)%nat -> firstn 3 (pad_front 4 d l) = pad_front 3 d (drop_at (length l - 1) l).
Proof.
  intros Hn H4. destruct l as [|x l] using rev_ind; [contradiction|]. clear IHl. rewrite app_length in *. cbn [length] in *.
  replace (length l + 1 - 1)%nat with (length l) by lia.
  assert (D : drop_at (length l) (l ++ [x]) = l).
  { unfold drop_at. rewrite firstn_app, firstn_all, Nat.sub_diag. cbn [firstn]. rewrite app_nil_r.
    rewrite skipn_all2 by (rewrite app_length; cbn; lia). now rewrite app_nil_r. }
  rewrite D. unfold pad_front. rewrite app_length. cbn [length]. replace (4 - (length l + 1))%nat with (3 - length l)%nat by lia.
  rewrite app_assoc. rewrite firstn_app. replace (3 - length (repeat d (3 - length l) ++ l))%nat with 0%nat by (rewrite app_length, repeat_length; lia).
  change (firstn 0 [x]) with (@nil Z). rewrite app_nil_r. apply firstn_all2. rewrite app_length, repeat_length. lia.
Qed.

(** Both variants of the loop. *)
Lemma prelu_run_map g tin ts tout axis m : (0 <= axis < t_rank tin) -> (length (t_shape tin) <= 4)%nat ->
  length (t_stride tin) = length (t_shape tin) -> length (t_stride tout) = length (t_shape tin) ->
  last (t_stride tin) 0 = 1 -> last (t_stride tout) 0 = 1 ->
  let ax := Z.to_nat axis in
  prelu_run g tin ts tout axis m = foldM (fun k m =>
    do s <- load m (t_data ts + k);
    foldM (fun c => one_step (g s) (t_data tin + k * nth ax (t_stride tin) 0 + addr (drop_at ax (t_stride tin)) c)
                              (t_data tout + k * nth ax (t_stride tout) 0 + addr (drop_at ax (t_stride tout)) c)) (coords (drop_at ax (t_shape tin))) m)
    (zrange 0 (nth ax (t_shape ts) 0)) m.
Proof.
  intros Ha H4 L1 L2 E1 E2 ax. unfold prelu_run, t_rank in *. destruct (Z.ltb_spec axis 0); [lia|].
  destruct (Z.eqb_spec axis (Z.of_nat (length (t_shape tin)) - 1)) as [Ea|Ea]; cbn [negb]; fold ax.
  - unfold prelu_inner. apply foldM_ext. intros k m' _. destruct (load m' (t_data ts + k)) as [s|]; [|reflexivity]. cbn [bind].
    assert (N : t_shape tin <> [] /\ t_stride tin <> [] /\ t_stride tout <> []).
    { repeat split; intros E; rewrite E in *; cbn in *; lia. } destruct N as (N1 & N2 & N3).
    rewrite !firstn3_pad by (auto; lia). rewrite L1, L2. replace (length (t_shape tin) - 1)%nat with ax by (unfold ax; lia).
    apply (foldM_pad (fun a b => one_step (g s) (t_data tin + k * nth ax (t_stride tin) 0 + a) (t_data tout + k * nth ax (t_stride tout) 0 + b)));
      rewrite !drop_at_length; unfold ax; lia.
  - unfold prelu_broadcast. apply foldM_ext. intros k m' _. destruct (load m' (t_data ts + k)) as [s|]; [|reflexivity]. cbn [bind].
    assert (La : (ax < length (t_shape tin) - 1)%nat) by (unfold ax; lia).
    assert (DL : forall l, length l = length (t_shape tin) -> last (drop_at ax l) 0 = last l 0).
    { intros l E. unfold drop_at. assert (Hs : skipn (S ax) l <> []) by (intros X; apply (f_equal (@length Z)) in X; rewrite skipn_length in X; cbn in X; lia).
      rewrite <- (firstn_skipn (S ax) l) at 3. destruct (skipn (S ax) l) as [|y r] using rev_ind; [contradiction|]. rewrite !app_assoc, !last_last. reflexivity. }
    apply broadcast_nest; rewrite ?DL by auto; auto.
    + intros E. apply (f_equal (@length Z)) in E. rewrite drop_at_length in E by lia. cbn in E. lia.
    + rewrite drop_at_length; lia.
    + rewrite !drop_at_length; lia.
    + rewrite !drop_at_length; lia.
Qed.

(** Loads that the loop does not disturb can be made from the initial memory. *)
Lemma foldM_frozen {A B} (ps : A -> Z) (v : A -> Z) (F : A -> Z -> B -> mem -> option mem) (L : list B) l : forall m,
  (forall k, In k l -> load m (ps k) = Some (v k)) ->
  (forall k j b s m1 m2, In k l -> In j l -> In b L -> F j s b m1 = Some m2 -> m2 (ps k) = m1 (ps k)) ->
  foldM (fun k m => do s <- load m (ps k); foldM (F k s) L m) l m = foldM (fun k m => foldM (F k (v k)) L m) l m.
Proof.
  induction l as [|k l IH]; intros m Hv Hp; [reflexivity|]. cbn [foldM]. rewrite Hv by now left. cbn [bind].
  destruct (foldM (F k (v k)) L m) as [m'|] eqn:E; [|reflexivity]. apply IH.
  - intros j Hj. rewrite <- (Hv j) by now right. unfold load.
    assert (G : forall L' m1 m2, (forall b, In b L' -> In b L) -> foldM (F k (v k)) L' m1 = Some m2 -> m2 (ps j) = m1 (ps j)).
    { induction L' as [|b L' IHL]; intros m1 m2 Hs E1; cbn [foldM] in E1; [congruence|].
      destruct (F k (v k) b m1) as [m3|] eqn:E3; [|discriminate].
      rewrite (IHL m3 m2 (fun b Hb => Hs b (or_intror Hb)) E1). apply (Hp j k b (v k)); [now right|now left|apply Hs; now left|exact E3]. }
    apply (G L m m'); auto.
  - intros. eapply Hp; eauto; now right.
Qed.

(** The slope of index [i] on the axis: the element of the slope tensor at coordinate [i] of the axis and 0 elsewhere. *)
Definition slope_coord (ts : tensor) (axis i : Z) : list Z := map (fun k => if Z.of_nat k =? axis then i else 0) (seq 0 (length (t_shape ts))).
Definition slope_addr (ts : tensor) (axis i : Z) : Z := t_data ts + addr (t_stride ts) (slope_coord ts axis i).

Lemma onehot_addr axis i : forall st n, length st = n -> 0 <= axis -> forall b, Z.of_nat b <= axis ->
  addr st (map (fun k => if Z.of_nat k =? axis then i else 0) (seq b n)) = nth (Z.to_nat axis - b) st 0 * i.
Proof.
  induction st as [|s st IH]; intros n L Ha b Hb; subst n.
  - cbn [length seq map addr]. destruct (Z.to_nat axis - b)%nat; reflexivity.
  - cbn [length seq map addr]. destruct (Z.eqb_spec (Z.of_nat b) axis).
    + replace (Z.to_nat axis - b)%nat with 0%nat by lia. cbn [nth].
      assert (Z0 : forall st b, axis < Z.of_nat b -> addr st (map (fun k => if Z.of_nat k =? axis then i else 0) (seq b (length st))) = 0).
      { clear. induction st as [|x st IHs]; intros b H; cbn [length seq map addr]; [reflexivity|]. destruct (Z.eqb_spec (Z.of_nat b) axis); [lia|].
        rewrite IHs by lia. ring. }
      rewrite Z0 by lia. ring.
    + rewrite (IH (length st) eq_refl Ha (S b)) by lia. replace (Z.to_nat axis - b)%nat with (S (Z.to_nat axis - S b)) by lia. cbn [nth]. ring.
Qed.

(** What PReLU needs of its slope tensor beyond the checks: consecutive slopes, which the output does not overwrite. *)
Definition slope_ok (ts tout : tensor) (axis : Z) : Prop :=
  nth (Z.to_nat axis) (t_stride ts) 0 = 1
  /\ forall i c, 0 <= i < nth (Z.to_nat axis) (t_shape tout) 0 -> valid (t_shape tout) c -> slope_addr ts axis i <> t_data tout + addr (t_stride tout) c.

Lemma chk_prelu_facts tin ts tout axis : chk_prelu tin ts tout axis = ST_OK -> t_rank tin <> 0 -> 0 <= axis ->
  chk_relu tin tout = ST_OK /\ chk_tensor ts = ST_OK /\ axis < t_rank tin
  /\ (forall k, (k < length (t_shape tin))%nat -> nth k (t_shape ts) 0 = if Z.of_nat k =? axis then nth k (t_shape tin) 0 else 1).
Proof.
  intros H R Ha. unfold chk_prelu, chk_relu in *. destruct (chk_tensor tin); try discriminate. destruct (Z.eqb_spec axis (-1)); [lia|].
  destruct (chk_tensor ts); try discriminate. destruct (chk_tensor tout); try discriminate.
  destruct (same_shape tin tout); [|discriminate]. cbn [negb] in *. destruct (Z.ltb_spec axis (t_rank tin)); [|discriminate]. cbn [negb orb] in *.
  destruct (inner_stride_is_one tin); [|discriminate]. destruct (inner_stride_is_one ts); [|discriminate].
  destruct (inner_stride_is_one tout); [|rewrite !andb_false_r in H; discriminate]. cbn [andb negb] in *.
  destruct (forallb _ _) eqn:E; [|discriminate]. rewrite forallb_forall in E. repeat split; auto.
  intros k Hk. specialize (E k). rewrite in_seq in E. specialize (E ltac:(lia)). now apply Z.eqb_eq in E.
Qed.

Lemma prelu_loop g tin ts tout axis m :
  chk_prelu tin ts tout axis = ST_OK -> t_rank tin <> 0 -> 0 <= axis ->
  fits32 tin -> fits32 ts -> fits32 tout -> backed tin m -> backed ts m -> backed tout m -> unary_ok tin tout -> slope_ok ts tout axis ->
  exists m', prelu_run g tin ts tout axis m = Some m'
    /\ (forall c, valid (t_shape tout) c -> m' (t_data tout + addr (t_stride tout) c)
         = Some (g (rd m (slope_addr ts axis (nth (Z.to_nat axis) c 0))) (rd m (t_data tin + addr (t_stride tin) c))))
    /\ frame_ok tout m m'.
Proof.
  intros Hc R Ha FI FS FO BI BS BO U [S1 S2]. destruct (chk_prelu_facts tin ts tout axis Hc R Ha) as (CR & CS & Hr & Hsh).
  destruct (chk_relu_facts tin tout CR R) as (CI & CO & Es & L1 & L2).
  pose proof FI as (LI & _). pose proof FO as (LO & _). pose proof FS as (LS & _). destruct (chk_tensor_pos tin CI LI) as (R4 & P & _).
  destruct (chk_tensor_pos ts CS LS) as (_ & PS & _).
  destruct (chk_tensor_nested tout FO CO) as (Nst & _).
  rewrite prelu_run_map by (auto; congruence || lia). set (ax := Z.to_nat axis) in *.
  assert (Hax : (ax < length (t_shape tin))%nat) by (unfold ax, t_rank in *; lia).
  assert (Ed : nth ax (t_shape ts) 0 = nth ax (t_shape tin) 0).
  { rewrite Hsh by exact Hax. unfold ax. rewrite Z2Nat.id by lia. now rewrite Z.eqb_refl. }
  rewrite Ed. set (d := nth ax (t_shape tin) 0) in *.
  assert (Hlen : (ax < length (t_shape ts))%nat).
  { destruct (lt_dec ax (length (t_shape ts))); [assumption|]. exfalso. rewrite nth_overflow in Ed by lia.
    rewrite Forall_forall in P. assert (0 < d) by (apply P; apply nth_In; exact Hax). lia. }
  assert (Sa : forall i, slope_addr ts axis i = t_data ts + i).
  { intros i. unfold slope_addr, slope_coord. rewrite (onehot_addr axis i (t_stride ts)) by (auto; lia). rewrite Nat.sub_0_r. fold ax. rewrite S1. ring. }
  assert (Sv : forall i, 0 <= i < d -> allocated m (t_data ts + i)).
  { intros i Hi. rewrite <- Sa. apply chk_backed; auto. unfold slope_coord.
    assert (G : forall sh b, Forall (fun d => 0 < d) sh -> (forall k, nth k sh 0 = nth (b + k) (t_shape ts) 0) ->
       valid sh (map (fun k => if Z.of_nat k =? axis then i else 0) (seq b (length sh)))).
    { induction sh as [|e sh IH]; intros b F E; cbn [length seq map valid]; [exact I|]. inversion F; subst. split.
      - destruct (Z.eqb_spec (Z.of_nat b) axis); [|lia]. specialize (E 0%nat). cbn [nth] in E. rewrite Nat.add_0_r in E.
        replace b with ax in E by (unfold ax; lia). lia.
      - apply IH; auto. intros k. specialize (E (S k)). cbn [nth] in E. rewrite E. f_equal. lia. }
    apply (G (t_shape ts) 0%nat); auto. }
  rewrite (foldM_frozen (fun k => t_data ts + k) (fun k => rd m (t_data ts + k))
    (fun k s c => one_step (g s) (t_data tin + k * nth ax (t_stride tin) 0 + addr (drop_at ax (t_stride tin)) c)
                              (t_data tout + k * nth ax (t_stride tout) 0 + addr (drop_at ax (t_stride tout)) c))).
  2:{ intros k Hk. apply in_zrange in Hk. apply load_eq; auto. }
  2:{ intros k j c s m1 m2 Hk Hj Hin E. apply in_zrange in Hk, Hj. apply in_coords in Hin. unfold one_step in E.
      destruct (load m1 _) as [x|]; [|discriminate]. cbn [bind] in E. unfold store in E. destruct (m1 _) eqn:Em; [|discriminate]. injection E as <-.
      destruct (Z.eqb_spec (t_data ts + k) (t_data tout + j * nth ax (t_stride tout) 0 + addr (drop_at ax (t_stride tout)) c)) as [E|]; [|reflexivity].
      exfalso. destruct (valid_ins ax (t_shape tin) j c Hin Hj Hax) as (V1 & V2 & V3).
      apply (S2 k (ins_at ax j c)); [rewrite <- Es; exact Hk|now rewrite <- Es|]. rewrite Sa, E.
      rewrite (addr_split ax (t_stride tout) (ins_at ax j c)).
      - rewrite V2, V3. ring.
      - apply valid_length in V1. congruence.
      - apply valid_length in V1. lia. }
  rewrite foldM_nested. set (l := flat_map (fun k => map (pair k) (coords (drop_at ax (t_shape tin)))) (zrange 0 d)).
  assert (Il : forall p, In p l <-> 0 <= fst p < d /\ valid (drop_at ax (t_shape tin)) (snd p)).
  { intros [k c]. unfold l. rewrite in_flat_map. cbn [fst snd]. split.
    - intros (j & Hj & H). apply in_map_iff in H. destruct H as (c' & E & Hc'). injection E as -> ->. apply in_zrange in Hj. apply in_coords in Hc'. auto.
    - intros [Hk Hv]. exists k. split; [now apply in_zrange|]. apply in_map. now apply in_coords. }
  assert (Ad : forall t k c, length (t_stride t) = length (t_shape tin) -> 0 <= k < d -> valid (drop_at ax (t_shape tin)) c ->
     t_data t + k * nth ax (t_stride t) 0 + addr (drop_at ax (t_stride t)) c = t_data t + addr (t_stride t) (ins_at ax k c)).
  { intros t k c Ll Hk Hv. destruct (valid_ins ax (t_shape tin) k c Hv Hk Hax) as (V1 & V2 & V3). apply valid_length in V1.
    rewrite (addr_split ax (t_stride t) (ins_at ax k c)) by lia. rewrite V2, V3. ring. }
  destruct (foldM_inplace (fun p => t_data tout + addr (t_stride tout) (ins_at ax (fst p) (snd p)))
    (fun p => g (rd m (t_data ts + fst p)) (rd m (t_data tin + addr (t_stride tin) (ins_at ax (fst p) (snd p)))))
    (fun p a => a = t_data tin + addr (t_stride tin) (ins_at ax (fst p) (snd p)))
    (fun p => one_step (g (rd m (t_data ts + fst p))) (t_data tin + fst p * nth ax (t_stride tin) 0 + addr (drop_at ax (t_stride tin)) (snd p))
                              (t_data tout + fst p * nth ax (t_stride tout) 0 + addr (drop_at ax (t_stride tout)) (snd p))) l m)
    as (m' & Em & H1 & H2).
  - unfold l. apply NoDup_flat_map.
    + apply zrange_NoDup.
    + intros x _. apply FinFun.Injective_map_NoDup; [intros a b; congruence|apply coords_NoDup].
    + intros x y b _ _ Hx Hy. apply in_map_iff in Hx, Hy. destruct Hx as (?&<-&_), Hy as (?&E&_). congruence.
  - intros [k c] m' Hin Hrd. apply Il in Hin. cbn [fst snd] in *. destruct Hin as [Hk Hv].
    rewrite !Ad by (auto; congruence). unfold one_step. rewrite (load_eq m); [reflexivity| |now apply Hrd].
    apply chk_backed; auto. now apply valid_ins.
  - intros [k c] Hin. apply Il in Hin. cbn [fst snd] in *. destruct Hin as [Hk Hv]. apply chk_backed; auto. rewrite <- Es. now apply valid_ins.
  - intros [k c] [j c'] Hin Hin' E. apply Il in Hin, Hin'. cbn [fst snd] in *. destruct Hin as [Hk Hv], Hin' as [Hj Hv'].
    destruct (valid_ins ax (t_shape tin) k c Hv Hk Hax) as (V1 & V2 & V3), (valid_ins ax (t_shape tin) j c' Hv' Hj Hax) as (W1 & W2 & W3).
    assert (X : ins_at ax k c = ins_at ax j c').
    { apply (nested_inj (t_shape tout) (t_stride tout)); auto; try (now rewrite <- Es). lia. }
    rewrite X in V2, V3. congruence.
  - intros [k c] [j c'] Hin Hin' Hne E. apply Il in Hin, Hin'. cbn [fst snd] in *. destruct Hin as [Hk Hv], Hin' as [Hj Hv'].
    destruct (valid_ins ax (t_shape tin) k c Hv Hk Hax) as (V1 & V2 & V3), (valid_ins ax (t_shape tin) j c' Hv' Hj Hax) as (W1 & W2 & W3).
    apply (U (ins_at ax k c) (ins_at ax j c')); try (now rewrite <- Es); [|now symmetry].
    intros X. apply Hne. rewrite X in V2, V3. congruence.
  - assert (Sp : forall c, valid (t_shape tin) c -> In (nth ax c 0, drop_at ax c) l /\ ins_at ax (nth ax c 0) (drop_at ax c) = c).
    { intros c V. destruct (valid_split ax (t_shape tin) c V Hax) as [Vk Vc]. split; [apply Il; auto|].
      destruct (valid_ins ax (t_shape tin) _ _ Vc Vk Hax) as (V1 & V2 & V3). apply (drop_at_inj ax (t_shape tin)); auto. }
    exists m'. split; [exact Em|]. split.
    + intros c V. rewrite <- Es in V. destruct (Sp c V) as [Hin E]. specialize (H1 _ Hin). cbn [fst snd] in H1. rewrite E in H1. rewrite Sa. exact H1.
    + intros a Hna. apply H2. intros [k c] Hin E. apply Il in Hin. cbn [fst snd] in *. destruct Hin as [Hk Hv].
      apply (Hna (ins_at ax k c)); [|lia]. rewrite <- Es. now apply valid_ins.
Qed.

(** Formats for which the fixed point PReLU is exact: no limit in practice for 16 bits, where the slope is not normalized. *)
Definition prelu_formats (n fs : Z) : Prop := n = 8 \/ (n = 16 /\ fs <= 30).

Lemma prelu_fx_exact rm n fs a x : prelu_formats n fs -> in_bits n a -> in_bits n x -> leaky_fx_one rm n a fs x = leaky_exact rm n fs a x.
Proof.
  intros Hf Ha Hx. unfold leaky_exact. destruct Hf as [-> | [-> Hf]].
  - rewrite leaky_fx_one_split; auto. 2:{ apply (in_bits_mono 8 16); auto; lia. }
    destruct (0 <=? x); [reflexivity|]. apply shift_to_format; auto. right. rewrite ib8 in *. change (2 ^ 29) with 536870912. nia.
  - rewrite leaky_fx_one_split by auto. destruct (0 <=? x); [reflexivity|]. apply shift_to_format; auto. left. rewrite ib16 in *.
    change (2 ^ 30) with 1073741824. split; [lia|nia].
Qed.

(** C38 (PReLU, FX8 and FX16). As leaky ReLU, with the slope of the element's index on the axis. *)
Theorem prelu_fx_correct rm n f fs tin tslope tout axis imm m :
  prelu_formats n fs -> chk_prelu tin tslope tout axis = ST_OK -> t_rank tin <> 0 -> 0 <= axis ->
  fits32 tin -> fits32 tslope -> fits32 tout -> backed tin m -> backed tslope m -> backed tout m -> unary_ok tin tout -> slope_ok tslope tout axis ->
  mem_bits n m ->
  exists m', prelu_fx rm n f fs f tin tslope tout axis imm m = Some m'
    /\ (forall c, valid (t_shape tout) c -> m' (t_data tout + addr (t_stride tout) c)
         = Some (leaky_exact rm n fs (rd m (slope_addr tslope axis (nth (Z.to_nat axis) c 0))) (rd m (t_data tin + addr (t_stride tin) c))))
    /\ frame_ok tout m m'.
Proof.
  intros Hf Hc R Ha FI FS FO BI BS BO U SO Hm. assert (Hn : n = 8 \/ n = 16) by (unfold prelu_formats in Hf; lia).
  unfold prelu_fx. destruct (Z.eqb_spec axis (-1)); [lia|].
  destruct (prelu_loop (fun s => leaky_fx_one rm n s (f + fs - f)) tin tslope tout axis m) as (m' & E & V & F); auto.
  exists m'. split; [exact E|]. split; [|exact F]. intros c Hv. rewrite V by exact Hv. f_equal.
  replace (f + fs - f) with fs by lia. apply prelu_fx_exact; auto; apply rd_bits; auto; lia.
Qed.

(** Axis -1 is leaky ReLU, for both families. *)
Theorem prelu_no_axis rm n fi fs fo i s o tin tslope tout imm m :
  prelu_fx rm n fi fs fo tin tslope tout (-1) imm m = leaky_relu_fx rm n fi fs fo tin tslope tout imm m
  /\ prelu_sa8 rm i s o tin tslope tout (-1) imm m = leaky_relu_sa8 rm i s o tin tslope tout imm m
  /\ (chk_prelu tin tslope tout (-1) = ST_OK -> chk_leaky_relu tin tslope tout = ST_OK).
Proof.
  split; [reflexivity|]. split; [reflexivity|]. unfold chk_prelu, chk_leaky_relu, chk_relu. change (-1 =? -1) with true. cbv iota.
  destruct (chk_tensor tin); try discriminate. destruct (chk_scalar tslope); try discriminate. destruct (chk_tensor tout); try discriminate.
  destruct (same_shape tin tout); [|discriminate]. cbn [negb]. destruct (-1 <? t_rank tin); [|discriminate]. cbn [negb orb andb].
  destruct (inner_stride_is_one tin), (inner_stride_is_one tout); cbn [andb negb]; congruence.
Qed.

(** ** What the checks accept and the kernels get wrong *)

(** A slope tensor of shape [3; 1] whose rows are 5 elements apart passes the checks, but the kernel takes the second slope from the
    element after the first one. *)
Definition sl_in : tensor := mkTensor 0 100 1 [3; 1] [1; 1] false (-1) 0.
Definition sl_out : tensor := mkTensor 10 100 1 [3; 1] [1; 1] false (-1) 0.
Definition sl_slope : tensor := mkTensor 20 100 1 [3; 1] [5; 1] false (-1) 0.
Definition sl_mem : mem := fun a => if (0 <=? a) && (a <? 10) then Some (-100) else if (a =? 20) || (a =? 25) || (a =? 30) then Some 2
  else if (0 <=? a) && (a <? 120) then Some 1 else None.

Theorem prelu_strided_slope_refuted : chk_prelu sl_in sl_slope sl_out 0 = ST_OK
  /\ backed sl_in sl_mem /\ backed sl_out sl_mem /\ backed sl_slope sl_mem
  /\ exists c, valid (t_shape sl_out) c
    /\ leaky_exact RM_UP 8 0 (rd sl_mem (slope_addr sl_slope 0 (nth 0 c 0))) (rd sl_mem (t_data sl_in + addr (t_stride sl_in) c)) = -128
    /\ (do m <- prelu_fx RM_UP 8 0 0 0 sl_in sl_slope sl_out 0 0 sl_mem; load m (t_data sl_out + addr (t_stride sl_out) c)) = Some (-100).
Proof.
  split; [reflexivity|]. repeat apply conj.
  1-3: intros a Ha Hb; unfold sl_in, sl_out, sl_slope in *; cbn [t_esz t_cap t_data] in *; unfold allocated, sl_mem;
    match goal with |- (if (0 <=? ?x) && _ then _ else _) <> None =>
      destruct (Z.leb_spec 0 x); [|lia]; destruct (Z.ltb_spec x 120); [|lia]; cbn [andb]; destruct (x <? 10); [discriminate|]; destruct (_ || _); discriminate end.
  exists [1; 0]. split; [cbn; lia|]. split; reflexivity.
Qed.

(** The checks accept every axis below -1, for which the kernel would read shape[axis] before the start of the array. *)
Theorem prelu_negative_axis_refuted : exists tin ts tout axis, axis < -1 /\ chk_prelu tin ts tout axis = ST_OK
  /\ forall rm n fi fs fo imm m, prelu_fx rm n fi fs fo tin ts tout axis imm m = None.
Proof.
  exists (mkTensor 0 100 1 [2; 3] [3; 1] false (-1) 0), (mkTensor 20 100 1 [1; 1] [1; 1] false (-1) 0), (mkTensor 10 100 1 [2; 3] [3; 1] false (-1) 0), (-2).
  split; [lia|]. split; [reflexivity|]. reflexivity.
Qed.

(** * Non-vacuity *)

Lemma list_backed_at t l : 0 <= t_data t -> t_esz t = 1 -> t_data t + t_cap t <= Z.of_nat (length l) -> backed t (list_mem l).
Proof.
  intros D S C a H0 H1. rewrite S in H1. unfold allocated, list_mem. destruct (Z.ltb_spec (t_data t + a) 0); [lia|].
  apply nth_error_Some. lia.
Qed.

(** Shape [2; 3; 2] with the axis in the middle, in place, with slopes 1/2, 2 and -1 (1 fractional bit). *)
Definition pr_t : tensor := mkTensor 0 12 1 [2; 3; 2] [6; 2; 1] false (-1) 0.
Definition pr_s : tensor := mkTensor 50 3 1 [1; 3; 1] [3; 1; 1] false (-1) 0.
Definition pr_mem : mem := list_mem [-5; 5; -6; 6; -7; 7; -9; 9; -100; 100; -128; 127; 0;0;0;0;0;0;0;0; 0;0;0;0;0;0;0;0;0;0; 0;0;0;0;0;0;0;0;0;0; 0;0;0;0;0;0;0;0;0;0; 1; 4; -2].

Example pr_hyps : prelu_formats 8 1 /\ chk_prelu pr_t pr_s pr_t 1 = ST_OK /\ fits32 pr_t /\ fits32 pr_s /\ backed pr_t pr_mem /\ backed pr_s pr_mem
  /\ unary_ok pr_t pr_t /\ slope_ok pr_s pr_t 1 /\ mem_bits 8 pr_mem.
Proof.
  split; [now left|]. split; [reflexivity|]. split; [fits32_tac|]. split; [fits32_tac|]. split; [apply list_backed_at; cbn; lia|]. split; [apply list_backed_at; cbn; lia|].
  split; [apply unary_inplace; [reflexivity|fits32_tac|reflexivity|reflexivity]|]. split.
  - split; [reflexivity|]. intros i [|x [|y [|z [|]]]] Hi V; cbn in Hi, V; try tauto. unfold slope_addr, slope_coord, pr_s, pr_t. cbn -[Z.mul Z.add]. lia.
  - apply list_bits. reflexivity.
Qed.

Example pr_run : (do m <- prelu_fx RM_UP 8 3 1 3 pr_t pr_s pr_t 1 0 pr_mem; Some (map (rd m) (zrange 0 12)))
  = Some [-2; 5; -12; 6; 7; 7; -4; 9; -128; 100; 127; 127].
Proof. reflexivity. Qed.

(** With the axis last, and the leaky ReLU on the same data (slope 1/2). *)
Definition pr_s2 : tensor := mkTensor 50 3 1 [1; 1; 2] [2; 2; 1] false (-1) 0.
Example pr_run2 : chk_prelu pr_t pr_s2 pr_t 2 = ST_OK /\ (do m <- prelu_fx RM_UP 8 3 1 3 pr_t pr_s2 pr_t 2 0 pr_mem; Some (map (rd m) (zrange 0 12)))
  = Some [-2; 5; -3; 6; -3; 7; -4; 9; -50; 100; -64; 127].
Proof. split; reflexivity. Qed.

Definition lr_s : tensor := mkTensor 50 1 1 [1] [1] false (-1) 0.
Example lr_hyps : leaky_formats 8 1 /\ chk_leaky_relu pr_t lr_s pr_t = ST_OK /\ operand_ok lr_s pr_mem.
Proof. split; [now left|]. split; [reflexivity|]. right. split; [fits32_tac|apply list_backed_at; cbn; lia]. Qed.
Example lr_run : (do m <- leaky_relu_fx RM_UP 8 3 1 3 pr_t lr_s pr_t 0 pr_mem; Some (map (rd m) (zrange 0 12)))
  = Some [-2; 5; -3; 6; -3; 7; -4; 9; -50; 100; -64; 127].
Proof. reflexivity. Qed.

(** ReLU6 with 4 fractional bits: values below 0 become 0, values above 96 become 96. *)
Definition rl_q : qpar := mkQ 1 4 0.
Example rl_hyps : 0 < q_scale rl_q <= 32767 /\ in_bits 8 (q_frac rl_q) /\ in_bits 8 (q_zp rl_q) /\ relu_frac_ok RELU_6 rl_q /\ chk_relu pr_t pr_t = ST_OK.
Proof. repeat split; try (vm_compute; congruence); cbn; lia. Qed.
Example rl_run : (do m <- relu 8 RELU_6 rl_q pr_t pr_t pr_mem; Some (map (rd m) (zrange 0 12)))
  = Some [0; 5; 0; 6; 0; 7; 0; 9; 0; 96; 0; 96].
Proof. reflexivity. Qed.
