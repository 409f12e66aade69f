(** C36, C58: fully connected kernels compute matrix-vector products. *)
From Coq Require Import ZArith List Lia Bool QArith Qabs.
From Verif Require Import Base FxMath FxMathProofs Tensor TensorProofs Permute PermuteProofs Mov MovProofs ArgMax ArgMaxProofs QSpec Quant QuantProofs QuantCastProofs
  DotProd DotProdProofs Layout PoolProofs PoolKernels Conv ConvSpec ConvProofs ConvValues ConvKernels ConvTheorems ConvInt FullyConn.
Import ListNotations.
Open Scope Z_scope.

(** * Specification *)

(** Element [k] of a tensor in the order of its coordinates (the last one fastest). *)
Definition flat (m : mem) (t : tensor) (k : Z) : Z :=
  rd m (t_data t + addr (t_stride t) (nth (Z.to_nat k) (coords (t_shape t)) [])).
(** Element of a matrix. *)
Definition at2 (m : mem) (t : tensor) (r cl : Z) : Z := rd m (t_data t + addr (t_stride t) [r; cl]).

(** Row vector [tin] (flattened) times matrix [tw]. *)
Definition fc_sum (mi mw : mem) (tin tw : tensor) (zi zw o : Z) : Z :=
  zsum 0 (prod (t_shape tin)) (fun k => (flat mi tin k - zi) * (at2 mw tw k o - zw)).

(** The outputs of a vector [tout] are FX outputs of the exact sums [S] plus bias; nothing else is written. *)
Definition fx_results1 (rm : rmode) (no : Z) (t : relu_type) (fin fw fb fout : Z) (S bias : Z -> Z) (tout : tensor) (m m' : mem) : Prop :=
  (forall o, valid (t_shape tout) [o] -> exists v, m' (t_data tout + addr (t_stride tout) [o]) = Some v
     /\ fx_output rm no t (fin + fw) fout (S o + bias o * 2 ^ (fin + fw - fb)) v)
  /\ frame_ok tout m m'.
Definition sa8_results1 (t : relu_type) (i o : qpar) (wdim : Z) (wsc wfr : Z -> Z) (S bias : Z -> Z) (tout : tensor) (m m' : mem) : Prop :=
  (forall oc, valid (t_shape tout) [oc] -> exists v, m' (t_data tout + addr (t_stride tout) [oc]) = Some v
     /\ sa8_output ((1 # 2) + (1 # 32)) t o (out_factor i o (wsc (wsel wdim oc)) (wfr (wsel wdim oc))) (S oc + bias oc) v)
  /\ frame_ok tout m m'.

(** * Contiguous tensors *)

Lemma tensor_count t : fits32 t -> chk_tensor t = ST_OK ->
  count_elem_num_part (t_shape t) = prod (t_shape t) /\ 0 < prod (t_shape t) <= 2 ^ 31 - 1 /\ wrap 32 (prod (t_shape t)) = prod (t_shape t).
Proof.
  intros F C. destruct (chk_tensor_nested t F C) as (N & S & _). pose proof F as (L & E & B & Sp).
  destruct (chk_tensor_pos t C L) as (_ & P & _). destruct (nested_prod _ _ N) as [Hp _].
  assert (Hpp : 0 < prod (t_shape t)). { clear - P. induction P; unfold prod in *; cbn [fold_right]; nia. }
  assert (Hle : prod (t_shape t) <= 2 ^ 31 - 1) by (clear - Hp Hpp E Sp; nia).
  split; [|split; [lia|]].
  - rewrite count_elem_num_part_spec by (eapply Forall_impl; [|exact P]; cbn; lia). apply Z.mod_small. lia.
  - apply wrap_id; [lia|]. split; [|exact Hle]. change (smin 32) with (- 2 ^ 31). lia.
Qed.

Lemma contiguous_spec t : fits32 t -> layout_is_contiguous (t_shape t) (t_stride t) = true -> t_stride t = contiguous_strides (t_shape t).
Proof.
  intros (L & _ & B & _) H. unfold layout_is_contiguous in H. destruct (Nat.eqb_spec (length (t_shape t)) 0) as [e|e].
  { destruct (t_shape t); [|discriminate]. destruct (t_stride t); [reflexivity|discriminate]. }
  destruct (negb _); [discriminate|].
  destruct (contiguous_fold (t_shape t) (t_stride t) L B) as (f & Ef & Hf). rewrite Ef in H. cbn [fst] in H.
  apply Hf. destruct f; [discriminate|reflexivity].
Qed.

Lemma nth_zrange n k : 0 <= k < n -> nth (Z.to_nat k) (zrange 0 n) 0 = k.
Proof.
  intros H. unfold zrange. rewrite Z.sub_0_r. rewrite nth_indep with (d' := 0 + Z.of_nat 0).
  - rewrite map_nth with (f := fun i => 0 + Z.of_nat i). rewrite seq_nth by lia. lia.
  - rewrite map_length, seq_length. lia.
Qed.

Lemma contiguous_flat t k : fits32 t -> chk_tensor t = ST_OK -> t_stride t = contiguous_strides (t_shape t) -> 0 <= k < prod (t_shape t) ->
  addr (t_stride t) (nth (Z.to_nat k) (coords (t_shape t)) []) = k /\ valid (t_shape t) (nth (Z.to_nat k) (coords (t_shape t)) []).
Proof.
  intros F C E Hk. pose proof F as (L & _). destruct (chk_tensor_pos t C L) as (_ & P & _).
  assert (P0 : Forall (fun d => 0 <= d) (t_shape t)) by (eapply Forall_impl; [|exact P]; cbn; lia).
  pose proof (coords_length (t_shape t) P0) as CL. split.
  - pose proof (contiguous_strides_pos (t_shape t) P0) as V. unfold visited in V. rewrite <- E in V.
    assert (X : nth (Z.to_nat k) (map (addr (t_stride t)) (coords (t_shape t))) (addr (t_stride t) []) = k).
    { rewrite V. rewrite nth_indep with (d' := 0). - now apply nth_zrange. - rewrite zrange_length. lia. }
    rewrite map_nth in X. exact X.
  - apply in_coords. apply nth_In. lia.
Qed.

(** * One output *)

Lemma fc_dot q mi mw c1 (Hc1 : 0 <= c1) (Hp : forall a b, Z.abs (rd mi a * rd mw b) <= c1) pi pw N s o : 0 <= N -> N * c1 <= smax (acc_bits q) ->
  (forall k, 0 <= k < N -> allocated mi (pi + k) /\ allocated mw (pw + o + k * s)) ->
  let S := zsum 0 N (fun k => rd mi (pi + k) * rd mw (pw + o + k * s)) in
  dotprod1D (acc_bits q) mi mw pi (pw + o) 0 N 1 s = Some S /\ Z.abs S <= N * c1.
Proof.
  intros HN HB A S. unfold dotprod1D.
  destruct (dot_row (acc_bits q) mi mw c1 Hc1 0 pi (pw + o) 0 N 1 s HN ltac:(cbn; lia) ltac:(lia)) as [E1 E2].
  { intros k Hk. destruct (A k Hk). rewrite Z.mul_1_r. auto. }
  rewrite E1. cbn [bind fst]. rewrite Z.add_0_l in *.
  assert (X : zsum 0 N (fun k => rd mi (pi + k * 1) * rd mw (pw + o + k * s)) = S) by (apply zsum_ext; intros; now rewrite Z.mul_1_r).
  rewrite X in *. split; [reflexivity|lia].
Qed.

Lemma fc_wadd q mw c2 (Hc2 : 0 <= c2) (Hzi : Z.abs (q_zi q) <= 32767) (Hpz : forall a, Z.abs (q_zi q * rd mw a) <= c2) pw N s o acc B : 0 <= N -> Z.abs acc <= B -> B + N * c2 <= smax (acc_bits q) ->
  (forall k, 0 <= k < N -> allocated mw (pw + o + k * s)) ->
  let S := zsum 0 N (fun k => rd mw (pw + o + k * s)) in
  q_weights_add3 q mw (pw + o) acc N 1 1 s 1 1 = Some (acc - q_zi q * S) /\ Z.abs (acc - q_zi q * S) <= B + N * c2.
Proof.
  intros HN Ha HB A S. rewrite q_weights_add3_eq.
  destruct (additive3D_ok (acc_bits q) mw B c2 (pw + o) acc (q_zi q) N 1 1 s 1 1 Hc2 HN ltac:(lia) ltac:(lia) Hzi Hpz Ha) as [E1 E2].
  { lia. }
  { intros k Hk r cl Hr Hcl. replace (_ + _) with (pw + o + cl * s) by nia. auto. }
  assert (X : sum3D mw (pw + o) N 1 1 s 1 1 = S).
  { unfold sum3D, sum2D. rewrite (zsum_cons 0 1), (zsum_nil (0 + 1)), Z.add_0_r by lia. rewrite (zsum_cons 0 1), (zsum_nil (0 + 1)), Z.add_0_r by lia.
    apply zsum_ext. intros k _. f_equal. lia. }
  rewrite X in *. split; [exact E1|lia].
Qed.

Lemma in_add_zero q m p acc w h col row : q_zw q = 0 -> q_in_add2 q m p acc w h col row = Some acc.
Proof. destruct q; cbn; intros E; try reflexivity; now rewrite E. Qed.

(** * What the checker guarantees *)

Lemma chk_fc_facts tin tw tb tout : chk_fully_connected tin tw tb tout = ST_OK -> fits32 tin -> fits32 tw -> fits32 tb -> fits32 tout ->
  let N := prod (t_shape tin) in
  wrap 32 (count_elem_num_part (t_shape tin)) = N /\ 0 < N
  /\ (forall k, 0 <= k < N -> addr (t_stride tin) (nth (Z.to_nat k) (coords (t_shape tin)) []) = k /\ valid (t_shape tin) (nth (Z.to_nat k) (coords (t_shape tin)) []))
  /\ exists n s, 0 < n /\ t_shape tw = [N; n] /\ t_stride tw = [s; 1] /\ t_shape tb = [n] /\ t_stride tb = [1]
     /\ t_shape tout = [n] /\ t_stride tout = [1]
     /\ chk_tensor tin = ST_OK /\ chk_tensor tw = ST_OK /\ chk_tensor tb = ST_OK /\ chk_tensor tout = ST_OK.
Proof.
  intros H Fi Fw Fb Fo N. unfold chk_fully_connected in H.
  destruct (chk_tensor tin) eqn:Ci; try discriminate. destruct (chk_tensor tw) eqn:Cw; try discriminate.
  destruct (chk_tensor tb) eqn:Cb; try discriminate. destruct (chk_tensor tout) eqn:Co; try discriminate.
  destruct (negb _) eqn:K1 in H; [discriminate|]. apply negb_false_iff in K1.
  destruct (negb _) eqn:K2 in H; [discriminate|]. apply negb_false_iff in K2. clear H.
  repeat (apply andb_true_iff in K1; let X := fresh "S" in destruct K1 as [K1 X]).
  repeat (apply andb_true_iff in K2; let X := fresh "T" in destruct K2 as [K2 X]).
  apply Z.eqb_eq in K1, S, S0, S1, S2, S3, T. unfold t_rank in K1, S3, S2.
  destruct (tensor_count tin Fi Ci) as (E1 & E2 & E3). fold N in E1, E2, E3.
  pose proof (contiguous_spec tin Fi K2) as Es.
  pose proof (contiguous_spec tb Fb T0) as Eb.
  rewrite E1 in *. split; [exact E3|]. split; [lia|]. split.
  { intros k Hk. apply contiguous_flat; auto. }
  pose proof Fw as (Lw & _). pose proof Fb as (Lb & _). pose proof Fo as (Lo & _).
  destruct (t_shape tw) as [|a [|n [|]]] eqn:Sw; cbn [length] in K1; try lia.
  destruct (t_shape tb) as [|b0 [|]] eqn:Sb; cbn [length] in S3; try lia.
  destruct (t_shape tout) as [|o0 [|]] eqn:So; cbn [length] in S2; try lia.
  destruct (t_stride tw) as [|s [|s1 [|]]] eqn:Stw; cbn [length] in Lw; try lia.
  destruct (t_stride tb) as [|sb [|]] eqn:Stb; cbn [length] in Lb; try lia.
  destruct (t_stride tout) as [|so [|]] eqn:Sto; cbn [length] in Lo; try lia.
  cbn [nth] in *. subst a b0 o0 so.
  assert (s1 = 1). { unfold inner_stride_is_one in T1. rewrite Sw, Stw in T1. cbn in T1. now apply Z.eqb_eq in T1. } subst s1.
  assert (Hn : 0 < n). { pose proof Fo as (Lo' & _). destruct (chk_tensor_pos tout Co Lo') as (_ & P & _). rewrite So in P. inversion P. auto. }
  cbn in Eb. injection Eb as ->. exists n, s. split; [exact Hn|]. repeat (split; [reflexivity || assumption|]). reflexivity || assumption.
Qed.

(** * The kernels *)

Definition fc_computes (rm : rmode) (full : bool) (q : quant) (no : Z) (oq : qpar) (t : relu_type) (B : Z) (S bias : Z -> Z) (tout : tensor) (m m' : mem) : Prop :=
  let '(lo, hi) := get_relu_limits no t oq in
  (forall o, valid (t_shape tout) [o] -> Z.abs (S o) <= B
     /\ m' (t_data tout + addr (t_stride tout) [o]) = Some (relu_clip (q_result rm full q o (q_bias_add rm full q (bias o) (S o))) lo hi))
  /\ frame_ok tout m m'.

Lemma elem_ok t m c : fits32 t -> chk_tensor t = ST_OK -> backed t m -> valid (t_shape t) c -> allocated m (t_data t + addr (t_stride t) c).
Proof. intros F C B V. exact (chk_backed t m F C B c V). Qed.

Lemma fc_out_fill n m tout f val : 0 < n -> t_shape tout = [n] -> t_stride tout = [1] -> fits32 tout -> chk_tensor tout = ST_OK -> backed tout m ->
  (forall o m', 0 <= o < n -> f o m' = store m' (t_data tout + o) (val o)) ->
  exists m', foldM f (zrange 0 n) m = Some m'
    /\ (forall o, valid (t_shape tout) [o] -> m' (t_data tout + addr (t_stride tout) [o]) = Some (val o))
    /\ frame_ok tout m m'.
Proof.
  intros Hn Es Et F C B Hf.
  destruct (foldM_store (fun o => t_data tout + o) val f (zrange 0 n) m) as (m' & E & H1 & H2).
  - intros o m' Ho. apply Hf. now apply in_zrange.
  - intros o Ho. apply in_zrange in Ho. replace (t_data tout + o) with (t_data tout + addr (t_stride tout) [o]) by (rewrite Et; cbn [addr]; lia).
    apply elem_ok; auto. rewrite Es. cbn. lia.
  - intros i j _ _ Hij. f_equal. lia.
  - exists m'. split; [exact E|]. split.
    + intros o V. rewrite Es in V. cbn in V. rewrite Et. cbn [addr]. replace (1 * o + 0) with o by lia. apply H1. apply in_zrange. lia.
    + intros a Ha. apply H2. intros o Ho. apply in_zrange in Ho. intros <-. apply (Ha [o]); [rewrite Es; cbn; lia|]. rewrite Et. cbn [addr]. lia.
Qed.

Lemma fc_run rm full q no oq relu mi mw mb m tin tw tb tout c1 c2 :
  chk_fully_connected tin tw tb tout = ST_OK -> fits32 tin -> fits32 tw -> fits32 tb -> fits32 tout ->
  backed tin mi -> backed tw mw -> backed tb mb -> backed tout m ->
  q_zw q = 0 -> 0 <= c1 -> 0 <= c2 -> Z.abs (q_zi q) <= 32767 ->
  (forall a b, Z.abs (rd mi a * rd mw b) <= c1) -> (forall a, Z.abs (q_zi q * rd mw a) <= c2) ->
  prod (t_shape tin) * (c1 + c2) <= smax (acc_bits q) ->
  exists m', fully_connected rm full q false no oq relu mi mw (Some (mb, t_data tb)) tin tw tout m = Some m'
    /\ fc_computes rm full q no oq relu (prod (t_shape tin) * (c1 + c2)) (fc_sum mi mw tin tw (q_zi q) 0) (at1 mb tb) tout m m'.
Proof.
  intros Hchk Fi Fw Fb Fo Bi Bw Bb Bo Hzw Hc1 Hc2 Hzi Hp Hpz HB.
  destruct (chk_fc_facts _ _ _ _ Hchk Fi Fw Fb Fo) as (EN & HN & FL & n & s & Hn & Sw & Tw & Sb & Tb & So & To & Ci & Cw & Cb & Co).
  unfold fully_connected, fc_computes. destruct (get_relu_limits no relu oq) as [lo hi]. unfold inner_product.
  rewrite in_add_zero by auto. cbn [bind].
  assert (E0 : q_zp_add q 0 (wrap 32 (count_elem_num_part (t_shape tin))) = Some 0).
  { rewrite q_zp_add_eq, Hzw. apply zp_additive_zero; [lia|]. destruct q; apply in_bits_unfold; cbn; lia. }
  rewrite E0. cbn [bind]. clear E0. rewrite EN, Sw, Tw. cbn [nth]. set (N := prod (t_shape tin)) in *.
  assert (A1 : forall k, 0 <= k < N -> allocated mi (t_data tin + k)).
  { intros k Hk. destruct (FL k Hk) as [E V]. rewrite <- E at 1. apply elem_ok; auto. }
  assert (A2 : forall o k, 0 <= o < n -> 0 <= k < N -> allocated mw (t_data tw + o + k * s)).
  { intros o k Ho Hk. replace (t_data tw + o + k * s) with (t_data tw + addr (t_stride tw) [k; o]) by (rewrite Tw; cbn [addr]; lia).
    apply elem_ok; auto. rewrite Sw. cbn. lia. }
  assert (ES : forall o, 0 <= o < n -> zsum 0 N (fun k => rd mi (t_data tin + k) * rd mw (t_data tw + o + k * s)) - q_zi q * zsum 0 N (fun k => rd mw (t_data tw + o + k * s))
     = fc_sum mi mw tin tw (q_zi q) 0 o).
  { intros o Ho. unfold fc_sum. rewrite <- zsum_mul_l, <- zsum_sub. apply zsum_ext. intros k Hk. unfold flat, at2. destruct (FL k Hk) as [E _]. rewrite E, Tw. cbn [addr].
    replace (t_data tw + (s * k + (1 * o + 0))) with (t_data tw + o + k * s) by lia. ring. }
  assert (V : forall o, 0 <= o < n ->
     dotprod1D (acc_bits q) mi mw (t_data tin) (t_data tw + o) 0 N 1 s = Some (zsum 0 N (fun k => rd mi (t_data tin + k) * rd mw (t_data tw + o + k * s)))
     /\ q_weights_add3 q mw (t_data tw + o) (zsum 0 N (fun k => rd mi (t_data tin + k) * rd mw (t_data tw + o + k * s))) N 1 1 s 1 1 = Some (fc_sum mi mw tin tw (q_zi q) 0 o)
     /\ Z.abs (fc_sum mi mw tin tw (q_zi q) 0 o) <= N * (c1 + c2)
     /\ add_fx (acc_bits q) (fc_sum mi mw tin tw (q_zi q) 0 o) 0 = fc_sum mi mw tin tw (q_zi q) 0 o
     /\ load mb (t_data tb + o) = Some (at1 mb tb o)).
  { intros o Ho.
    destruct (fc_dot q mi mw c1 Hc1 Hp (t_data tin) (t_data tw) N s o ltac:(lia) ltac:(clear - HB HN Hc2; nia)) as [E1 E2]; [auto|].
    cbv zeta in E1, E2.
    destruct (fc_wadd q mw c2 Hc2 Hzi Hpz (t_data tw) N s o _ (N * c1) ltac:(lia) E2 ltac:(clear - HB HN Hc2; nia)) as [E3 E4]; [auto|].
    cbv zeta in E3, E4. rewrite ES in E3, E4 by auto. split; [exact E1|]. split; [exact E3|]. split; [clear - E4; lia|].
    split.
    - assert (I : in_bits (acc_bits q) (fc_sum mi mw tin tw (q_zi q) 0 o)) by (apply abs_in_bits; clear - E4 HB; lia).
      rewrite add_fx_spec; [rewrite Z.add_0_r; now apply sat_id|..]; auto; destruct q; vm_compute; intuition discriminate.
    - unfold at1. rewrite Tb. cbn [addr]. replace (1 * o + 0) with o by lia. apply rd_load.
      replace (t_data tb + o) with (t_data tb + addr (t_stride tb) [o]) by (rewrite Tb; cbn [addr]; lia). apply elem_ok; auto. rewrite Sb. cbn. lia. }
  destruct (fc_out_fill n m tout (fun o m0 =>
        do acc <- dotprod1D (acc_bits q) mi mw (t_data tin) (t_data tw + o) 0 N 1 s;
        do acc <- q_weights_add3 q mw (t_data tw + o) acc N 1 1 s 1 1;
        let acc := add_fx (acc_bits q) acc 0 in
        do b <- load mb (t_data tb + o);
        store m0 (t_data tout + o) (relu_clip (q_result rm full q o (q_bias_add rm full q b acc)) lo hi))
    (fun o => relu_clip (q_result rm full q o (q_bias_add rm full q (at1 mb tb o) (fc_sum mi mw tin tw (q_zi q) 0 o))) lo hi) Hn So To Fo Co Bo) as (m' & E & R1 & R2).
  { intros o m' Ho. destruct (V o Ho) as (V1 & V2 & _ & V4 & V5). rewrite V1. cbn [bind]. rewrite V2. cbn [bind]. rewrite V4, V5. reflexivity. }
  exists m'. split; [exact E|]. split; [|exact R2]. intros o Vo. split; [|auto].
  apply V. rewrite So in Vo. cbn in Vo. lia.
Qed.

Lemma set_zp_facts q z b acc rm full o : q_result rm full (set_in_zeropoint q z) o acc = q_result rm full q o acc
  /\ q_bias_add rm full (set_in_zeropoint q z) b acc = q_bias_add rm full q b acc
  /\ q_zw (set_in_zeropoint q z) = q_zw q /\ acc_bits (set_in_zeropoint q z) = acc_bits q.
Proof.
  destruct q as [| |p|]; try (cbn; auto).
  repeat split; cbn [q_result q_bias_add set_in_zeropoint]; unfold adjust_s8, bias_additive_s8, result_cast_s8; destruct full; reflexivity.
Qed.

(** The ext_bias variant is the kernel with a zero input zero point. *)
Lemma fc_ext rm full q no oq relu mi mw bias tin tw tout m :
  fully_connected rm full q true no oq relu mi mw bias tin tw tout m = fully_connected rm full (set_in_zeropoint q 0) false no oq relu mi mw bias tin tw tout m.
Proof. reflexivity. Qed.

Lemma chk_quant_fc_spec i o wdim nsc wzp wsc : chk_quant_fc i o wdim nsc wzp wsc = true -> 0 < nsc ->
  0 < q_scale i /\ 0 < q_scale o /\ in_bits 8 (q_zp i) /\ in_bits 8 (q_zp o) /\ wzp 0 = 0
  /\ (forall k, 0 <= k < nsc -> 0 < wsc (wsel wdim k)).
Proof.
  intros K Hn. unfold chk_quant_fc in K. apply andb_true_iff in K. destruct K as [K F].
  repeat (apply andb_true_iff in K; let X := fresh "K" in destruct K as [K X]).
  apply Z.ltb_lt in K, K5. apply Z.leb_le in K1, K2, K3, K4. rewrite forallb_forall in F.
  assert (G : forall k, 0 <= k < (if wdim <? 0 then 1 else nsc) -> 0 < wsc k /\ wzp k = 0).
  { intros k Hk. specialize (F k). rewrite in_zrange in F. specialize (F Hk). apply andb_true_iff in F. destruct F as [F1 F2].
    apply Z.ltb_lt in F1. apply Z.eqb_eq in F2. auto. }
  split; [auto|]. split; [auto|]. split; [apply ib8; lia|]. split; [apply ib8; lia|].
  split. { apply G. destruct (wdim <? 0); lia. }
  intros k Hk. unfold wsel. destruct (wdim <? 0); apply G; lia.
Qed.

(** C36: mli_krn_fully_connected for FX ([na], [nb], [no] = 16, 16, 16 for fx16, 16, 8, 16 for fx16_fx8_fx8, 8, 8, 8 for fx8). *)
Theorem fully_connected_fx_correct rm full na nb no fin fw fb fout relu mi mw mb m tin tw tb tout :
  chk_fully_connected tin tw tb tout = ST_OK ->
  fits32 tin -> fits32 tw -> fits32 tb -> fits32 tout -> backed tin mi -> backed tw mw -> backed tb mb -> backed tout m ->
  mem_bits na mi -> mem_bits nb mw -> mem_bits nb mb ->
  1 <= na -> (no = 8 \/ no = 16) -> (nb = 16 -> no = 16) -> in_bits 8 fout -> (relu = RELU_1 -> fout < 30) ->
  fx_acc_ok na nb no (prod (t_shape tin)) fin fw fb fout ->
  exists m', fully_connected rm full (fx_quant nb no fin fw fb fout) false no (fx_qpar fout) relu mi mw (Some (mb, t_data tb)) tin tw tout m = Some m'
    /\ fx_results1 rm no relu fin fw fb fout (fc_sum mi mw tin tw 0 0) (at1 mb tb) tout m m'.
Proof.
  intros Hchk Fi Fw Fb Fo Bi Bw Bb Bo Mi Mw Mb Hna Hno H16 If H1 Hok.
  assert (Hnb : 1 <= nb) by (destruct Hok as [? _]; lia).
  destruct (fx_zi nb no fin fw fb fout) as (Z1 & Z2 & Z3 & Z4).
  destruct (chk_fc_facts _ _ _ _ Hchk Fi Fw Fb Fo) as (_ & HN & _).
  destruct (fc_run rm full (fx_quant nb no fin fw fb fout) no (fx_qpar fout) relu mi mw mb m tin tw tb tout (2 ^ (na + nb - 2)) 0
    Hchk Fi Fw Fb Fo Bi Bw Bb Bo) as (m' & E & C); auto; try lia.
  - intros a b. apply prod_bits; auto; apply rd_bits; auto.
  - rewrite Z4. eapply fx_acc_room; eauto.
  - rewrite Z1 in C. exists m'. split; [exact E|]. unfold fc_computes in C.
    pose proof (fun o B => fx_out rm full na nb no relu (prod (t_shape tin)) fin fw fb fout (fc_sum mi mw tin tw 0 0 o) (at1 mb tb o) Hno Hna ltac:(lia) Hok If H1 B
      (at1_bits nb mb tb o Hnb Mb) H16) as X.
    destruct (get_relu_limits no relu (fx_qpar fout)) as [lo hi]. destruct C as [C F]. split; [|exact F].
    intros o V. destruct (C o V) as [B Eo]. rewrite Z.add_0_r in B. eexists. split; [exact Eo|]. apply X. exact B.
Qed.

(** C36: mli_krn_fully_connected_sa8_sa8_sa32 and its ext_bias variant ([ext]; the bias then already contains the
    term of the input zero point), FULL_ACCU builds. *)
Theorem fully_connected_sa8_correct rm ext i o wdim wzp wsc wfr relu mi mw mb m tin tw tb tout :
  chk_fully_connected tin tw tb tout = ST_OK -> chk_quant_fc i o wdim (dim tw 1) wzp wsc = true ->
  fits32 tin -> fits32 tw -> fits32 tb -> fits32 tout -> backed tin mi -> backed tw mw -> backed tb mb -> backed tout m ->
  mem_bits 8 mi -> mem_bits 8 mw -> mem_bits 32 mb ->
  sa_fields i -> sa_fields o -> (forall k, wsc k <= 32767) -> relu_frac_ok relu o ->
  (forall oc, 0 <= oc < dim tw 1 -> sa8_acc_ok (prod (t_shape tin)) (at1 mb tb oc)) ->
  exists m', fully_connected rm true (Q_s8 (define_s8_params rm i o wdim wzp wsc wfr)) ext 8 o relu mi mw (Some (mb, t_data tb)) tin tw tout m = Some m'
    /\ sa8_results1 relu i o wdim wsc wfr (fc_sum mi mw tin tw (if ext then 0 else q_zp i) 0) (at1 mb tb) tout m m'.
Proof.
  intros Hchk Hq Fi Fw Fb Fo Bi Bw Bb Bo Mi Mw Mb [I1 I2] [O1 O2] Hs Hr Hacc.
  destruct (chk_fc_facts _ _ _ _ Hchk Fi Fw Fb Fo) as (_ & HN & _ & n & s & Hn & Sw & _ & _ & _ & So & _).
  assert (Dn : dim tw 1 = n) by (unfold dim; rewrite Sw; reflexivity). rewrite Dn in *.
  destruct (chk_quant_fc_spec _ _ _ _ _ _ Hq Hn) as (Q1 & Q2 & Q3 & Q4 & Q5 & Q6).
  set (q := Q_s8 (define_s8_params rm i o wdim wzp wsc wfr)).
  assert (Z1 : q_zi q = q_zp i) by (cbn; unfold define_s8_params; destruct (norm_cast_fx rm 32 32 (q_scale i)); reflexivity).
  assert (Z2 : q_zw q = 0) by (cbn; unfold define_s8_params; destruct (norm_cast_fx rm 32 32 (q_scale i)); exact Q5).
  set (q' := if ext then set_in_zeropoint q 0 else q).
  assert (Z1' : q_zi q' = if ext then 0 else q_zp i) by (unfold q'; destruct ext; auto).
  assert (Z2' : q_zw q' = 0) by (unfold q'; destruct ext; auto).
  assert (Iz : in_bits 8 (if ext then 0 else q_zp i)) by (destruct ext; [apply ib8; lia|exact Q3]).
  assert (R' : forall k b acc, q_result rm true q' k (q_bias_add rm true q' b acc) = q_result rm true q k (q_bias_add rm true q b acc)).
  { intros. unfold q'. destruct ext; [|reflexivity]. destruct (set_zp_facts q 0 b acc rm true k) as (_ & -> & _).
    apply (set_zp_facts q 0 b (q_bias_add rm true q b acc) rm true k). }
  destruct (fc_run rm true q' 8 o relu mi mw mb m tin tw tb tout (2 ^ 14) (2 ^ 14) Hchk Fi Fw Fb Fo Bi Bw Bb Bo) as (m' & E & C); auto; try lia.
  - rewrite Z1'. pose proof (proj1 (ib8 _) Iz). lia.
  - now apply s8_prods.
  - rewrite Z1'. now apply s8_zprods.
  - specialize (Hacc 0 ltac:(lia)). unfold sa8_acc_ok in Hacc. replace (acc_bits q') with 32 by (unfold q'; destruct ext; reflexivity). lia.
  - rewrite Z1' in C. exists m'. split; [unfold q' in E; destruct ext; exact E|]. unfold fc_computes in C.
    pose proof (fun oc => sa8_out rm relu i o wdim wzp wsc wfr (fc_sum mi mw tin tw (if ext then 0 else q_zp i) 0 oc) (at1 mb tb oc) oc) as X. cbv zeta in X. fold q in X.
    destruct (get_relu_limits 8 relu o) as [lo hi]. destruct C as [C F]. split; [|exact F].
    intros oc V. destruct (C oc V) as [B Eo]. rewrite R' in Eo. eexists. split; [exact Eo|].
    rewrite So in V. cbn in V. specialize (Hacc oc ltac:(lia)). unfold sa8_acc_ok in Hacc. apply X; auto.
    + split; [lia|]. auto.
    + split; [lia|]. auto.
    + split; [apply Q6; lia|auto].
    + apply at1_bits; auto. lia.
    + clear - B Hacc. lia.
Qed.

(** C36: with accepted tensors no access leaves a buffer (the addresses do not depend on the data), and only
    output elements are written. *)
Theorem fully_connected_stays_inside rm full q ext no oq relu mi mw mb m tin tw tb tout :
  scheme_ok q -> chk_fully_connected tin tw tb tout = ST_OK ->
  fits32 tin -> fits32 tw -> fits32 tb -> fits32 tout -> backed tin mi -> backed tw mw -> backed tb mb -> backed tout m ->
  exists m', fully_connected rm full q ext no oq relu (zeroed mi) (zeroed mw) (Some (mb, t_data tb)) tin tw tout m = Some m' /\ frame_ok tout m m'.
Proof.
  intros (Z1 & Z2 & Z3) Hchk Fi Fw Fb Fo Bi Bw Bb Bo. apply zeroed_backed in Bi, Bw.
  set (q' := if ext then set_in_zeropoint q 0 else q).
  assert (Z2' : q_zw q' = 0) by (unfold q'; destruct ext; auto; destruct q; auto).
  assert (Z3' : Z.abs (q_zi q') <= 32767) by (unfold q'; destruct ext; auto; destruct q; cbn; cbn in Z3; lia).
  assert (P : forall a b, Z.abs (rd (zeroed mi) a * rd (zeroed mw) b) <= 0) by (intros; rewrite !zeroed_rd; reflexivity).
  assert (P2 : forall a, Z.abs (q_zi q' * rd (zeroed mw) a) <= 0) by (intros; rewrite !zeroed_rd, Z.mul_0_r; reflexivity).
  destruct (fc_run rm full q' no oq relu (zeroed mi) (zeroed mw) mb m tin tw tb tout 0 0 Hchk Fi Fw Fb Fo Bi Bw Bb Bo) as (m' & E & C); auto; try lia.
  - rewrite Z.mul_0_r. clearbody q'. destruct q'; vm_compute; discriminate.
  - exists m'. unfold fc_computes in C. destruct (get_relu_limits no relu oq). destruct C as [_ F]. split; [|exact F]. unfold q' in E. destruct ext; exact E.
Qed.

(** * MLI 3.0 *)

(** The integer matrix product: the input zero point is left to the following rescale. *)
Definition fc_int_sum (mi mw : mem) (tin tw : tensor) (zw o : Z) : Z :=
  zsum 0 (dim tw 0) (fun k => at2 mi tin 0 k * (at2 mw tw k o - zw)).

(** The shapes of the operator: input [1, IC], weights [IC, OC], output [1, OC]; input without gaps, unit inner strides. *)
Definition fc_int_shapes (tin tw tout : tensor) : Prop :=
  exists ic oc, t_shape tin = [1; ic] /\ t_shape tw = [ic; oc] /\ t_shape tout = [1; oc]
    /\ last (t_stride tin) 0 = 1 /\ last (t_stride tw) 0 = 1 /\ last (t_stride tout) 0 = 1
    /\ chk_tensor tin = ST_OK /\ chk_tensor tw = ST_OK /\ chk_tensor tout = ST_OK.

(** C58: the MLI 3.0 fully connected kernel with one input row computes the integer dot products exactly. *)
Theorem fully_connected_int_correct rm full zi zw oq relu mi mw m tin tw tout :
  fc_int_shapes tin tw tout -> fits32 tin -> fits32 tw -> fits32 tout -> backed tin mi -> backed tw mw -> backed tout m ->
  mem_bits 8 mi -> mem_bits 8 mw -> in_bits 8 zw -> dim tw 0 * (2 * 2 ^ 14) <= smax 32 ->
  exists m', fully_connected rm full (Q_int zi zw) true 32 oq relu mi mw None tin tw tout m = Some m'
    /\ (forall o, valid (t_shape tout) [0; o] -> m' (t_data tout + addr (t_stride tout) [0; o]) = Some (fc_int_sum mi mw tin tw zw o))
    /\ frame_ok tout m m'.
Proof.
  intros (N & n & Si & Sw & So & Li & Lw & Lo & Ci & Cw & Co) Fi Fw Fo Bi Bw Bo Mi Mw Iz HB.
  destruct (tensor_count tin Fi Ci) as (E1 & E2 & E3).
  assert (EP : prod (t_shape tin) = N) by (rewrite Si; unfold prod; cbn [fold_right]; ring). rewrite EP in *.
  assert (ED : dim tw 0 = N) by (unfold dim; rewrite Sw; reflexivity). unfold fc_int_sum. rewrite ED in *.
  pose proof Fi as (Ti & _). pose proof Fw as (Tw & _). pose proof Fo as (To & _).
  rewrite Si in Ti. rewrite Sw in Tw. rewrite So in To.
  destruct (t_stride tin) as [|si [|x [|]]] eqn:Ei; cbn [length] in Ti; try lia.
  destruct (t_stride tw) as [|s [|y [|]]] eqn:Ew; cbn [length] in Tw; try lia.
  destruct (t_stride tout) as [|so [|z [|]]] eqn:Eo; cbn [length] in To; try lia.
  cbn [last] in Li, Lw, Lo. subst x y z.
  assert (Hn : 0 < n). { pose proof Fo as (Lo' & _). destruct (chk_tensor_pos tout Co Lo') as (_ & P & _). rewrite So in P. inversion P as [|? ? _ P2]. now inversion P2. }
  unfold fully_connected. destruct (get_relu_limits 32 relu oq) as [lo hi]. cbn [set_in_zeropoint]. unfold inner_product. cbn [acc_bits].
  rewrite E1, E3, Sw, Ew. cbn [nth].
  assert (A1 : forall k, 0 <= k < N -> allocated mi (t_data tin + k)).
  { intros k Hk. replace (t_data tin + k) with (t_data tin + addr (t_stride tin) [0; k]) by (rewrite Ei; cbn [addr]; lia). apply elem_ok; auto. rewrite Si. cbn. lia. }
  assert (A2 : forall o k, 0 <= o < n -> 0 <= k < N -> allocated mw (t_data tw + o + k * s)).
  { intros o k Ho Hk. replace (t_data tw + o + k * s) with (t_data tw + addr (t_stride tw) [k; o]) by (rewrite Ew; cbn [addr]; lia).
    apply elem_ok; auto. rewrite Sw. cbn. lia. }
  pose proof (proj1 (ib8 _) Iz) as Hz.
  rewrite q_in_add2_eq. cbn [acc_bits q_zw].
  destruct (additive2D_ok 32 mi 0 (2 ^ 14) (t_data tin) 0 zw N 1 1 1 ltac:(lia) ltac:(lia) ltac:(lia) ltac:(lia) (s8_zprods _ _ Iz Mi)) as [X1 X2].
  { cbn. lia. }
  { lia. }
  { intros r cl Hr Hcl. replace (_ + _) with (t_data tin + cl) by lia. auto. }
  assert (ES : sum2D mi (t_data tin) N 1 1 1 = zsum 0 N (fun k => rd mi (t_data tin + k))).
  { unfold sum2D. rewrite (zsum_cons 0 1), (zsum_nil (0 + 1)), Z.add_0_r by lia. apply zsum_ext. intros. f_equal. lia. }
  rewrite X1. cbn [bind]. rewrite ES in *. clear X1 ES.
  assert (V : forall o, 0 <= o < n ->
     dotprod1D 32 mi mw (t_data tin) (t_data tw + o) 0 N 1 s = Some (zsum 0 N (fun k => rd mi (t_data tin + k) * rd mw (t_data tw + o + k * s)))
     /\ result_cast_int rm (add_fx 32 (zsum 0 N (fun k => rd mi (t_data tin + k) * rd mw (t_data tw + o + k * s))) (0 - zw * zsum 0 N (fun k => rd mi (t_data tin + k))))
      = zsum 0 N (fun k => at2 mi tin 0 k * (at2 mw tw k o - zw))).
  { intros o Ho.
    destruct (fc_dot (Q_int zi zw) mi mw (2 ^ 14) ltac:(lia) (s8_prods _ _ Mi Mw) (t_data tin) (t_data tw) N s o ltac:(lia) ltac:(cbn [acc_bits]; lia)) as [Y1 Y2]; [auto|].
    cbv zeta in Y1, Y2. cbn [acc_bits] in Y1. split; [exact Y1|].
    assert (EV : zsum 0 N (fun k => rd mi (t_data tin + k) * rd mw (t_data tw + o + k * s)) + (0 - zw * zsum 0 N (fun k => rd mi (t_data tin + k)))
      = zsum 0 N (fun k => at2 mi tin 0 k * (at2 mw tw k o - zw))).
    { transitivity (zsum 0 N (fun k => rd mi (t_data tin + k) * rd mw (t_data tw + o + k * s)) - zw * zsum 0 N (fun k => rd mi (t_data tin + k))); [ring|].
      rewrite <- zsum_mul_l, <- zsum_sub. apply zsum_ext. intros k Hk. unfold at2. rewrite Ei, Ew. cbn [addr].
      replace (si * 0 + (1 * k + 0)) with k by lia. replace (t_data tw + (s * k + (1 * o + 0))) with (t_data tw + o + k * s) by lia. ring. }
    revert EV Y2 X2. generalize (zsum 0 N (fun k => rd mi (t_data tin + k) * rd mw (t_data tw + o + k * s))) (0 - zw * zsum 0 N (fun k => rd mi (t_data tin + k))). intros a b EV Y2 X2.
    rewrite add_fx_spec; [|lia|apply abs_in_bits; lia|apply abs_in_bits; lia].
    rewrite sat_id by (apply abs_in_bits; lia). rewrite result_int by lia. exact EV. }
  destruct (foldM_store (fun o => t_data tout + o) (fun o => zsum 0 N (fun k => at2 mi tin 0 k * (at2 mw tw k o - zw)))
     (fun o m0 =>
        do acc <- dotprod1D 32 mi mw (t_data tin) (t_data tw + o) 0 N 1 s;
        store m0 (t_data tout + o) (q_result rm full (Q_int zi zw) o (add_fx 32 acc (0 - zw * zsum 0 N (fun k => rd mi (t_data tin + k))))))
     (zrange 0 n) m) as (m' & E & H1 & H2).
  - intros o m' Ho. apply in_zrange in Ho. destruct (V o Ho) as [V1 V2]. rewrite V1. cbn [bind q_result]. rewrite V2. reflexivity.
  - intros o Ho. apply in_zrange in Ho. replace (t_data tout + o) with (t_data tout + addr (t_stride tout) [0; o]) by (rewrite Eo; cbn [addr]; lia).
    apply elem_ok; auto. rewrite So. cbn. lia.
  - intros i j _ _ Hij. assert (i = j) by lia. now subst.
  - exists m'. split; [exact E|]. split.
    + intros o Vo. rewrite So in Vo. cbn in Vo. cbn [addr]. replace (so * 0 + (1 * o + 0)) with o by lia. apply H1. apply in_zrange. lia.
    + intros a Ha. apply H2. intros o Ho. apply in_zrange in Ho. intros <-. apply (Ha [0; o]); [rewrite So; cbn; lia|]. rewrite Eo. cbn [addr]. lia.
Qed.

(** * Examples *)

Definition mat_t (a b : Z) : tensor := mkTensor 0 (a * b) 1 [a; b] [b; 1] false (-1) 0.
(** A 3 by 2 weights matrix whose rows are 4 elements apart. *)
Definition fc_ex_w : tensor := mkTensor 1 12 1 [3; 2] [4; 1] false (-1) 0.
Definition fc_ex_mi : list Z := [10; -20; 30].
Definition fc_ex_mw : list Z := [99; 1; 2; 99; 99; 3; 4; 99; 99; 5; 6; 99; 99].
Definition fc_ex_mb : list Z := [7; -7].

Example fc_ex_ok :
  chk_fully_connected (hwc_t 3 1 1) fc_ex_w (vec_t 2) (vec_t 2) = ST_OK
  /\ fits32 (hwc_t 3 1 1) /\ fits32 fc_ex_w /\ fits32 (vec_t 2)
  /\ backed (hwc_t 3 1 1) (list_mem fc_ex_mi) /\ backed fc_ex_w (list_mem fc_ex_mw) /\ backed (vec_t 2) (list_mem fc_ex_mb) /\ backed (vec_t 2) (list_mem [0; 0])
  /\ mem_bits 8 (list_mem fc_ex_mi) /\ mem_bits 8 (list_mem fc_ex_mw) /\ mem_bits 8 (list_mem fc_ex_mb)
  /\ fx_acc_ok 8 8 8 (prod (t_shape (hwc_t 3 1 1))) 7 7 9 7
  /\ chk_quant_fc (mkQ 20000 14 5) (mkQ 30000 10 (-3)) 1 2 (fun _ => 0) (fun k => 100 + k) = true
  /\ sa8_acc_ok (prod (t_shape (hwc_t 3 1 1))) (at1 (list_mem fc_ex_mb) (vec_t 2) 1).
Proof.
  split; [reflexivity|]. do 3 (split; [fits32_tac|]).
  split; [apply list_backed; cbn; lia|].
  split. { intros a H0 H1. cbn in H1. unfold allocated, list_mem. cbn [t_data fc_ex_w]. destruct (Z.ltb_spec (1 + a) 0); [lia|].
    apply nth_error_Some. cbn [length fc_ex_mw]. lia. }
  do 2 (split; [apply list_backed; cbn; lia|]). do 3 (split; [apply list_bits; reflexivity|]).
  split. { unfold fx_acc_ok. cbv zeta. repeat split; try (vm_compute; discriminate); try lia. left. vm_compute. discriminate. }
  split; [reflexivity|]. vm_compute. discriminate.
Qed.

(** 10 * 1 - 20 * 3 + 30 * 5 = 100 and 10 * 2 - 20 * 4 + 30 * 6 = 120, plus the bias times 2^5. *)
Example fc_sum_ex : map (fc_sum (list_mem fc_ex_mi) (list_mem fc_ex_mw) (hwc_t 3 1 1) fc_ex_w 0 0) [0; 1] = [100; 120].
Proof. vm_compute. reflexivity. Qed.
Example fully_connected_ex :
  option_map (mem_list 2) (fully_connected RM_UP true (fx_quant 8 8 7 7 9 9) false 8 (fx_qpar 9) RELU_NONE (list_mem fc_ex_mi) (list_mem fc_ex_mw)
    (Some (list_mem fc_ex_mb, 0)) (hwc_t 3 1 1) fc_ex_w (vec_t 2) (list_mem [0; 0])) = Some [Some 10; Some (-3)].
Proof. vm_compute. reflexivity. Qed.

(** The ext_bias variant ignores the input zero point 5. *)
Example fully_connected_sa8_ex : map (fun ext =>
  option_map (mem_list 2) (fully_connected RM_UP true (Q_s8 (define_s8_params RM_UP (mkQ 16384 14 5) (mkQ 16384 12 1) (-1) (fun _ => 0) (fun _ => 16384) (fun _ => 14)))
    ext 8 (mkQ 16384 12 1) RELU_NONE (list_mem fc_ex_mi) (list_mem fc_ex_mw) (Some (list_mem fc_ex_mb, 0)) (hwc_t 3 1 1) fc_ex_w (vec_t 2) (list_mem [0; 0])))
  [false; true] = [Some [Some 17; Some 14]; Some [Some 28; Some 29]].
Proof. vm_compute. reflexivity. Qed.

Example fc_int_ex : fc_int_shapes (mat_t 1 3) fc_ex_w (mat_t 1 2) /\ fits32 (mat_t 1 3) /\ fits32 (mat_t 1 2)
  /\ dim fc_ex_w 0 * (2 * 2 ^ 14) <= smax 32
  /\ option_map (mem_list 2) (fully_connected RM_UP true (Q_int 5 2) true 32 (fx_qpar 0) RELU_NONE (list_mem fc_ex_mi) (list_mem fc_ex_mw)
      None (mat_t 1 3) fc_ex_w (mat_t 1 2) (list_mem [0; 0])) = Some [Some 60; Some 80]
  /\ map (fc_int_sum (list_mem fc_ex_mi) (list_mem fc_ex_mw) (mat_t 1 3) fc_ex_w 2) [0; 1] = [60; 80].
Proof.
  split. { exists 3, 2. repeat split. } do 2 (split; [fits32_tac|]). split; [vm_compute; discriminate|]. split; vm_compute; reflexivity.
Qed.

(** * What the code does not guarantee *)

(** The MLI 3.0 operator accepts inputs [N, IC]; with more than one row it multiplies by all N * IC input elements and
    reads the weights out of bounds ([None]). *)
Theorem fully_connected_int_batch_refuted :
  ~ (forall rm full zi zw oq relu mi mw m tin tw tout n ic oc,
      t_shape tin = [n; ic] -> t_shape tw = [ic; oc] -> t_shape tout = [n; oc] ->
      chk_tensor tin = ST_OK -> chk_tensor tw = ST_OK -> chk_tensor tout = ST_OK -> fits32 tin -> fits32 tw -> fits32 tout ->
      backed tin mi -> backed tw mw -> backed tout m -> mem_bits 8 mi -> mem_bits 8 mw ->
      fully_connected rm full (Q_int zi zw) true 32 oq relu (zeroed mi) (zeroed mw) None tin tw tout m <> None).
Proof.
  intros G. apply (G RM_UP true 0 0 (fx_qpar 0) RELU_NONE (list_mem [1; 1]) (list_mem [1]) (list_mem [0; 0]) (mat_t 2 1) (mat_t 1 1) (mat_t 2 1) 2 1 1);
    try reflexivity; try fits32_tac; try (apply list_backed; cbn; lia); apply list_bits; reflexivity.
Qed.

(** Without the bound on the element count 32-bit accumulation overflows: 512 products of -32768 by -128. *)
Theorem fully_connected_overflow_refuted :
  ~ (forall rm full mi mw mb m tin tw tb tout, chk_fully_connected tin tw tb tout = ST_OK ->
      fits32 tin -> fits32 tw -> fits32 tb -> fits32 tout -> backed tin mi -> backed tw mw -> backed tb mb -> backed tout m ->
      mem_bits 16 mi -> mem_bits 8 mw -> mem_bits 8 mb ->
      fully_connected rm full (fx_quant 8 16 15 7 7 15) false 16 (fx_qpar 15) RELU_NONE mi mw (Some (mb, t_data tb)) tin tw tout m <> None).
Proof.
  intros G.
  assert (B : forall t n v, 0 <= n -> t_data t = 0 -> t_cap t <= n * t_esz t -> 0 < t_esz t -> backed t (const_mem n v)).
  { intros t n v Hn H0 Hc Hz a A1 A2. unfold allocated, const_mem. rewrite H0. cbn [Z.add].
    destruct (Z.leb_spec 0 a); [|lia]. destruct (Z.ltb_spec a n); [cbn; discriminate|]. nia. }
  assert (M : forall k n v, in_bits k v -> mem_bits k (const_mem n v)).
  { intros k n v I a x. unfold const_mem. destruct (_ && _); [|discriminate]. now intros [= <-]. }
  apply (G RM_UP true (const_mem 512 (- 32768)) (const_mem 512 (-128)) (const_mem 1 0) (const_mem 1 0) (vec_t 512) (mat_t 512 1) (vec_t 1) (vec_t 1));
    [vm_compute; reflexivity|fits32_tac|fits32_tac|fits32_tac|fits32_tac|apply B; cbn; lia|apply B; cbn; lia|apply B; cbn; lia|apply B; cbn; lia
    |apply M; split; vm_compute; discriminate|apply M; split; vm_compute; discriminate|apply M; split; vm_compute; discriminate|vm_compute; reflexivity].
Qed.
