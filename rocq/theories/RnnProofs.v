(** Loops of the recurrent kernels: every brick overwrites one row and leaves everything else alone. *)
From Coq Require Import ZArith List Lia Bool.
From Verif Require Import Base FxMath FxMathProofs Tensor TensorProofs MovProofs PermuteProofs ArgMax Quant QuantProofs QuantCastProofs DotProd DotProdProofs
  PoolKernels Conv ConvSpec ConvValues ConvTheorems FullyConnProofs Eltwise EltwiseProofs ReluProofs Lut LutProofs Rnn RnnSpec.
Import ListNotations.
Open Scope Z_scope.

(** * Vectors *)

Lemma vec_length n f : length (vec n f) = Z.to_nat n.
Proof. unfold vec. rewrite map_length, zrange_length. f_equal. lia. Qed.

Lemma el_vec n f k : 0 <= k < n -> el (vec n f) k = f k.
Proof.
  intros H. unfold el, vec. rewrite nth_indep with (d' := f 0) by (rewrite map_length, zrange_length; lia).
  rewrite map_nth. f_equal. now apply nth_zrange.
Qed.

Lemma vec_ext n f g : (forall k, 0 <= k < n -> f k = g k) -> vec n f = vec n g.
Proof. intros H. apply map_ext_in. intros k Hk. apply H. now apply in_zrange. Qed.

Lemma map_vec g n f : map g (vec n f) = vec n (fun k => g (f k)).
Proof. unfold vec. apply map_map. Qed.

Lemma pw_vec n f a b : pw n f (vec n a) (vec n b) = vec n (fun k => f (a k) (b k)).
Proof. apply vec_ext. intros k Hk. now rewrite !el_vec. Qed.

Lemma vdot_vec n z x w o : vdot n z (vec n x) w o = zsum 0 n (fun k => (x k - z) * w k o).
Proof. apply zsum_ext. intros k Hk. now rewrite el_vec. Qed.

(** * Writing a row *)

(** [m'] is [m] with the row at [p] replaced by the vector [l]. *)
Definition wrote (nb : Z) (m m' : mem) (p n : Z) (l : list Z) : Prop :=
  vec_at m' p n = l /\ (forall a, a < p \/ p + n <= a -> m' a = m a) /\ (forall a, allocated m a -> allocated m' a) /\ mem_bits nb m'.

Lemma vec_at_ext m m' p n : (forall a, p <= a < p + n -> m' a = m a) -> vec_at m' p n = vec_at m p n.
Proof. intros H. apply vec_ext. intros k Hk. unfold rd. rewrite H by lia. reflexivity. Qed.

Lemma wrote_other nb m m' p n l q k : wrote nb m m' p n l -> q + k <= p \/ p + n <= q -> vec_at m' q k = vec_at m q k.
Proof. intros (_ & F & _) H. apply vec_at_ext. intros a Ha. apply F. lia. Qed.

Lemma mem_bits_frame nb m m' p n v : mem_bits nb m -> (forall k, 0 <= k < n -> m' (p + k) = Some (v k) /\ in_bits nb (v k)) ->
  (forall a, a < p \/ p + n <= a -> m' a = m a) -> mem_bits nb m'.
Proof.
  intros MB V F a x E. destruct (Z_lt_dec a p); [rewrite F in E by lia; eauto|]. destruct (Z_le_dec (p + n) a); [rewrite F in E by lia; eauto|].
  destruct (V (a - p) ltac:(lia)) as [E' B]. replace (p + (a - p)) with a in E' by lia. congruence.
Qed.

Lemma wrote_intro nb m m' p n v : mem_bits nb m -> (forall k, 0 <= k < n -> m' (p + k) = Some (v k) /\ in_bits nb (v k)) ->
  (forall a, a < p \/ p + n <= a -> m' a = m a) -> wrote nb m m' p n (vec n v).
Proof.
  intros MB V F. split; [|split; [exact F|split]].
  - apply vec_ext. intros k Hk. unfold rd. now rewrite (proj1 (V k Hk)).
  - intros a A. destruct (Z_lt_dec a p); [unfold allocated; rewrite F by lia; exact A|].
    destruct (Z_le_dec (p + n) a); [unfold allocated; rewrite F by lia; exact A|].
    destruct (V (a - p) ltac:(lia)) as [E' _]. replace (p + (a - p)) with a in E' by lia. unfold allocated. congruence.
  - now apply (mem_bits_frame nb m m' p n v).
Qed.

(** The row is allocated. *)
Definition row_ok (m : mem) (p n : Z) : Prop := forall k, 0 <= k < n -> allocated m (p + k).

Lemma wrote_ok nb m m' p n l q k : wrote nb m m' p n l -> row_ok m q k -> row_ok m' q k.
Proof. intros (_ & _ & A & _) R i Hi. apply A. now apply R. Qed.

(** * Element-wise operations *)

(** The row [p] is the row [q], or does not meet it. *)
Definition same_or_apart (p q n : Z) : Prop := p = q \/ p + n <= q \/ q + n <= p.

Lemma elt_1d_wrote nb f i1 i2 io n m : 0 < n -> mem_bits nb m -> row_ok m i1 n -> row_ok m i2 n -> row_ok m io n ->
  same_or_apart i1 io n -> same_or_apart i2 io n -> (forall a b, in_bits nb (f a b)) ->
  exists m', elt_1d f i1 i2 io n m = Some m' /\ wrote nb m m' io n (pw n f (vec_at m i1 n) (vec_at m i2 n)).
Proof.
  intros Hn MB R1 R2 Ro S1 S2 Hf. unfold elt_1d.
  rewrite (rd_load m i1) by (replace i1 with (i1 + 0) by lia; apply R1; lia). cbn [bind].
  rewrite (rd_load m i2) by (replace i2 with (i2 + 0) by lia; apply R2; lia). cbn [bind].
  destruct (foldM_inplace (fun k => io + k) (fun k => f (rd m (i1 + k)) (rd m (i2 + k))) (fun k a => a = i1 + k \/ a = i2 + k)
    (fun k m => do a <- operand m false (rd m i1) (i1 + k); do b <- operand m false (rd m i2) (i2 + k); store m (io + k) (f a b)) (zrange 0 n) m) as (m' & E & V & F).
  - apply zrange_NoDup.
  - intros k m' Hk Hr. apply in_zrange in Hk. cbn [operand]. rewrite (load_eq m m') by (auto; apply R1; lia). cbn [bind].
    rewrite (load_eq m m') by (auto; apply R2; lia). reflexivity.
  - intros k Hk. apply in_zrange in Hk. apply Ro. lia.
  - intros i j _ _ H. lia.
  - intros i j Hi Hj Hne. apply in_zrange in Hi, Hj. unfold same_or_apart in *. lia.
  - exists m'. split; [exact E|]. unfold vec_at. rewrite pw_vec. apply wrote_intro; [exact MB|..].
    + intros k Hk. split; [apply V; now apply in_zrange|apply Hf].
    + intros a Ha. apply F. intros k Hk. apply in_zrange in Hk. lia.
Qed.

Lemma elt_1d_scalar_wrote nb f s i2 io n m : 0 < n -> mem_bits nb m -> row_ok m i2 n -> row_ok m io n ->
  same_or_apart i2 io n -> (forall a b, in_bits nb (f a b)) ->
  exists m', elt_1d_scalar f s i2 io n m = Some m' /\ wrote nb m m' io n (map (f s) (vec_at m i2 n)).
Proof.
  intros Hn MB R2 Ro S2 Hf. unfold elt_1d_scalar.
  rewrite (rd_load m i2) by (replace i2 with (i2 + 0) by lia; apply R2; lia). cbn [bind].
  assert (En : (if n =? 1 then 1 else n) = n) by (destruct (Z.eqb_spec n 1); lia). rewrite En. unfold elt_inner.
  destruct (foldM_inplace (fun k => io + k) (fun k => f s (rd m (i2 + k))) (fun k a => a = i2 + k)
    (fun k m0 => do a <- operand m0 true s (0 + k); do b <- operand m0 (n =? 1) (rd m i2) (i2 + k); store m0 (io + k) (f a b)) (zrange 0 n) m) as (m' & E & V & F).
  - apply zrange_NoDup.
  - intros k m' Hk Hr. apply in_zrange in Hk. cbn [operand bind]. destruct (Z.eqb_spec n 1).
    + cbn [operand bind]. replace (i2 + k) with i2 by lia. reflexivity.
    + cbn [operand]. rewrite (load_eq m m') by (auto; apply R2; lia). reflexivity.
  - intros k Hk. apply in_zrange in Hk. apply Ro. lia.
  - intros i j _ _ H. lia.
  - intros i j Hi Hj Hne. apply in_zrange in Hi, Hj. unfold same_or_apart in *. lia.
  - exists m'. split; [exact E|]. unfold vec_at. rewrite map_vec. apply wrote_intro; [exact MB|..].
    + intros k Hk. split; [apply V; now apply in_zrange|apply Hf].
    + intros a Ha. apply F. intros k Hk. apply in_zrange in Hk. lia.
Qed.

(** * Activations *)

(** A tensor that is one row of [n] elements at [p] *)
Definition row_tensor (t : tensor) (p n : Z) : Prop :=
  t_data t = p /\ 0 < n /\ 1 <= t_esz t /\ n * t_esz t <= t_cap t /\ t_cap t <= 2 ^ 31 - 1
  /\ (t_shape t = [n] /\ t_stride t = [1] \/ t_shape t = [1; n] /\ t_stride t = [n; 1]).

Lemma dim_ok_intro d s : 0 < d <= 2 ^ 31 - 1 -> 0 < s -> dim_ok (d, s) = true.
Proof.
  intros Hd Hs. unfold dim_ok. destruct (Z.eqb_spec s 0); [lia|]. destruct (Z.gtb_spec s 0); [|lia]. destruct (Z.gtb_spec d 0); [|lia].
  destruct (Z.leb_spec d (2 ^ 31 - 1)); [reflexivity|lia].
Qed.

Lemma row_tensor_chk t p n : row_tensor t p n -> chk_tensor t = ST_OK /\ fits32 t /\ inner_stride_is_one t = true /\ t_rank t <> 0.
Proof.
  intros (_ & Hn & He & Hc & HC & HS). assert (Hn' : n <= 2 ^ 31 - 1) by nia.
  assert (W : forall x, 0 <= x <= 2 ^ 31 - 1 -> wrap 32 x = x) by (intros; apply wrap_id; [lia|]; apply ib32; lia).
  destruct HS as [[S T]|[S T]].
  - split; [|split; [|split]].
    + unfold chk_tensor, check_tensor_private. rewrite S, T. cbn [length combine forallb fold_right].
      replace (Z.of_nat 1 <=? 4) with true by reflexivity. destruct (Z.leb_spec (t_cap t) (2 ^ 31 - 1)); [|lia]. cbn [negb orb].
      assert (D : dim_ok (n, 1) = true) by (apply dim_ok_intro; lia).
      rewrite D. cbn [andb negb check_step].
      change (wrap 32 (1 * 1)) with 1. replace (false || negb (1 >=? 1)) with false by reflexivity.
      rewrite (W ((n - 1) * 1)) by lia. rewrite (W (1 + (n - 1) * 1)) by lia. replace (1 + (n - 1) * 1) with n by lia. rewrite W by nia.
      destruct (Z.geb_spec (t_cap t) (n * t_esz t)); [reflexivity|lia].
    + unfold fits32. rewrite S, T. cbn [combine length span fst snd]. repeat split; auto; [repeat constructor; cbn [fst snd]; try apply ib32; nia|cbn; nia].
    + unfold inner_stride_is_one. rewrite S, T. reflexivity.
    + unfold t_rank. rewrite S. cbn. lia.
  - split; [|split; [|split]].
    + unfold chk_tensor, check_tensor_private. rewrite S, T. cbn [length combine forallb fold_right].
      replace (Z.of_nat 2 <=? 4) with true by reflexivity. destruct (Z.leb_spec (t_cap t) (2 ^ 31 - 1)); [|lia]. cbn [negb orb].
      assert (D : dim_ok (n, 1) = true) by (apply dim_ok_intro; lia).
      assert (D' : dim_ok (1, n) = true) by (apply dim_ok_intro; lia).
      rewrite D, D'. cbn [andb negb check_step].
      change (wrap 32 (1 * 1)) with 1. replace (false || negb (1 >=? 1)) with false by reflexivity.
      rewrite (W (n * 1)) by lia. rewrite (W ((n - 1) * 1)) by lia. rewrite (W (1 + (n - 1) * 1)) by lia. rewrite (W ((1 - 1) * n)) by lia.
      replace (1 + (n - 1) * 1 + (1 - 1) * n) with n by lia. rewrite (W n) by lia. rewrite W by nia.
      destruct (Z.geb_spec n (n * 1)); [|lia]. cbn [negb orb].
      destruct (Z.geb_spec (t_cap t) (n * t_esz t)); [reflexivity|lia].
    + unfold fits32. rewrite S, T. cbn [combine length span fst snd]. repeat split; auto; [repeat constructor; cbn [fst snd]; try apply ib32; nia|cbn; nia].
    + unfold inner_stride_is_one. rewrite S, T. reflexivity.
    + unfold t_rank. rewrite S. cbn. lia.
Qed.

Lemma row_tensor_addr t p n c : row_tensor t p n -> valid (t_shape t) c -> exists k, 0 <= k < n /\ t_data t + addr (t_stride t) c = p + k
  /\ c = (if (length (t_shape t) =? 1)%nat then [k] else [0; k]).
Proof.
  intros (-> & Hn & _ & _ & _ & [[S T]|[S T]]) V; rewrite S in V |- *; rewrite T; cbn [length Nat.eqb].
  - destruct c as [|k [|]]; cbn [valid] in V; try tauto. exists k. cbn [addr]. split; [lia|]. split; [lia|reflexivity].
  - destruct c as [|z [|k [|]]]; cbn [valid] in V; try tauto. assert (z = 0) by lia. subst z. exists k. cbn [addr]. split; [lia|]. split; [lia|reflexivity].
Qed.

Lemma row_tensor_valid t p n k : row_tensor t p n -> 0 <= k < n ->
  exists c, valid (t_shape t) c /\ t_data t + addr (t_stride t) c = p + k /\ c = (if (length (t_shape t) =? 1)%nat then [k] else [0; k]).
Proof.
  intros (-> & Hn & _ & _ & _ & [[S T]|[S T]]) Hk; rewrite S, T; cbn [length Nat.eqb].
  - exists [k]. cbn [valid addr]. split; [lia|]. split; [lia|reflexivity].
  - exists [0; k]. cbn [valid addr]. split; [lia|]. split; [lia|reflexivity].
Qed.

(** The scalar function of the activation kernels. *)
Definition rnn_act_fn (rm : rmode) (S : rnn_scheme) (o : qpar) (l : lut) (i : qpar) (x : Z) : Z :=
  match S with
  | RS_sa8 => lut_get rm (LIN_SA i) (LOUT_SA o) l 0 x
  | _ => lut_get rm LIN_FX (LOUT_FX 16) l (q_frac i) x
  end.

(** Conditions on a table. *)
Definition rnn_lut_ok (l : lut) : Prop := lut_ok l /\ lut_smooth l /\ 8 <= l_fo l.

(** Conditions on the format of the input of an activation. *)
Definition rnn_fmt_ok (S : rnn_scheme) (i : qpar) : Prop :=
  match S with RS_sa8 => chk_act_quant i = true /\ in_bits 16 (q_scale i) | _ => in_bits 8 (q_frac i) end.

Lemma rnn_act_elem rm S o l i x : rnn_lut_ok l -> rnn_fmt_ok S i -> o = sigm_sa8_out \/ o = tanh_sa8_out -> in_bits (rs_bits S) x ->
  match S with
  | RS_sa8 => lut_elem rm (LIN_SA i) (LOUT_SA o) l 0 x = Some (rnn_act_fn rm S o l i x)
  | _ => lut_elem rm LIN_FX (LOUT_FX 16) l (q_frac i) x = Some (rnn_act_fn rm S o l i x)
  end /\ in_bits (rs_bits S) (rnn_act_fn rm S o l i x).
Proof.
  intros (Hl & Hs & Hf) Hi Ho Hx. destruct S; cbn [rs_bits rnn_act_fn rnn_fmt_ok] in *.
  1,2: destruct (lut_get_fx rm 16 l (q_frac i) x (or_intror eq_refl) Hl Hs Hi Hx) as (E & r & _ & _ & V); split; [exact E|]; rewrite V; apply sat_in_bits; lia.
  destruct Hi as [Hc Hsc]. unfold chk_act_quant in Hc.
  assert (Z : in_bits 8 (q_zp i)) by (apply ib8; lia).
  assert (ZO : in_bits 8 (q_zp o) /\ 0 <= l_fo l - q_frac o) by (destruct Ho as [-> | ->]; cbn; split; try apply ib8; lia).
  destruct (lut_get_sa rm l i o x Hl Hs Z Hsc (proj1 ZO) (proj2 ZO) Hx) as (E & r & _ & _ & V). split; [exact E|]. rewrite V. apply sat_in_bits. lia.
Qed.

Definition row_of (p n : Z) (t : tensor) : tensor := mkTensor p (n * t_esz t) (t_esz t) (t_shape t) (t_stride t) (t_asym t) (t_qdim t) (t_qoff t).

Lemma row_of_ok t p n : row_tensor t p n -> row_tensor (row_of p n t) p n.
Proof. intros (A & B & C & D & E & F). unfold row_tensor, row_of. cbn [t_data t_esz t_cap t_shape t_stride]. repeat split; auto; lia. Qed.

Lemma row_of_backed t p n m : row_tensor t p n -> row_ok m p n -> backed (row_of p n t) m.
Proof. intros (A & B & C & D & E & F) R a Ha H. unfold row_of in *. cbn [t_data t_esz t_cap] in *. apply R. nia. Qed.

Lemma same_shape_refl t t' : t_shape t = t_shape t' -> same_shape t t' = true.
Proof.
  intros E. unfold same_shape, t_rank. rewrite E, Z.eqb_refl. cbn [andb]. apply forallb_forall. intros [a b] H.
  assert (G : forall l : list Z, In (a, b) (combine l l) -> a = b).
  { intros l0. induction l0 as [|x l0 IH]; cbn; [tauto|]. intros [E'|E']; [congruence|auto]. }
  cbn. rewrite (G _ H). apply Z.eqb_refl.
Qed.

Lemma row_chk_act tin tout p q n : row_tensor tin p n -> row_tensor tout q n -> t_shape tin = t_shape tout -> chk_basic_activation tin tout = ST_OK.
Proof.
  intros Hi Ho Es. destruct (row_tensor_chk _ _ _ Hi) as (C1 & _ & I1 & _). destruct (row_tensor_chk _ _ _ Ho) as (C2 & _ & I2 & _).
  unfold chk_basic_activation. rewrite C1, C2, I1, I2, same_shape_refl by exact Es. reflexivity.
Qed.

Lemma rnn_act_wrote rm S o l i tin tout pi po n m : rnn_lut_ok l -> rnn_fmt_ok S i -> o = sigm_sa8_out \/ o = tanh_sa8_out ->
  row_tensor tin pi n -> row_tensor tout po n -> t_shape tin = t_shape tout -> mem_bits (rs_bits S) m -> row_ok m pi n -> row_ok m po n -> same_or_apart pi po n ->
  exists m', rnn_act rm S o l i tin tout m = Some m' /\ wrote (rs_bits S) m m' po n (map (rnn_act_fn rm S o l i) (vec_at m pi n)).
Proof.
  intros Hl Hi Ho Ri Ro Es MB Ai Ao Sa. unfold rnn_act. rewrite (row_chk_act tin tout pi po n Ri Ro Es).
  pose proof (row_of_ok _ _ _ Ri) as Ri'. pose proof (row_of_ok _ _ _ Ro) as Ro'.
  pose proof (row_of_backed _ _ _ m Ri Ai) as Bi. pose proof (row_of_backed _ _ _ m Ro Ao) as Bo.
  pose proof (row_chk_act _ _ _ _ _ Ri' Ro' Es) as Hc.
  destruct (row_tensor_chk _ _ _ Ri') as (_ & F1 & _ & R1). destruct (row_tensor_chk _ _ _ Ro') as (_ & F2 & _ & _).
  assert (U : unary_ok (row_of pi n tin) (row_of po n tout)).
  { intros c c' V V' Hne. pose proof V as V0. change (t_shape (row_of po n tout)) with (t_shape tout) in V0. rewrite <- Es in V0.
    destruct (row_tensor_addr _ _ _ c Ri' V0) as (k & Hk & -> & Ec). destruct (row_tensor_addr _ _ _ c' Ro' V') as (k' & Hk' & -> & Ec').
    cbn [row_of t_shape] in Ec, Ec'. rewrite Es in Ec. assert (k <> k') by (intros ->; apply Hne; congruence).
    unfold same_or_apart in Sa. lia. }
  assert (K : forall ik ok fin, (forall x, in_bits (rs_bits S) x -> lut_elem rm ik ok l fin x = Some (rnn_act_fn rm S o l i x)) ->
    (forall x, in_bits (rs_bits S) x -> in_bits (rs_bits S) (rnn_act_fn rm S o l i x)) ->
    exists m', activation_lut rm ik ok l fin tin tout m = Some m' /\ wrote (rs_bits S) m m' po n (map (rnn_act_fn rm S o l i) (vec_at m pi n))).
  { intros ik ok fin HE HB.
    assert (HG : forall x, in_bits (rs_bits S) x -> lut_get rm ik ok l fin x = rnn_act_fn rm S o l i x) by (intros x Hx; unfold lut_get; now rewrite HE).
    assert (Hb : 1 <= rs_bits S) by (destruct S; cbn; lia).
    destruct (activation_lut_run rm ik ok l fin (rs_bits S) (row_of pi n tin) (row_of po n tout) m Hb Hc R1 F1 F2 Bi Bo U MB) as (m' & E & V & F).
    { intros x Hx. now rewrite HG, HE. }
    exists m'. split.
    { rewrite <- E. unfold activation_lut, row_of. cbn [t_data t_shape t_stride]. now rewrite (proj1 Ri), (proj1 Ro). }
    unfold vec_at. rewrite map_vec. apply wrote_intro; [exact MB|..].
    - intros k Hk. destruct (row_tensor_valid _ _ _ k Ro' Hk) as (c & Vc & Ea & Ec). rewrite <- Ea, (V c Vc).
      change (t_shape (row_of po n tout)) with (t_shape tout) in Vc, Ec. rewrite <- Es in Vc, Ec.
      destruct (row_tensor_addr _ _ _ c Ri' Vc) as (k' & Hk' & -> & Ec'). change (t_shape (row_of pi n tin)) with (t_shape tin) in Ec'.
      assert (k' = k) by (rewrite Ec' in Ec; destruct (_ =? _)%nat; congruence). subst k'.
      assert (Bx : in_bits (rs_bits S) (rd m (pi + k))) by (apply rd_bits; auto). rewrite HG by exact Bx. split; [reflexivity|now apply HB].
    - intros a Ha. apply F. intros c Vc. destruct (row_tensor_addr _ _ _ c Ro' Vc) as (k & Hk & -> & _). lia. }
  pose proof (fun x Hx => rnn_act_elem rm S o l i x Hl Hi Ho Hx) as P.
  destruct S; cbn [rs_bits rnn_fmt_ok] in *; [..|rewrite (proj1 Hi)]; apply K; intros x Hx; apply P; exact Hx.
Qed.

(** * The dense operation *)

(** One input with the values of its elements and weights. *)
Record vin := mkVin { vi_q : quant; vi_n : Z; vi_w : Z -> Z -> Z; vi_x : list Z }.
Definition vin_of (m : mem) (i : rnn_in) : vin :=
  mkVin (ri_q i) (ri_n i) (fun k o => rd (ri_mw i) (ri_pw i + o + k * ri_ws i)) (vec_at m (ri_p i) (ri_n i)).

(** Output [o]: the accumulator of the first input starts with the bias, the others with 0; each is brought to the format of
    the result, and these are added. *)
Definition vin_acc (rm : rmode) (full : bool) (o : Z) (s : Z * Z) (v : vin) : Z * Z :=
  (0, add_fx (acc_bits (vi_q v)) (snd s) (rnn_requant rm full (vi_q v) (fst s + vdot (vi_n v) (q_zi (vi_q v)) (vi_x v) (vi_w v) o))).
Definition dense_sum (rm : rmode) (full : bool) (b : Z) (vs : list vin) (o : Z) : Z :=
  match vs with [] => 0 | v0 :: _ => snd (fold_left (vin_acc rm full o) vs (q_bias_add rm full (vi_q v0) b 0, 0)) end.
Definition dense_out (rm : rmode) (full : bool) (lo hi b : Z) (vs : list vin) (o : Z) : Z :=
  match vs with [] => 0 | v0 :: _ => rnn_result rm (vi_q (last vs v0)) lo hi (dense_sum rm full b vs o) end.

(** Width of the weights, of the accumulator, and bounds of the products. *)
Definition rs_wbits (S : rnn_scheme) : Z := match S with RS_fx16 => 16 | _ => 8 end.
Definition rs_acc (S : rnn_scheme) : Z := match S with RS_fx16 => 64 | _ => 32 end.
Definition rs_prod (S : rnn_scheme) : Z := match S with RS_fx16 => 2 ^ 30 | RS_fx16_fx8 => 2 ^ 22 | RS_sa8 => 2 ^ 15 end.
Definition rs_quant (S : rnn_scheme) (q : quant) : Prop :=
  match S, q with
  | RS_fx16, Q_fx16 _ => True
  | RS_fx16_fx8, Q_fx8 no _ => no = 16
  | RS_sa8, Q_s8 p => s8_w_off p = 0 /\ in_bits 8 (s8_in_off p)
  | _, _ => False
  end.

(** The input [i] of a dense operation with [n] outputs: the weights are allocated and have the right width. *)
Definition in_ok (S : rnn_scheme) (n : Z) (i : rnn_in) : Prop :=
  rs_quant S (ri_q i) /\ 0 <= ri_n i /\ mem_bits (rs_wbits S) (ri_mw i)
  /\ (forall o k, 0 <= o < n -> 0 <= k < ri_n i -> allocated (ri_mw i) (ri_pw i + o + k * ri_ws i)).

Lemma rs_quant_facts S q : rs_quant S q -> acc_bits q = rs_acc S /\ q_zw q = 0 /\ Z.abs (q_zi q) <= 32767.
Proof.
  destruct S, q; cbn [rs_quant acc_bits rs_acc q_zw q_zi]; try tauto; intros H; repeat split; try (cbn; lia).
  all: destruct H as [H0 H]; auto; rewrite ib8 in H; lia.
Qed.

(** Bounds of the two kinds of products *)
Definition rs_c1 (S : rnn_scheme) : Z := match S with RS_fx16 => 2 ^ 30 | RS_fx16_fx8 => 2 ^ 22 | RS_sa8 => 2 ^ 14 end.
Definition rs_c2 (S : rnn_scheme) : Z := match S with RS_sa8 => 2 ^ 14 | _ => 0 end.

Lemma rs_products S q mw : rs_quant S q -> mem_bits (rs_wbits S) mw ->
  (forall x b, in_bits (rs_bits S) x -> Z.abs (x * rd mw b) <= rs_c1 S) /\ (forall a, Z.abs (q_zi q * rd mw a) <= rs_c2 S) /\ rs_c1 S + rs_c2 S = rs_prod S /\ 0 <= rs_c1 S /\ 0 <= rs_c2 S.
Proof.
  intros Hq Hw. split; [|split].
  - intros x b A.
    assert (B : in_bits (rs_wbits S) (rd mw b)) by (apply rd_bits; auto; destruct S; cbn; lia).
    destruct S; cbn [rs_bits rs_wbits rs_c1] in *; rewrite ?ib8, ?ib16 in *; rewrite Z.abs_mul; nia.
  - intros a. assert (B : in_bits (rs_wbits S) (rd mw a)) by (apply rd_bits; auto; destruct S; cbn; lia).
    destruct S, q; cbn [rs_quant q_zi rs_c2] in *; try tauto; [cbn; lia..|]. destruct Hq as [_ Hz]. cbn [rs_wbits] in B. rewrite ib8 in *. rewrite Z.abs_mul. nia.
  - destruct S; cbn; repeat split; lia.
Qed.

Lemma rnn_other_zero S m n i : in_ok S n i -> rnn_other m i = Some 0.
Proof.
  intros (Hq & Hn & _). destruct (rs_quant_facts S _ Hq) as (_ & Hz & _). unfold rnn_other. rewrite in_add_zero by exact Hz. cbn [bind].
  rewrite q_zp_add_eq, Hz. apply zp_additive_zero; [lia|]. destruct (ri_q i); apply in_bits_unfold; cbn; lia.
Qed.

Lemma rnn_others_zero S m n ins : Forall (in_ok S n) ins -> forall l, foldM (fun i l => do a <- rnn_other m i; Some (l ++ [a])) ins l = Some (l ++ map (fun _ => 0) ins).
Proof.
  induction 1 as [|i ins Hi _ IH]; intros l; cbn [foldM map]; [now rewrite app_nil_r|].
  rewrite (rnn_other_zero S m n i Hi). cbn [bind]. rewrite IH, <- app_assoc. reflexivity.
Qed.

(** The elements of a row have the width of the data. *)
Definition row_bits (nb : Z) (m : mem) (p n : Z) : Prop := forall k, 0 <= k < n -> in_bits nb (rd m (p + k)).

Lemma mem_row_bits nb m p n : 1 <= nb -> mem_bits nb m -> row_bits nb m p n.
Proof. intros Hn H k _. now apply rd_bits. Qed.

Lemma rnn_input_eq rm full S m n o i acc s Bb : in_ok S n i -> row_bits (rs_bits S) m (ri_p i) (ri_n i) -> row_ok m (ri_p i) (ri_n i) -> 0 <= o < n ->
  Z.abs acc <= Bb -> Bb + ri_n i * rs_prod S <= smax (rs_acc S) ->
  rnn_input rm full m o (acc, s) i 0 = Some (vin_acc rm full o (acc, s) (vin_of m i)).
Proof.
  intros (Hq & Hn & Mw & Aw) Mi Ri Ho HA HB. destruct (rs_quant_facts S _ Hq) as (Ha & _ & Hzi).
  destruct (rs_products S _ _ Hq Mw) as (P1 & P2 & Ps & C1 & C2).
  assert (Pn : ri_n i * rs_c1 S + ri_n i * rs_c2 S = ri_n i * rs_prod S) by (rewrite <- Ps; ring).
  assert (Pc : 0 <= ri_n i * rs_c2 S) by (apply Z.mul_nonneg_nonneg; lia).
  unfold rnn_input. cbn [fst snd]. unfold dotprod1D.
  destruct (dot_row (acc_bits (ri_q i)) m (ri_mw i) (rs_c1 S) C1 Bb (ri_p i) (ri_pw i + o) acc (ri_n i) 1 (ri_ws i) Hn HA) as [E1 E2].
  { rewrite Ha. lia. }
  { intros k Hk. rewrite Z.mul_1_r. repeat split; auto. }
  rewrite E1. cbn [bind fst].
  destruct (fc_wadd (ri_q i) (ri_mw i) (rs_c2 S) C2 Hzi P2 (ri_pw i) (ri_n i) (ri_ws i) o _ (Bb + ri_n i * rs_c1 S) Hn E2) as [E3 E4].
  { rewrite Ha. lia. }
  { auto. }
  rewrite E3. cbn [bind]. unfold vin_acc, vin_of. cbn [fst snd vi_q vi_n vi_x vi_w]. do 2 f_equal. f_equal. f_equal.
  rewrite add_fx_spec; [|destruct (ri_q i); cbn; lia| |].
  - rewrite sat_id; [|rewrite Z.add_0_r; apply abs_in_bits; rewrite Ha; lia].
    rewrite Z.add_0_r. unfold vec_at. rewrite vdot_vec. rewrite <- Z.add_sub_assoc. f_equal.
      rewrite <- zsum_mul_l, <- zsum_sub. apply zsum_ext. intros k Hk. rewrite Z.mul_1_r. ring.
  - apply abs_in_bits. rewrite Ha. lia.
  - destruct (ri_q i); apply in_bits_unfold; cbn; lia.
Qed.

Lemma relu_clip_bits n v lo hi : in_bits n v -> in_bits n lo -> in_bits n hi -> in_bits n (relu_clip v lo hi).
Proof. unfold relu_clip, max_fx, min_fx. intros. destruct (v <? hi), (_ >? lo); auto. Qed.

Lemma rnn_result_bits rm S q lo hi acc : rs_quant S q -> in_bits (rs_bits S) lo -> in_bits (rs_bits S) hi -> in_bits (rs_bits S) (rnn_result rm q lo hi acc).
Proof.
  intros Hq Hl Hh. destruct S, q; cbn [rs_quant rs_bits rnn_result] in *; try tauto; apply relu_clip_bits; auto; try (apply wrap_in_bits; lia); unfold cast_narrow; apply wrap_in_bits; lia.
Qed.

(** The bias of the first input *)
Definition bias_ok (rm : rmode) (full : bool) (S : rnn_scheme) (mb : mem) (pb n : Z) (i : rnn_in) : Prop :=
  forall o, 0 <= o < n -> allocated mb (pb + o)
    /\ Z.abs (q_bias_add rm full (ri_q i) (rd mb (pb + o)) 0) + ri_n i * rs_prod S <= smax (rs_acc S).

Lemma rnn_value_eq rm full S lo hi m mb pb i0 ins n o : Forall (in_ok S n) (i0 :: ins) ->
  Forall (fun i => row_bits (rs_bits S) m (ri_p i) (ri_n i)) (i0 :: ins) ->
  Forall (fun i => row_ok m (ri_p i) (ri_n i)) (i0 :: ins) -> bias_ok rm full S mb pb n i0 ->
  Forall (fun i => ri_n i * rs_prod S <= smax (rs_acc S)) ins -> 0 <= o < n ->
  rnn_value rm full lo hi m mb pb (i0 :: ins) (map (fun _ => 0) (i0 :: ins)) o
  = Some (dense_out rm full lo hi (rd mb (pb + o)) (map (vin_of m) (i0 :: ins)) o).
Proof.
  intros HI MB HR HB HN Ho. unfold rnn_value. destruct (HB o Ho) as [Ab Bb]. rewrite (rd_load _ _ Ab). cbn [bind].
  inversion HI as [|? ? Hi0 HIs]; subst. inversion HR as [|? ? Hr0 HRs]; subst. inversion MB as [|? ? Hm0 HMs]; subst.
  assert (G : forall l s, Forall (in_ok S n) l -> Forall (fun i => row_bits (rs_bits S) m (ri_p i) (ri_n i)) l -> Forall (fun i => row_ok m (ri_p i) (ri_n i)) l -> Forall (fun i => ri_n i * rs_prod S <= smax (rs_acc S)) l ->
    foldM (fun io s => rnn_input rm full m o s (fst io) (snd io)) (combine l (map (fun _ => 0) l)) (0, s)
    = Some (fold_left (vin_acc rm full o) (map (vin_of m) l) (0, s))).
  { induction l as [|i l IH]; intros s H1 H0 H2 H3; [reflexivity|]. cbn [map combine foldM fold_left fst snd].
    inversion H1; subst. inversion H0; subst. inversion H2; subst. inversion H3; subst.
    rewrite (rnn_input_eq rm full S m n o i 0 s 0); auto; try lia. cbn [bind]. unfold vin_acc at 1 3. apply IH; auto. }
  cbn [map combine foldM fst snd].
  rewrite (rnn_input_eq rm full S m n o i0 _ 0 _ Hi0 Hm0 Hr0 Ho (Z.le_refl _) Bb). cbn [bind]. unfold vin_acc at 1. rewrite G by auto. cbn [bind].
  cbn [dense_out dense_sum]. f_equal. f_equal.
  change (vin_of m i0 :: map (vin_of m) ins) with (map (vin_of m) (i0 :: ins)).
  assert (L : forall (l : list rnn_in) d, vi_q (last (map (vin_of m) l) (vin_of m d)) = ri_q (last l d)).
  { induction l as [|a l IH]; intros d; [reflexivity|]. destruct l; [reflexivity|]. cbn [map last]. apply (IH d). }
  symmetry. apply L.
Qed.

Lemma dense_wrote rm full S lo hi mb pb po n i0 ins m : Forall (in_ok S n) (i0 :: ins) -> mem_bits (rs_bits S) m ->
  Forall (fun i => row_ok m (ri_p i) (ri_n i)) (i0 :: ins) -> bias_ok rm full S mb pb n i0 ->
  Forall (fun i => ri_n i * rs_prod S <= smax (rs_acc S)) ins -> in_bits (rs_bits S) lo -> in_bits (rs_bits S) hi ->
  row_ok m po n -> Forall (fun i => ri_p i + ri_n i <= po \/ po + n <= ri_p i) (i0 :: ins) ->
  exists m', rnn_dense_op rm full lo hi mb pb po n (i0 :: ins) m = Some m'
    /\ wrote (rs_bits S) m m' po n (vec n (fun o => dense_out rm full lo hi (rd mb (pb + o)) (map (vin_of m) (i0 :: ins)) o)).
Proof.
  intros HI MB HR HB HN Hlo Hhi Ro HD. unfold rnn_dense_op. rewrite (rnn_others_zero S m n _ HI []). cbn [bind app].
  assert (HV : forall o, 0 <= o < n -> in_bits (rs_bits S) (dense_out rm full lo hi (rd mb (pb + o)) (map (vin_of m) (i0 :: ins)) o)).
  { intros o Ho. cbn [map dense_out]. apply rnn_result_bits; auto. change (vin_of m i0 :: map (vin_of m) ins) with (map (vin_of m) (i0 :: ins)).
    assert (L : forall (l : list rnn_in) d, Forall (in_ok S n) (d :: l) -> rs_quant S (vi_q (last (map (vin_of m) l) (vin_of m d)))).
    { induction l as [|a l IH]; intros d H; inversion H as [|? ? Hd Hl]; subst; [apply Hd|]. inversion Hl as [|? ? Ha Hl']; subst. destruct l; [apply Ha|].
      cbn [map last]. apply (IH d). constructor; auto. }
    apply L. constructor; [now inversion HI|exact HI]. }
  (* the values read do not change *)
  assert (RE : forall m', (forall a, (exists i, In i (i0 :: ins) /\ ri_p i <= a < ri_p i + ri_n i) -> m' a = m a) ->
    map (vin_of m') (i0 :: ins) = map (vin_of m) (i0 :: ins) /\ Forall (fun i => row_bits (rs_bits S) m' (ri_p i) (ri_n i)) (i0 :: ins)
    /\ Forall (fun i => row_ok m' (ri_p i) (ri_n i)) (i0 :: ins)).
  { intros m' H. split; [|split].
    - apply map_ext_in. intros i Hi. unfold vin_of. f_equal. apply vec_at_ext. intros a Ha. apply H. exists i. auto.
    - rewrite Forall_forall in *. intros i Hi k Hk. unfold rd. rewrite H by (exists i; split; auto; lia). apply (rd_bits (rs_bits S) m); auto. destruct S; cbn; lia.
    - rewrite Forall_forall in *. intros i Hi k Hk. unfold allocated. rewrite H by (exists i; split; auto; lia). now apply HR. }
  assert (DI : forall i, In i (i0 :: ins) -> ri_p i + ri_n i <= po \/ po + n <= ri_p i) by (now apply Forall_forall).
  destruct (foldM_inplace (fun o => po + o) (fun o => dense_out rm full lo hi (rd mb (pb + o)) (map (vin_of m) (i0 :: ins)) o)
    (fun _ a => exists i, In i (i0 :: ins) /\ ri_p i <= a < ri_p i + ri_n i)
    (fun o m0 => do v <- rnn_value rm full lo hi m0 mb pb (i0 :: ins) (map (fun _ => 0) (i0 :: ins)) o; store m0 (po + o) v) (zrange 0 n) m) as (m' & E & V & F).
  - apply zrange_NoDup.
  - intros o m' Ho Hr. apply in_zrange in Ho. destruct (RE m' Hr) as (E1 & E2 & E3). rewrite (rnn_value_eq rm full S lo hi m' mb pb i0 ins n o); auto.
    cbn [bind]. now rewrite E1.
  - intros k Hk. apply in_zrange in Hk. apply Ro. lia.
  - intros i j _ _ H. lia.
  - intros i j Hi Hj Hne (x & Hx & Hx'). apply in_zrange in Hi, Hj. specialize (DI x Hx). lia.
  - exists m'. split; [exact E|]. apply wrote_intro; [exact MB|..].
    + intros k Hk. split; [apply V; now apply in_zrange|now apply HV].
    + intros a Ha. apply F. intros k Hk. apply in_zrange in Hk. lia.
Qed.

(** * The gates *)

(** The dense operation of gate [g] as a function of the input vector and the hidden state vector. *)
Definition vin_gate (g : Z) (is : rnn_in * Z) (x : list Z) : vin :=
  mkVin (rnn_gate_params (ri_q (fst is)) g) (ri_n (fst is)) (fun k o => rd (ri_mw (fst is)) (ri_pw (fst is) + g * snd is + o + k * ri_ws (fst is))) x.

Lemma rnn_gate_params_ok S q g : rs_quant S q -> rs_quant S (rnn_gate_params q g).
Proof. destruct S, q; cbn [rnn_gate_params rs_quant s8_w_off s8_in_off]; auto. Qed.

Lemma rnn_gate_bias rm full q g b : q_bias_add rm full (rnn_gate_params q g) b 0 = q_bias_add rm full q b 0.
Proof. destruct q; reflexivity. Qed.

Lemma vin_of_gate m g is : vin_of m (rnn_gate_in g is) = vin_gate g is (vec_at m (ri_p (fst is)) (ri_n (fst is))).
Proof. destruct is as [i gs]. reflexivity. Qed.

(** [p, p+k) and [q, q+l) do not meet. *)
Definition apart (p k q l : Z) : Prop := p + k <= q \/ q + l <= p.

Lemma stacked_wrote rm full S lo hi mb pb bs po n G is0 iss m :
  0 <= n -> 0 <= G ->
  (forall g, 0 <= g < G -> Forall (in_ok S n) (map (rnn_gate_in g) (is0 :: iss)) /\ bias_ok rm full S mb (pb + g * bs) n (rnn_gate_in g is0)) ->
  mem_bits (rs_bits S) m -> Forall (fun is => row_ok m (ri_p (fst is)) (ri_n (fst is))) (is0 :: iss) ->
  Forall (fun is => ri_n (fst is) * rs_prod S <= smax (rs_acc S)) iss -> in_bits (rs_bits S) lo -> in_bits (rs_bits S) hi ->
  row_ok m po (G * n) -> Forall (fun is => apart (ri_p (fst is)) (ri_n (fst is)) po (G * n)) (is0 :: iss) ->
  exists m', foldM (fun g m => rnn_dense_op rm full lo hi mb (pb + g * bs) (po + g * n) n (map (rnn_gate_in g) (is0 :: iss)) m) (zrange 0 G) m = Some m'
    /\ (forall g, 0 <= g < G -> vec_at m' (po + g * n) n
         = vec n (fun o => dense_out rm full lo hi (rd mb (pb + g * bs + o)) (map (fun is => vin_gate g is (vec_at m (ri_p (fst is)) (ri_n (fst is)))) (is0 :: iss)) o))
    /\ (forall a, a < po \/ po + G * n <= a -> m' a = m a) /\ (forall a, allocated m a -> allocated m' a) /\ mem_bits (rs_bits S) m'.
Proof.
  intros Hn HG HI MB HR HN Hlo Hhi. revert HI. pattern G. apply natlike_ind; [..|exact HG]; clear G HG.
  - intros _ _ _. exists m. rewrite zrange_nil by lia. split; [reflexivity|]. split; [intros; lia|]. auto.
  - intros G HG IH HI Ro HD. destruct IH as (m1 & E1 & V1 & F1 & A1 & B1).
    + intros g Hg. apply HI. lia.
    + intros k Hk. apply Ro. nia.
    + eapply Forall_impl; [|exact HD]. unfold apart. intros is. cbn. nia.
    + replace (Z.succ G) with (G + 1) by lia. rewrite zrange_snoc by lia. rewrite foldM_app, E1. cbn [bind foldM].
      destruct (HI G ltac:(lia)) as [HIG HBG].
      assert (KI : forall is, In is (is0 :: iss) -> vec_at m1 (ri_p (fst is)) (ri_n (fst is)) = vec_at m (ri_p (fst is)) (ri_n (fst is))).
      { intros is Hi. apply vec_at_ext. intros a Ha. apply F1. rewrite Forall_forall in HD. specialize (HD is Hi). unfold apart in HD. nia. }
      destruct (dense_wrote rm full S lo hi mb (pb + G * bs) (po + G * n) n (rnn_gate_in G is0) (map (rnn_gate_in G) iss) m1) as (m2 & E2 & V2 & F2 & A2 & B2); auto.
      * apply (Forall_map (rnn_gate_in G) (fun i => row_ok m1 (ri_p i) (ri_n i)) (is0 :: iss)). eapply Forall_impl; [|exact HR]. intros [i gs] H k Hk. apply A1. now apply H.
      * apply Forall_map. eapply Forall_impl; [|exact HN]. now intros [i gs].
      * intros k Hk. apply A1. replace (po + G * n + k) with (po + (G * n + k)) by lia. apply Ro. nia.
      * apply (Forall_map (rnn_gate_in G) (fun i => ri_p i + ri_n i <= po + G * n \/ po + G * n + n <= ri_p i) (is0 :: iss)).
        eapply Forall_impl; [|exact HD]. unfold apart. intros [i gs]. cbn. nia.
      * cbn [map] in E2 |- *. rewrite E2. cbn [bind]. exists m2. split; [reflexivity|]. split; [|split; [|split]]; auto.
        -- intros g Hg. assert (g < G \/ g = G) as [Hl| ->] by lia.
           ++ rewrite (vec_at_ext m1 m2) by (intros a Ha; apply F2; nia). apply V1. lia.
           ++ rewrite V2. apply vec_ext. intros o Ho. do 2 f_equal.
              change (map (vin_of m1) (map (rnn_gate_in G) (is0 :: iss)) = map (fun is => vin_gate G is (vec_at m (ri_p (fst is)) (ri_n (fst is)))) (is0 :: iss)).
              rewrite map_map. apply map_ext_in. intros is Hi. rewrite vin_of_gate. now rewrite KI.
        -- intros a Ha. rewrite F2 by nia. apply F1. nia.
Qed.

(** * The intermediate tensor *)

Lemma rnn_gate_row S c tb G n g : nth 0 (t_shape tb) 0 = G -> nth 1 (t_shape tb) 0 = n -> 0 < n -> 0 <= g < G -> G <= 4 -> G * n * rs_esz S <= rc_cap c -> rc_cap c <= 2 ^ 31 - 1 ->
  row_tensor (rnn_gate (rnn_ir_tensor S c tb) g) (rc_ps c + g * n) n /\ t_shape (rnn_gate (rnn_ir_tensor S c tb) g) = [1; n].
Proof.
  intros HG Hn Hn0 Hg HG4 Hc HC. assert (He : 1 <= rs_esz S <= 2) by (destruct S; cbn; lia).
  set (e := rs_esz S) in *. assert (Hc1 : G * n <= 2 ^ 31 - 1) by (clear - Hc HC He Hg Hn0; nia). assert (Hgn : 0 <= g * n /\ g * n + n <= G * n) by (clear - Hg Hn0; nia).
  assert (W : forall x, 0 <= x <= 2 ^ 31 - 1 -> wrap 32 x = x) by (intros; apply wrap_id; [lia|]; apply ib32; lia).
  assert (U : forall x, 0 <= x <= 2 ^ 31 - 1 -> uwrap 32 x = x) by (intros; unfold uwrap; apply Z.mod_small; lia).
  assert (CK : chk_tensor (rnn_ir_tensor S c tb) = ST_OK).
  { unfold chk_tensor, check_tensor_private, rnn_ir_tensor. rewrite HG, Hn. cbn [t_shape t_stride t_cap t_esz length combine forallb fold_right]. fold e.
    replace (Z.of_nat 2 <=? 4) with true by reflexivity. destruct (Z.leb_spec (rc_cap c) (2 ^ 31 - 1)); [|lia]. cbn [negb orb].
    rewrite (dim_ok_intro G n) by lia. rewrite (dim_ok_intro n 1) by lia. cbn [andb negb check_step].
    change (wrap 32 (1 * 1)) with 1. replace (false || negb (1 >=? 1)) with false by reflexivity.
    rewrite (W ((n - 1) * 1)) by lia. rewrite (W (1 + (n - 1) * 1)) by lia. rewrite (W (n * 1)) by lia. rewrite (W ((G - 1) * n)) by nia.
    rewrite (W (1 + (n - 1) * 1 + (G - 1) * n)) by nia. replace (1 + (n - 1) * 1 + (G - 1) * n) with (G * n) by ring. rewrite W by nia.
    destruct (Z.geb_spec n (n * 1)); [|lia]. cbn [negb orb]. destruct (Z.geb_spec (rc_cap c) (G * n * e)); [reflexivity|lia]. }
  unfold rnn_gate, create_subtensor, chk_create_subtensor. rewrite CK. unfold rnn_ir_tensor, t_rank. rewrite HG, Hn.
  cbn [t_shape t_stride length nth combine forallb]. fold e. replace (2 <=? Z.of_nat 2) with true by reflexivity. cbn [negb].
  rewrite (U (g + 1)), (U (0 + n)) by lia. destruct (Z.ltb_spec g G); [|lia]. destruct (Z.leb_spec (g + 1) G); [|lia].
  destruct (Z.ltb_spec 0 n); [|lia]. destruct (Z.leb_spec (0 + n) n); [|lia]. cbn [andb].
  cbn [eff_strides]. destruct (Z.eqb_spec n 0); [lia|]. change (1 =? 0) with false. cbn [negb addr combine sub_dims]. change (Z.of_nat 2 - 2 >? 0) with false. cbn [andb].
  change (Z.to_nat 2) with 2%nat. cbn [firstn map fst snd].
  split; [|reflexivity]. unfold row_tensor. cbn [t_data t_esz t_cap t_shape t_stride].
  replace (n * g + (1 * 0 + 0)) with (g * n) by lia. split; [reflexivity|]. split; [lia|]. split; [lia|]. split; [clear - Hc Hgn He; nia|]. split; [clear - HC Hgn He; nia|]. right. auto.
Qed.

Lemma rnn_elt_bits rm S op i1 i2 o a b : op = ELT_ADD \/ op = ELT_SUB \/ op = ELT_MUL -> in_bits (rs_bits S) (rnn_elt rm S op i1 i2 o a b).
Proof.
  intros [-> | [-> | ->]]; destruct S; cbn [rnn_elt rs_bits elt_fx]; try (unfold cast_narrow; apply wrap_in_bits; lia); unfold elt_sa8; unfold cast_narrow at 1; apply wrap_in_bits; lia.
Qed.

(** * The LSTM cell *)

(** The dense operations of the gates as functions of the input vector and the hidden state vector. *)
Definition rnn_gate_dense (rm : rmode) (full : bool) (S : rnn_scheme) (N : rnn_net) (iq hq : qpar) (n g : Z) (x h : list Z) : list Z :=
  vec n (fun o => dense_out rm full (smin (rs_bits S)) (smax (rs_bits S)) (rd (rn_mb N) (t_data (rn_bias N) + g * nth 0 (t_stride (rn_bias N)) 0 + o))
    (map (fun p => vin_gate g (fst p) (snd p)) (combine (rnn_inputs rm S N iq hq 0 0 n) [x; h])) o).

Definition rnn_act_of (rm : rmode) (S : rnn_scheme) (N : rnn_net) (c : rnn_cfg) (x : Z) : Z :=
  match rc_act c with
  | RNN_ACT_NONE => x
  | RNN_ACT_TANH => rnn_act_fn rm S tanh_sa8_out (rn_tanh N) (rn_cq N) x
  | RNN_ACT_SIGM => rnn_act_fn rm S sigm_sa8_out (rn_sigm N) (rn_cq N) x
  end.
Definition rnn_act_fmt (S : rnn_scheme) (N : rnn_net) (c : rnn_cfg) : qpar :=
  match rc_act c with RNN_ACT_NONE => rn_cq N | RNN_ACT_TANH => rnn_tanh_fmt S | RNN_ACT_SIGM => rnn_sigm_fmt S end.

(** One step: the equations of the cell with the operations of the kernels. [hq] is the format of the hidden state. *)
Definition lstm_eq (rm : rmode) (full : bool) (S : rnn_scheme) (N : rnn_net) (c : rnn_cfg) (n : Z) (hq : qpar) : list Z -> list Z * list Z -> list Z * list Z :=
  let iq := lstm_ir_fmt S (rn_iq N) (rn_wiq N) in
  let sq := rnn_sigm_fmt S in
  let tq := rnn_tanh_fmt S in
  lstm_cell_eq n (rnn_gate_dense rm full S N iq hq n)
    (rnn_act_fn rm S sigm_sa8_out (rn_sigm N) iq) (rnn_act_fn rm S tanh_sa8_out (rn_tanh N) iq) (rnn_act_of rm S N c)
    (rnn_elt rm S ELT_MUL (rn_cq N) sq (rn_cq N)) (rnn_elt rm S ELT_MUL tq sq tq) (rnn_elt rm S ELT_ADD (rn_cq N) tq (rn_cq N))
    (rnn_elt rm S ELT_MUL (rnn_act_fmt S N c) sq (rn_oq N)).

(** What the tensors of a cell with [G] gates, [n] elements of the state and [d] elements of an input look like. *)
Definition rnn_facts (rm : rmode) (full : bool) (S : rnn_scheme) (N : rnn_net) (c : rnn_cfg) (iq hq : qpar) (G n d : Z) : Prop :=
  0 < n /\ 0 < d /\ 0 < G <= 4 /\ count_elem_num_part (t_shape (rn_prev N)) = n /\ wrap 32 n = n
  /\ wrap 32 (count_elem_num_part (tl (t_shape (rn_in N)))) = d /\ wrap 32 (count_elem_num_part (tl (t_shape (rn_bias N)))) = n
  /\ nth 0 (t_shape (rn_bias N)) 0 = G /\ nth 1 (t_shape (rn_bias N)) 0 = n
  /\ G * n * rs_esz S <= rc_cap c /\ rc_cap c <= 2 ^ 31 - 1
  /\ (forall g pin ph, 0 <= g < G -> Forall (in_ok S n) (map (rnn_gate_in g) (rnn_inputs rm S N iq hq pin ph n)))
  /\ (forall g pin ph, 0 <= g < G ->
        bias_ok rm full S (rn_mb N) (t_data (rn_bias N) + g * nth 0 (t_stride (rn_bias N)) 0) n (rnn_gate_in g (hd (mkIn (Q_int 0 0) 0 0 (rn_mb N) 0 0, 0) (rnn_inputs rm S N iq hq pin ph n))))
  /\ n * rs_prod S <= smax (rs_acc S).

Lemma relu_none S o : get_relu_limits (rs_bits S) RELU_NONE o = (smin (rs_bits S), smax (rs_bits S)).
Proof. destruct S; reflexivity. Qed.

Lemma rnn_stacked rm full S N c iq hq G n d k m pin ph : rnn_facts rm full S N c iq hq G n d -> 0 <= k <= G -> mem_bits (rs_bits S) m ->
  row_ok m pin d -> row_ok m ph n -> row_ok m (rc_ps c) (G * n) -> apart pin d (rc_ps c) (G * n) -> apart ph n (rc_ps c) (G * n) ->
  exists m', rnn_dense_stacked rm full S iq (rn_mb N) (t_data (rn_bias N)) (nth 0 (t_stride (rn_bias N)) 0) (rc_ps c) n
            (wrap 32 (count_elem_num_part (tl (t_shape (rn_bias N))))) k (rnn_inputs rm S N iq hq pin ph (wrap 32 n)) m = Some m'
    /\ (forall g, 0 <= g < k -> vec_at m' (rc_ps c + g * n) n = rnn_gate_dense rm full S N iq hq n g (vec_at m pin d) (vec_at m ph n))
    /\ (forall a, a < rc_ps c \/ rc_ps c + k * n <= a -> m' a = m a) /\ (forall a, allocated m a -> allocated m' a) /\ mem_bits (rs_bits S) m'.
Proof.
  intros (Hn & Hd & HG & Ep & Wn & Ei & Eb & Sb0 & Sb1 & Hc & HC & Hin & Hb & Hp) Hk MB Rin Rh Rs Ai Ah. unfold rnn_dense_stacked. rewrite relu_none, Eb, Wn.
  unfold rnn_inputs at 1. rewrite Ei.
  destruct (stacked_wrote rm full S (smin (rs_bits S)) (smax (rs_bits S)) (rn_mb N) (t_data (rn_bias N)) (nth 0 (t_stride (rn_bias N)) 0) (rc_ps c) n k
    (mkIn (rnn_params rm S (rn_iq N) (rn_wiq N) (rn_bfrac N) iq) pin d (rn_mwi N) (t_data (rn_win N)) (nth 1 (t_stride (rn_win N)) 0), nth 0 (t_stride (rn_win N)) 0)
    [(mkIn (rnn_params rm S hq (rn_woq N) (rn_bfrac N) iq) ph n (rn_mwo N) (t_data (rn_wout N)) (nth 1 (t_stride (rn_wout N)) 0), nth 0 (t_stride (rn_wout N)) 0)] m)
    as (m' & E & V & F & A & B); try lia; auto.
  - intros g Hg. specialize (Hin g pin ph ltac:(lia)). specialize (Hb g pin ph ltac:(lia)). unfold rnn_inputs in Hin, Hb. rewrite Ei in Hin, Hb. auto.
  - destruct S; apply in_bits_unfold; cbn; lia.
  - destruct S; apply in_bits_unfold; cbn; lia.
  - intros i Hi. apply Rs. nia.
  - constructor; [|constructor; [|constructor]]; cbn [fst ri_p ri_n]; unfold apart in *; nia.
  - exists m'. split; [exact E|]. split; [|auto]. intros g Hg. rewrite V by auto. unfold rnn_gate_dense. apply vec_ext. intros o Ho. unfold rnn_inputs. rewrite Ei. reflexivity.
Qed.

Ltac row_ok_tac := intros ?k ?Hk;
  repeat match goal with
  | W : wrote _ _ ?m _ _ _ |- allocated ?m _ => apply (proj1 (proj2 (proj2 W)))
  | A : forall a, allocated _ a -> allocated ?m a |- allocated ?m _ => apply A
  end.
Ltac bits_tac := match goal with
  | W : wrote _ _ ?m _ _ _ |- mem_bits _ ?m => exact (proj2 (proj2 (proj2 W)))
  | _ => assumption
  end.
Ltac look W := rewrite (wrote_other _ _ _ _ _ _ _ _ W) by lia.

Ltac look_all := repeat match goal with
  | W : wrote _ ?m0 ?m ?p ?n _ |- context [vec_at ?m ?q ?k] => first [rewrite (proj1 W) | rewrite (wrote_other _ m0 m p n _ q k W) by lia]
  end.

Lemma lstm_step_correct rm full S N c hq n d m pin ph po :
  rnn_facts rm full S N c (lstm_ir_fmt S (rn_iq N) (rn_wiq N)) hq 4 n d ->
  rnn_lut_ok (rn_sigm N) -> rnn_lut_ok (rn_tanh N) -> rnn_fmt_ok S (lstm_ir_fmt S (rn_iq N) (rn_wiq N)) -> rnn_fmt_ok S (rn_cq N) ->
  row_tensor (rn_cell N) (t_data (rn_cell N)) n -> t_shape (rn_cell N) = [n] -> n * rs_esz S <= t_cap (rn_out N) <= 2 ^ 31 - 1 ->
  mem_bits (rs_bits S) m -> row_ok m pin d -> row_ok m ph n -> row_ok m (rc_ps c) (4 * n) -> row_ok m (t_data (rn_cell N)) n -> row_ok m po n ->
  apart pin d (rc_ps c) (4 * n) -> apart ph n (rc_ps c) (4 * n) -> apart (t_data (rn_cell N)) n (rc_ps c) (4 * n) -> apart po n (rc_ps c) (4 * n) ->
  apart po n (t_data (rn_cell N)) n ->
  exists m', lstm_step rm full S N c pin ph hq po m = Some m'
    /\ (vec_at m' (t_data (rn_cell N)) n, vec_at m' po n) = lstm_eq rm full S N c n hq (vec_at m pin d) (vec_at m (t_data (rn_cell N)) n, vec_at m ph n)
    /\ (forall a, a < rc_ps c \/ rc_ps c + 4 * n <= a -> a < t_data (rn_cell N) \/ t_data (rn_cell N) + n <= a -> a < po \/ po + n <= a -> m' a = m a)
    /\ (forall a, allocated m a -> allocated m' a) /\ mem_bits (rs_bits S) m'.
Proof.
  intros HF Ls Lt Fi Fc Rc Sc Cout MB Rin Rh Rs Rcell Ro Ai Ah Ac Ao Aoc. pose proof HF as (Hn & Hd & HG & Ep & Wn & Ei & Eb & Sb0 & Sb1 & Hc & HC & Hin & Hb & Hp).
  pose proof (fun g Hg => rnn_gate_row S c (rn_bias N) 4 n g Sb0 Sb1 Hn Hg (Z.le_refl 4) Hc HC) as HGR.
  destruct (HGR 0 ltac:(lia)) as (R0 & S0). destruct (HGR 1 ltac:(lia)) as (R1 & S1). destruct (HGR 2 ltac:(lia)) as (R2 & S2). destruct (HGR 3 ltac:(lia)) as (R3 & S3).
  clear HGR. unfold apart in *. set (ps := rc_ps c) in *. set (pc := t_data (rn_cell N)) in *.
  unfold lstm_step. rewrite Ep.
  change (t_data (rnn_ir_tensor S c (rn_bias N))) with ps. replace (nth 0 (t_stride (rnn_ir_tensor S c (rn_bias N))) 0) with n by (cbn; auto).
  set (iq := lstm_ir_fmt S (rn_iq N) (rn_wiq N)) in *. set (ig := rnn_gate (rnn_ir_tensor S c (rn_bias N)) 0) in *. set (gg := rnn_gate (rnn_ir_tensor S c (rn_bias N)) 1) in *.
  set (fg := rnn_gate (rnn_ir_tensor S c (rn_bias N)) 2) in *. set (og := rnn_gate (rnn_ir_tensor S c (rn_bias N)) 3) in *. cbv zeta. fold pc.
  destruct (rnn_stacked rm full S N c iq hq 4 n d 4 m pin ph HF ltac:(lia) MB Rin Rh Rs Ai Ah) as (m1 & E1 & V1 & F1 & A1 & B1). fold ps in E1, V1, F1.
  rewrite E1. cbn [bind].
  assert (KC1 : vec_at m1 pc n = vec_at m pc n) by (apply vec_at_ext; intros; apply F1; lia).
  destruct (rnn_act_wrote rm S sigm_sa8_out (rn_sigm N) iq ig ig (ps + 0 * n) (ps + 0 * n) n m1) as (m2 & E2 & W2); auto.
  { row_ok_tac. replace (ps + 0 * n + k) with (ps + k) by lia. apply Rs. lia. } { row_ok_tac. replace (ps + 0 * n + k) with (ps + k) by lia. apply Rs. lia. } { left; auto. }
  rewrite E2. cbn [bind].
  destruct (rnn_act_wrote rm S tanh_sa8_out (rn_tanh N) iq gg gg (ps + 1 * n) (ps + 1 * n) n m2) as (m3 & E3 & W3); auto; try bits_tac.
  { row_ok_tac. rewrite <- Z.add_assoc. apply Rs. lia. } { row_ok_tac. rewrite <- Z.add_assoc. apply Rs. lia. } { left; auto. }
  rewrite E3. cbn [bind].
  destruct (rnn_act_wrote rm S sigm_sa8_out (rn_sigm N) iq fg fg (ps + 2 * n) (ps + 2 * n) n m3) as (m4 & E4 & W4); auto; try bits_tac.
  { row_ok_tac. rewrite <- Z.add_assoc. apply Rs. lia. } { row_ok_tac. rewrite <- Z.add_assoc. apply Rs. lia. } { left; auto. }
  rewrite E4. cbn [bind].
  destruct (rnn_act_wrote rm S sigm_sa8_out (rn_sigm N) iq og og (ps + 3 * n) (ps + 3 * n) n m4) as (m5 & E5 & W5); auto; try bits_tac.
  { row_ok_tac. rewrite <- Z.add_assoc. apply Rs. lia. } { row_ok_tac. rewrite <- Z.add_assoc. apply Rs. lia. } { left; auto. }
  rewrite E5. cbn [bind]. rewrite (proj1 R1), (proj1 R0), (proj1 R2), (proj1 R3), Sc, S1. change (last [n] 0) with n. change (last [1; n] 0) with n.
  assert (RG : forall g, 0 <= g < 4 -> row_ok m (ps + g * n) n) by (intros g Hg k Hk; rewrite <- Z.add_assoc; apply Rs; nia).
  destruct (elt_1d_wrote (rs_bits S) (rnn_elt rm S ELT_MUL (rn_cq N) (rnn_sigm_fmt S) (rn_cq N)) pc (ps + 2 * n) pc n m5) as (m6 & E6 & W6); auto; try bits_tac.
  { row_ok_tac. auto. } { row_ok_tac. apply (RG 2); lia. } { row_ok_tac. auto. } { left; auto. } { right. lia. } { intros; apply rnn_elt_bits; auto. }
  rewrite E6. cbn [bind].
  destruct (elt_1d_wrote (rs_bits S) (rnn_elt rm S ELT_MUL (rnn_tanh_fmt S) (rnn_sigm_fmt S) (rnn_tanh_fmt S)) (ps + 1 * n) (ps + 0 * n) (ps + 1 * n) n m6) as (m7 & E7 & W7); auto; try bits_tac.
  { row_ok_tac. apply (RG 1); lia. } { row_ok_tac. apply (RG 0); lia. } { row_ok_tac. apply (RG 1); lia. } { left; auto. } { right. lia. } { intros; apply rnn_elt_bits; auto. }
  rewrite E7. cbn [bind].
  destruct (elt_1d_wrote (rs_bits S) (rnn_elt rm S ELT_ADD (rn_cq N) (rnn_tanh_fmt S) (rn_cq N)) pc (ps + 1 * n) pc n m7) as (m8 & E8 & W8); auto; try bits_tac.
  { row_ok_tac. auto. } { row_ok_tac. apply (RG 1); lia. } { row_ok_tac. auto. } { left; auto. } { right. lia. } { intros; apply rnn_elt_bits; auto. }
  rewrite E8. cbn [bind].
  (* the values before the last step *)
  assert (VC : vec_at m8 pc n = fst (lstm_eq rm full S N c n hq (vec_at m pin d) (vec_at m pc n, vec_at m ph n))
    /\ vec_at m8 (ps + 3 * n) n = map (rnn_act_fn rm S sigm_sa8_out (rn_sigm N) iq) (rnn_gate_dense rm full S N iq hq n 3 (vec_at m pin d) (vec_at m ph n))).
  { split.
    - look_all. rewrite KC1, (V1 0), (V1 1), (V1 2) by lia. reflexivity.
    - look_all. rewrite (V1 3) by lia. reflexivity. }
  assert (FR : forall a, a < ps \/ ps + 4 * n <= a -> a < pc \/ pc + n <= a -> m8 a = m a).
  { intros a H1 H2. rewrite (proj1 (proj2 W8)), (proj1 (proj2 W7)), (proj1 (proj2 W6)), (proj1 (proj2 W5)), (proj1 (proj2 W4)), (proj1 (proj2 W3)), (proj1 (proj2 W2)) by lia. apply F1. lia. }
  assert (FA : forall a, allocated m a -> allocated m8 a).
  { intros a H. apply (proj1 (proj2 (proj2 W8))), (proj1 (proj2 (proj2 W7))), (proj1 (proj2 (proj2 W6))), (proj1 (proj2 (proj2 W5))), (proj1 (proj2 (proj2 W4))), (proj1 (proj2 (proj2 W3))),
      (proj1 (proj2 (proj2 W2))), A1, H. }
  assert (B8 : mem_bits (rs_bits S) m8) by apply W8. destruct VC as [VC VO].
  clear E1 E2 E3 E4 E5 E6 E7 E8 W2 W3 W4 W5 W6 W7 W8 V1 F1 A1 B1 KC1.
  assert (Rrow : row_tensor (rnn_row1 N S po n) po n).
  { unfold row_tensor, rnn_row1. cbn [t_data t_esz t_cap t_shape t_stride]. repeat split; auto; try lia. destruct S; cbn; lia. }
  unfold lstm_eq, lstm_cell_eq in VC |- *. fold iq in VC |- *. cbn [fst] in VC. unfold rnn_act_of, rnn_act_fmt.
  destruct (rc_act c) eqn:Ea.
  - destruct (elt_1d_wrote (rs_bits S) (rnn_elt rm S ELT_MUL (rn_cq N) (rnn_sigm_fmt S) (rn_oq N)) pc (ps + 3 * n) po n m8) as (m9 & E9 & W9); auto.
    { row_ok_tac. auto. } { row_ok_tac. apply (RG 3); lia. } { row_ok_tac. auto. } { right. lia. } { right. lia. } { intros; apply rnn_elt_bits; auto. }
    exists m9. split; [exact E9|]. split.
    + look_all. rewrite VC, VO. f_equal. f_equal. symmetry. rewrite <- map_id. apply map_ext. reflexivity.
    + destruct W9 as (_ & F9 & A9 & B9). split; [intros; rewrite F9 by lia; auto|]. split; auto.
  - destruct (rnn_act_wrote rm S tanh_sa8_out (rn_tanh N) (rn_cq N) (rn_cell N) (rnn_row1 N S po n) pc po n m8) as (m9 & E9 & W9); auto.
    { row_ok_tac. auto. } { row_ok_tac. auto. } { right. lia. }
    rewrite E9. cbn [bind].
    destruct (elt_1d_wrote (rs_bits S) (rnn_elt rm S ELT_MUL (rnn_tanh_fmt S) (rnn_sigm_fmt S) (rn_oq N)) po (ps + 3 * n) po n m9) as (m10 & E10 & W10); auto; try bits_tac.
    { row_ok_tac. auto. } { row_ok_tac. apply (RG 3); lia. } { row_ok_tac. auto. } { left; auto. } { right. lia. } { intros; apply rnn_elt_bits; auto. }
    exists m10. split; [exact E10|]. split.
    + look_all. rewrite VC, VO. reflexivity.
    + destruct W9 as (_ & F9 & A9 & B9). destruct W10 as (_ & F10 & A10 & B10). split; [intros; rewrite F10, F9 by lia; auto|]. split; auto.
  - destruct (rnn_act_wrote rm S sigm_sa8_out (rn_sigm N) (rn_cq N) (rn_cell N) (rnn_row1 N S po n) pc po n m8) as (m9 & E9 & W9); auto.
    { row_ok_tac. auto. } { row_ok_tac. auto. } { right. lia. }
    rewrite E9. cbn [bind].
    destruct (elt_1d_wrote (rs_bits S) (rnn_elt rm S ELT_MUL (rnn_sigm_fmt S) (rnn_sigm_fmt S) (rn_oq N)) po (ps + 3 * n) po n m9) as (m10 & E10 & W10); auto; try bits_tac.
    { row_ok_tac. auto. } { row_ok_tac. apply (RG 3); lia. } { row_ok_tac. auto. } { left; auto. } { right. lia. } { intros; apply rnn_elt_bits; auto. }
    exists m10. split; [exact E10|]. split.
    + look_all. rewrite VC, VO. reflexivity.
    + destruct W9 as (_ & F9 & A9 & B9). destruct W10 as (_ & F10 & A10 & B10). split; [intros; rewrite F10, F9 by lia; auto|]. split; auto.
Qed.

(** * The loop over the sequence *)

Lemma final_cons {St} (l : list St) : forall x s, final (x :: l) s = final l x.
Proof. unfold final. induction l as [|y l IH]; intros x s; [reflexivity|]. change (last (x :: y :: l) s) with (last (y :: l) s). rewrite (IH y s), (IH y x). reflexivity. Qed.

Lemma recur_snoc {X St} (step : bool -> X -> St -> St) xs x : forall b s,
  recur step b (xs ++ [x]) s = recur step b xs s ++ [step (match xs with [] => b | _ => false end) x (final (recur step b xs s) s)].
Proof.
  induction xs as [|y xs IH]; intros b s; [reflexivity|]. cbn [app recur]. rewrite IH. cbn [app]. rewrite final_cons. destruct xs; reflexivity.
Qed.

Lemma recur_length {X St} (step : bool -> X -> St -> St) xs : forall b s, length (recur step b xs s) = length xs.
Proof. induction xs; intros; cbn; auto. Qed.

Lemma final_snoc {St} (l : list St) x s : final (l ++ [x]) s = x.
Proof. apply last_last. Qed.

(** The addresses and formats of step [t]. *)
Definition pin_at (N : rnn_net) (c : rnn_cfg) (len d t : Z) : Z := t_data (rn_in N) + (if rc_backward c then (len - 1 - t) * d else t * d).
Definition po_at (N : rnn_net) (c : rnn_cfg) (n t : Z) : Z := t_data (rn_out N) + (if rc_all c then t * n else 0).
Definition ph_at (N : rnn_net) (c : rnn_cfg) (n t : Z) : Z := if t =? 0 then t_data (rn_prev N) else po_at N c n (t - 1).
Definition hq_at (N : rnn_net) (t : Z) : qpar := if t =? 0 then rn_pq N else rn_oq N.

Lemma rnn_loop_correct {St} step N c n d len nb (Rd : mem -> Z -> St) (hid : St -> list Z) (stepf : qpar -> list Z -> St -> St) (Fr : Z -> Prop) m :
  count_elem_num_part (t_shape (rn_prev N)) = n -> nth 0 (t_shape (rn_in N)) 0 = len -> nth 0 (t_stride (rn_in N)) 0 = d -> 0 < n -> 0 < d -> 0 < len ->
  (forall m p, hid (Rd m p) = vec_at m p n) ->
  (forall t mt, 0 <= t < len -> (forall a, allocated m a -> allocated mt a) -> mem_bits nb mt ->
     exists m', step (pin_at N c len d t) (ph_at N c n t) (hq_at N t) (po_at N c n t) mt = Some m'
       /\ Rd m' (po_at N c n t) = stepf (hq_at N t) (vec_at mt (pin_at N c len d t) d) (Rd mt (ph_at N c n t))
       /\ (forall a, ~ Fr a -> a < po_at N c n t \/ po_at N c n t + n <= a -> m' a = mt a)
       /\ (forall a, allocated mt a -> allocated m' a) /\ mem_bits nb m') ->
  mem_bits nb m ->
  let outlen := if rc_all c then len else 1 in
  (forall a, t_data (rn_in N) <= a < t_data (rn_in N) + len * d -> ~ Fr a /\ (a < t_data (rn_out N) \/ t_data (rn_out N) + outlen * n <= a)) ->
  (forall a, t_data (rn_out N) <= a < t_data (rn_out N) + outlen * n -> ~ Fr a) ->
  let xs := if rc_backward c then rev (rows_at m (t_data (rn_in N)) len d) else rows_at m (t_data (rn_in N)) len d in
  let states := recur (fun first x s => stepf (if first : bool then rn_pq N else rn_oq N) x s) true xs (Rd m (t_data (rn_prev N))) in
  exists m', rnn_loop step N c m = Some m'
    /\ Rd m' (po_at N c n (len - 1)) = final states (Rd m (t_data (rn_prev N)))
    /\ (rc_all c = true -> forall t, 0 <= t < len -> vec_at m' (t_data (rn_out N) + t * n) n = hid (nth (Z.to_nat t) states (Rd m (t_data (rn_prev N)))))
    /\ (forall a, ~ Fr a -> a < t_data (rn_out N) \/ t_data (rn_out N) + outlen * n <= a -> m' a = m a)
    /\ (forall a, allocated m a -> allocated m' a) /\ mem_bits nb m'.
Proof.
  intros En El Ed Hn Hd Hlen Hhid Hstep MB outlen Hin Hout xs states.
  set (s0 := Rd m (t_data (rn_prev N))) in *. set (F := fun first x s => stepf (if first : bool then rn_pq N else rn_oq N) x s) in *.
  set (xt := fun t => map (fun i => vec_at m (pin_at N c len d i) d) (zrange 0 t)).
  set (st := fun t => recur F true (xt t) s0).
  assert (Exs : xs = xt len).
  { unfold xs, xt, rows_at, pin_at. destruct (rc_backward c); [|reflexivity].
    rewrite <- map_rev. apply nth_ext with (d := vec_at m 0 0) (d' := vec_at m 0 0).
    - rewrite !map_length, rev_length. reflexivity.
    - intros k Hk. rewrite map_length, rev_length, zrange_length in Hk.
      rewrite nth_indep with (d' := vec_at m (t_data (rn_in N) + 0 * d) d) by (rewrite map_length, rev_length, zrange_length; lia).
      rewrite (map_nth (fun t => vec_at m (t_data (rn_in N) + t * d) d)). rewrite rev_nth by (rewrite zrange_length; lia).
      rewrite (nth_indep (map _ (zrange 0 len)) (vec_at m 0 0) (vec_at m (t_data (rn_in N) + (len - 1 - 0) * d) d)) by (rewrite map_length, zrange_length; lia).
      rewrite (map_nth (fun i => vec_at m (t_data (rn_in N) + (len - 1 - i) * d) d)). rewrite zrange_length.
      replace (Z.to_nat (len - 0) - Datatypes.S k)%nat with (Z.to_nat (len - 1 - Z.of_nat k)) by lia.
      rewrite (nth_zrange len (len - 1 - Z.of_nat k)) by lia. replace k with (Z.to_nat (Z.of_nat k)) at 2 by lia. rewrite (nth_zrange len (Z.of_nat k)) by lia. reflexivity. }
  assert (Hpin : forall t, 0 <= t < len -> t_data (rn_in N) <= pin_at N c len d t /\ pin_at N c len d t + d <= t_data (rn_in N) + len * d).
  { intros t Ht. unfold pin_at. destruct (rc_backward c); nia. }
  assert (Hpo : forall t, 0 <= t < len -> t_data (rn_out N) <= po_at N c n t /\ po_at N c n t + n <= t_data (rn_out N) + outlen * n).
  { intros t Ht. unfold po_at, outlen. destruct (rc_all c); nia. }
  unfold rnn_loop. rewrite En, El, Ed.
  match goal with |- context [foldM ?f (zrange 0 len) ?s] => set (body := f); set (init := s) end.
  assert (G : forall t, 0 <= t -> t <= len -> exists mt, foldM body (zrange 0 t) init = Some (mt, pin_at N c len d t, (ph_at N c n t, hq_at N t), po_at N c n t)
    /\ Rd mt (ph_at N c n t) = final (st t) s0
    /\ (rc_all c = true -> forall i, 0 <= i < t -> vec_at mt (t_data (rn_out N) + i * n) n = hid (nth (Z.to_nat i) (st t) s0))
    /\ (forall a, ~ Fr a -> a < t_data (rn_out N) \/ t_data (rn_out N) + outlen * n <= a -> mt a = m a)
    /\ (forall a, allocated m a -> allocated mt a) /\ mem_bits nb mt).
  { intros t Ht. pattern t. apply natlike_ind; [..|exact Ht]; clear t Ht.
    - intros _. exists m. rewrite zrange_nil by lia. cbn [foldM]. split; [|split; [|split; [|auto]]].
      + unfold init, pin_at, ph_at, hq_at, po_at. cbn [Z.eqb]. do 2 f_equal; [do 2 f_equal|]; [f_equal; destruct (rc_backward c); lia|destruct (rc_all c); lia].
      + reflexivity.
      + intros _ i Hi. lia.
    - intros t Ht IH Hl. destruct IH as (mt & E & HR & HV & HF & HA & HB); [lia|].
      replace (Z.succ t) with (t + 1) in * by lia. rewrite zrange_snoc by lia. rewrite foldM_app, E. cbn [bind foldM].
      destruct (Hstep t mt ltac:(lia) HA HB) as (m' & E' & R' & F' & A' & B'). unfold body at 1. rewrite E'. cbn [bind].
      assert (Ex : vec_at mt (pin_at N c len d t) d = vec_at m (pin_at N c len d t) d).
      { apply vec_at_ext. intros a Ha. destruct (Hpin t ltac:(lia)). destruct (Hin a ltac:(lia)). apply HF; auto. }
      assert (Est : st (t + 1) = st t ++ [stepf (hq_at N t) (vec_at m (pin_at N c len d t) d) (final (st t) s0)]).
      { unfold st, xt. rewrite zrange_snoc by lia. rewrite map_app. cbn [map]. rewrite recur_snoc. do 2 f_equal. unfold F at 1, hq_at.
        destruct (Z.eqb_spec t 0) as [->|Hne]; [rewrite zrange_nil by lia; reflexivity|]. rewrite zrange_cons by lia. reflexivity. }
      assert (Lst : length (st t) = Z.to_nat t) by (unfold st, xt; rewrite recur_length, map_length, zrange_length; f_equal; lia).
      exists m'. split; [|split; [|split; [|split; [|split]]]]; auto.
      + assert (P1 : pin_at N c len d t + (if rc_backward c then - d else d) = pin_at N c len d (t + 1)) by (unfold pin_at; destruct (rc_backward c); lia).
        assert (P2 : (if rc_all c then po_at N c n t + n else po_at N c n t) = po_at N c n (t + 1)) by (unfold po_at; destruct (rc_all c); lia).
        assert (P3 : ph_at N c n (t + 1) = po_at N c n t) by (unfold ph_at; destruct (Z.eqb_spec (t + 1) 0); [lia|]; f_equal; lia).
        assert (P4 : hq_at N (t + 1) = rn_oq N) by (unfold hq_at; destruct (Z.eqb_spec (t + 1) 0); [lia|reflexivity]).
        now rewrite P1, P2, P3, P4.
      + rewrite Est, final_snoc. unfold ph_at at 1. destruct (Z.eqb_spec (t + 1) 0); [lia|]. replace (t + 1 - 1) with t by lia. rewrite R', Ex, HR. reflexivity.
      + intros Hall i Hi. rewrite Est. assert (i < t \/ i = t) as [Hlt| ->] by lia.
        * rewrite app_nth1 by lia. rewrite <- HV by (auto; lia). apply vec_at_ext. intros a Ha. apply F'.
          -- apply Hout. unfold outlen. rewrite Hall. nia.
          -- unfold po_at. rewrite Hall. nia.
        * rewrite app_nth2 by lia. replace (Z.to_nat t - length (st t))%nat with 0%nat by lia. cbn [nth].
          rewrite <- HR, <- Ex, <- R', Hhid. unfold po_at. now rewrite Hall.
      + intros a H1 H2. rewrite F'; auto. destruct (Hpo t ltac:(lia)). lia. }
  destruct (G len ltac:(lia) ltac:(lia)) as (m' & E & HR & HV & HF & HA & HB). rewrite E. cbn [bind fst]. exists m'. split; [reflexivity|].
  unfold states. rewrite Exs. fold (st len). split; [|auto]. unfold ph_at in HR. destruct (Z.eqb_spec len 0); [lia|]. exact HR.
Qed.

