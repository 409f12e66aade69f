(** Rescale, clip, reductions, bilinear resizing and matrix multiplication of MLI 3.0 (C44 - C48). *)
From Coq Require Import ZArith List Lia Bool.
From Verif Require Import Base FxMath FxMathProofs Tensor TensorProofs Permute MovProofs PermuteProofs ArgMax QSpec Quant QuantProofs QuantCastProofs DotProdProofs PoolKernels Eltwise EltwiseProofs Relu ReluProofs ConvTheorems Prelu3Proofs Ops3.
From Verif Require LutProofs.
Import ListNotations.
Open Scope Z_scope.

(** * Generic tensors *)

Lemma pad4_app d l : (length l <= 4)%nat -> pad4 d l = l ++ repeat d (4 - length l).
Proof. apply PermuteProofs.pad4_eq. Qed.

Lemma foldM_pad4 {S} (F : list Z -> S -> option S) sh (s : S) : (length sh <= 4)%nat ->
  foldM F (coords (pad4 1 sh)) s = foldM (fun c => F (c ++ repeat 0 (4 - length sh))) (coords sh) s.
Proof. intros H. rewrite pad4_app, PermuteProofs.coords_pad, foldM_map by auto. reflexivity. Qed.

Lemma addr_pad4 sh st c : (length sh <= 4)%nat -> length st = length sh -> valid sh c -> addr (pad4 0 st) (c ++ repeat 0 (4 - length sh)) = addr st c.
Proof.
  intros H L V. rewrite pad4_app by lia. rewrite <- L. apply PermuteProofs.addr_pad. rewrite L. symmetry. now apply valid_length.
Qed.

(** * Rescale (C44) *)

(** The difference from the input bias, limited to the [ni] bits of the input type, times the scale and 2^-shift, rounded; plus the
    output bias, limited to the [no] bits of the output type. *)
Definition rescale_exact (rm : rmode) (ni no x bi bo sc sh : Z) : Z := scaled_exact rm no (sat ni (x - bi) * sc) sh bo.

Theorem rescale_value_exact rm ni no x bi bo sc sh : 1 <= ni <= 32 -> 1 <= no <= 32 -> in_bits ni x -> in_bits ni bi -> in_bits no bo -> in_bits 16 sc ->
  rescale_value rm ni no x bi bo sc sh = rescale_exact rm ni no x bi bo sc sh.
Proof.
  intros Hi Hn Hx Hb Ho Hs. unfold rescale_value, rescale_exact. rewrite sub_fx_spec by (auto; lia).
  apply scaled_value_exact; auto; [|apply (in_bits_mono no 32); auto; lia].
  assert (S : in_bits 32 (sat ni (x - bi))) by (apply (in_bits_mono ni 32); [lia|lia|apply sat_in_bits; lia]).
  rewrite ib32 in S. rewrite ib16 in Hs. change (2 ^ 46) with 70368744177664. nia.
Qed.

(** Without overflow of the difference this is the documented formula. *)
Theorem rescale_exact_fits rm ni no x bi bo sc sh : 1 <= ni -> in_bits ni (x - bi) -> rescale_exact rm ni no x bi bo sc sh = sat no (scale_rnd rm ((x - bi) * sc) sh + bo).
Proof. intros Hn H. unfold rescale_exact, scaled_exact. rewrite (sat_id ni (x - bi)) by auto. reflexivity. Qed.

(** The parameter buffers hold an entry for every position on the axis (one entry without an axis). *)
Definition rescale_params_ok (ni no : Z) (p : rescale_params) (cnt : Z) : Prop :=
  (forall k, 0 <= k < cnt -> allocated (rs_bias_in p) k /\ allocated (rs_bias_out p) k /\ allocated (rs_scale p) k /\ allocated (rs_shift p) k)
  /\ mem_bits ni (rs_bias_in p) /\ mem_bits no (rs_bias_out p) /\ mem_bits 16 (rs_scale p).

(** C44. [tout] is any tensor with the input's shape whose elements are distinct cells. *)
Theorem rescale_correct rm ni no p axis tin tout mi m :
  1 <= ni <= 32 -> 1 <= no <= 32 -> (length (t_shape tin) <= 4)%nat -> length (t_stride tin) = length (t_shape tin) -> length (t_stride tout) = length (t_shape tin) ->
  axis < Z.of_nat (length (t_shape tin)) ->
  rescale_params_ok ni no p (if axis <? 0 then 1 else nth (Z.to_nat axis) (t_shape tin) 0) -> mem_bits ni mi ->
  (forall c, valid (t_shape tin) c -> allocated mi (t_data tin + addr (t_stride tin) c) /\ allocated m (t_data tout + addr (t_stride tout) c)) ->
  (forall c c', valid (t_shape tin) c -> valid (t_shape tin) c' -> addr (t_stride tout) c = addr (t_stride tout) c' -> c = c') ->
  exists m', rescale rm ni no p axis tin tout mi m = Some m'
    /\ (forall c, valid (t_shape tin) c ->
         let k := prelu3_index axis c in
         m' (t_data tout + addr (t_stride tout) c) =
           Some (rescale_exact rm ni no (rd mi (t_data tin + addr (t_stride tin) c)) (rd (rs_bias_in p) k) (rd (rs_bias_out p) k) (rd (rs_scale p) k) (rd (rs_shift p) k)))
    /\ (forall a, (forall c, valid (t_shape tin) c -> a <> t_data tout + addr (t_stride tout) c) -> m' a = m a).
Proof.
  intros Hni Hno Hr Li Lo Hax (PA & P1 & P2 & P3) Hmi Hal Hinj. unfold rescale. rewrite foldM_pad4 by auto.
  edestruct (foldM_store (fun c => t_data tout + addr (t_stride tout) c)
    (fun c => let k := prelu3_index axis c in
      rescale_exact rm ni no (rd mi (t_data tin + addr (t_stride tin) c)) (rd (rs_bias_in p) k) (rd (rs_bias_out p) k) (rd (rs_scale p) k) (rd (rs_shift p) k)))
    as (m' & E & V & F).
  4: { exists m'. split; [exact E|]. split.
    - intros c Hc. cbv zeta. apply (V c). now apply in_coords.
    - intros a Ha. apply F. intros c Hc. apply in_coords in Hc. intros X. apply (Ha c Hc). auto. }
  - intros c m' Hc. apply in_coords in Hc. cbv beta zeta. rewrite !(addr_pad4 (t_shape tin)) by auto.
    assert (Ek : (if axis <? 0 then 0 else nth (Z.to_nat axis) (c ++ repeat 0 (4 - length (t_shape tin))) 0) = prelu3_index axis c).
    { unfold prelu3_index. destruct (Z.ltb_spec axis 0); [reflexivity|]. apply app_nth1. rewrite (valid_length _ _ Hc). lia. }
    rewrite Ek. set (k := prelu3_index axis c).
    assert (Hk : 0 <= k < (if axis <? 0 then 1 else nth (Z.to_nat axis) (t_shape tin) 0)).
    { unfold k, prelu3_index. destruct (Z.ltb_spec axis 0); [lia|]. apply (valid_split (Z.to_nat axis)); [exact Hc|lia]. }
    destruct (PA k Hk) as (A1 & A2 & A3 & A4). destruct (Hal c Hc) as [A5 _].
    rewrite (rd_load mi), (rd_load (rs_bias_in p)), (rd_load (rs_bias_out p)), (rd_load (rs_scale p)), (rd_load (rs_shift p)) by auto. cbn [bind].
    rewrite rescale_value_exact by (auto; apply rd_bits; auto; lia). reflexivity.
  - intros c Hc. apply in_coords in Hc. now apply Hal.
  - intros c c' Hc Hc' E. apply in_coords in Hc, Hc'. rewrite (Hinj c c'); auto. lia.
Qed.

(** The saturation of the difference shows: 100 - (-100) = 200 is limited to 127 before it is scaled by 1/2. *)
Theorem rescale_difference_refuted : exists rm x bi bo sc sh, in_bits 8 x /\ in_bits 8 bi
  /\ sat 8 (scale_rnd rm ((x - bi) * sc) sh + bo) = 100 /\ rescale_value rm 8 8 x bi bo sc sh = 64.
Proof. exists RM_UP, 100, (-100), 0, 1, 1. split; [apply ib8; lia|]. split; [apply ib8; lia|]. split; vm_compute; reflexivity. Qed.

(** The operator runs the kernel that matches the element types for 8-bit output. For 8- and 16-bit input with 32-bit output it runs the
    kernel for 32-bit input, which reads elements of the wrong size; for 32-bit input and output it runs none and reports success. *)
Theorem rescale_issue_refuted : rescale_issue 4 1 = Some (4, 1) /\ rescale_issue 1 1 = Some (1, 1)
  /\ rescale_issue 1 4 = Some (4, 4) /\ rescale_issue 2 4 = Some (4, 4) /\ rescale_issue 4 4 = None.
Proof. repeat split. Qed.

(** * Clip (C45) *)

(** C45. The buffers may coincide or be disjoint ([unary_ok]: no element is written before it is read). *)
Theorem clip_correct lo hi tin tout m :
  (length (t_shape tin) <= 4)%nat -> length (t_stride tin) = length (t_shape tin) -> length (t_stride tout) = length (t_shape tin) -> t_shape tout = t_shape tin ->
  (forall c, valid (t_shape tin) c -> allocated m (t_data tin + addr (t_stride tin) c) /\ allocated m (t_data tout + addr (t_stride tout) c)) ->
  (forall c c', valid (t_shape tin) c -> valid (t_shape tin) c' -> addr (t_stride tout) c = addr (t_stride tout) c' -> c = c') ->
  unary_ok tin tout ->
  exists m', clip lo hi tin tout m = Some m'
    /\ (forall c, valid (t_shape tin) c -> m' (t_data tout + addr (t_stride tout) c) = Some (Z.min (Z.max (rd m (t_data tin + addr (t_stride tin) c)) lo) hi))
    /\ (forall a, (forall c, valid (t_shape tin) c -> a <> t_data tout + addr (t_stride tout) c) -> m' a = m a).
Proof.
  intros Hr Li Lo Es Hal Hinj Hu. unfold clip. rewrite foldM_pad4 by auto.
  edestruct (foldM_inplace (fun c => t_data tout + addr (t_stride tout) c)
    (fun c => Z.min (Z.max (rd m (t_data tin + addr (t_stride tin) c)) lo) hi) (fun c a => a = t_data tin + addr (t_stride tin) c)) as (m' & E & V & F).
  6: { exists m'. split; [exact E|]. split.
    - intros c Hc. apply (V c). now apply in_coords.
    - intros a Ha. apply F. intros c Hc. apply in_coords in Hc. intros X. apply (Ha c Hc). auto. }
  - apply coords_NoDup.
  - intros c m' Hc R. apply in_coords in Hc. cbv beta. rewrite !(addr_pad4 (t_shape tin)) by auto. unfold load. rewrite (R _ eq_refl).
    destruct (Hal c Hc) as [A _]. change (m (t_data tin + addr (t_stride tin) c)) with (load m (t_data tin + addr (t_stride tin) c)). rewrite rd_load by auto. cbn [bind].
    unfold clip_value. rewrite LutProofs.min_fx_min, LutProofs.max_fx_max. reflexivity.
  - intros c Hc. apply in_coords in Hc. now apply Hal.
  - intros c c' Hc Hc' E. apply in_coords in Hc, Hc'. apply Hinj; auto. lia.
  - intros c c' Hc Hc' Hne E. apply in_coords in Hc, Hc'. revert E. apply not_eq_sym. apply Hu; rewrite ?Es; auto.
Qed.

(** * Reductions (C46) *)

Lemma set_at_app {A} k (v : A) l z : (k < length l)%nat -> set_at k v (l ++ z) = set_at k v l ++ z.
Proof. revert k; induction l as [|x l IH]; intros [|k] H; cbn [length set_at app] in *; try lia; [reflexivity|]. f_equal. apply IH. lia. Qed.

Lemma set_at_length {A} k (v : A) l : length (set_at k v l) = length l.
Proof. revert k; induction l as [|x l IH]; intros [|k]; cbn [set_at length]; auto. Qed.

Lemma valid_pad k sh c : valid (sh ++ repeat 1 k) c <-> exists c', c = c' ++ repeat 0 k /\ valid sh c'.
Proof.
  rewrite <- in_coords, PermuteProofs.coords_pad, in_map_iff. split.
  - intros (c' & <- & H). exists c'. split; auto. now apply in_coords.
  - intros (c' & -> & H). exists c'. split; auto. now apply in_coords.
Qed.

Lemma reduce_cover axis s0 s1 s2 s3 : (axis <= 3)%nat ->
  let sh := [s0; s1; s2; s3] in let r := reorder_dim axis in
  let outer := [nth (nth 0 r 0%nat) sh 0; nth (nth 1 r 0%nat) sh 0; nth (nth 2 r 0%nat) sh 0] in
  nth 3 r 0%nat = axis
  /\ (forall q, valid outer q -> valid (set_at axis 1 sh) (reduce_pos axis q 0) /\ forall k, reduce_pos axis q k = set_at axis k (reduce_pos axis q 0))
  /\ (forall c, valid (set_at axis 1 sh) c -> exists q, valid outer q /\ reduce_pos axis q 0 = c).
Proof.
  intros H. assert (axis = 0 \/ axis = 1 \/ axis = 2 \/ axis = 3)%nat as [-> | [-> | [-> | ->]]] by lia; cbv zeta;
  (split; [reflexivity|]; split;
   [intros [|a [|b [|c [|]]]] V; cbn in V; try tauto; cbn; split; [lia|reflexivity]
   |intros [|c0 [|c1 [|c2 [|c3 [|]]]]] V; cbn in V; try tauto]).
  - exists [c3; c1; c2]. cbn. split; [lia|]. repeat f_equal; lia.
  - exists [c0; c3; c2]. cbn. split; [lia|]. repeat f_equal; lia.
  - exists [c0; c1; c3]. cbn. split; [lia|]. repeat f_equal; lia.
  - exists [c0; c1; c2]. cbn. split; [lia|]. repeat f_equal; lia.
Qed.

Lemma nonzero_shape sh : (forall d, In d sh -> 1 <= d) -> map (fun n => if n =? 0 then 1 else n) sh = sh.
Proof. intros H. rewrite <- (map_id sh) at 2. apply map_ext_in. intros d Hd. specialize (H d Hd). destruct (Z.eqb_spec d 0); lia. Qed.

(** Both kernels: the result of each slice, for the reads of the slice. *)
Lemma reduce_loops_correct body val axis tin tout mi m :
  (length (t_shape tin) <= 4)%nat -> length (t_stride tin) = length (t_shape tin) -> length (t_stride tout) = length (t_shape tin) ->
  (axis < length (t_shape tin))%nat -> (forall d, In d (t_shape tin) -> 1 <= d) ->
  (forall c read, valid (set_at axis 1 (t_shape tin)) c ->
     (forall k, 0 <= k < nth axis (t_shape tin) 0 -> read k = load mi (t_data tin + addr (t_stride tin) (set_at axis k c))) ->
     body read (nth axis (t_shape tin) 0) = Some (val c)) ->
  (forall c, valid (set_at axis 1 (t_shape tin)) c -> allocated m (t_data tout + addr (t_stride tout) c)) ->
  (forall c c', valid (set_at axis 1 (t_shape tin)) c -> valid (set_at axis 1 (t_shape tin)) c' -> addr (t_stride tout) c = addr (t_stride tout) c' -> c = c') ->
  exists m', reduce_loops body axis tin tout mi m = Some m'
    /\ (forall c, valid (set_at axis 1 (t_shape tin)) c -> m' (t_data tout + addr (t_stride tout) c) = Some (val c))
    /\ (forall a, (forall c, valid (set_at axis 1 (t_shape tin)) c -> a <> t_data tout + addr (t_stride tout) c) -> m' a = m a).
Proof.
  intros Hr Li Lo Hax Hpos Hb Hal Hinj. unfold reduce_loops.
  set (sh := t_shape tin) in *. set (p := (4 - length sh)%nat).
  assert (E4 : map (fun n => if n =? 0 then 1 else n) (pad4 1 sh) = sh ++ repeat 1 p).
  { rewrite pad4_app by auto. apply nonzero_shape. intros d Hd. apply in_app_iff in Hd. destruct Hd as [Hd|Hd]; [auto|]. apply repeat_spec in Hd. lia. }
  rewrite E4. clear E4. assert (L4 : length (sh ++ repeat 1 p) = 4%nat) by (rewrite app_length, repeat_length; unfold p; lia).
  assert (D : exists s0 s1 s2 s3, sh ++ repeat 1 p = [s0; s1; s2; s3]).
  { destruct (sh ++ repeat 1 p) as [|s0 [|s1 [|s2 [|s3 [|]]]]]; try discriminate. eauto. }
  destruct D as (s0 & s1 & s2 & s3 & D).
  destruct (reduce_cover axis s0 s1 s2 s3 ltac:(lia)) as (R3 & C1 & C2). rewrite D. cbv zeta in *. rewrite R3.
  match type of C2 with forall c, _ -> exists q, valid ?o q /\ _ => set (outer := o) in * end.
  assert (En : nth axis [s0; s1; s2; s3] 0 = nth axis sh 0) by (rewrite <- D; apply app_nth1; lia).
  rewrite En.
  assert (Es : set_at axis 1 [s0; s1; s2; s3] = set_at axis 1 sh ++ repeat 1 p) by (rewrite <- D; apply set_at_app; lia).
  rewrite Es in *.
  assert (Ls : length (set_at axis 1 sh) = length sh) by apply set_at_length.
  assert (Ad : forall st c, length st = length sh -> length c = length sh -> addr (pad4 0 st) (c ++ repeat 0 p) = addr st c).
  { intros st c L1 L2. rewrite pad4_app by lia. unfold p. rewrite L1. apply PermuteProofs.addr_pad. lia. }
  edestruct (foldM_store (fun q => t_data tout + addr (t_stride tout) (firstn (length sh) (reduce_pos axis q 0)))
    (fun q => val (firstn (length sh) (reduce_pos axis q 0)))) as (m' & E & V & F).
  4: { exists m'. split; [exact E|]. split.
    - intros c Hc. destruct (C2 (c ++ repeat 0 p)) as (q & Hq & Eq); [apply valid_pad; eauto|]. specialize (V q ltac:(now apply in_coords)).
      rewrite Eq in V. rewrite firstn_app, (valid_length _ _ Hc), Ls, Nat.sub_diag, firstn_all2, firstn_O, app_nil_r in V by (rewrite (valid_length _ _ Hc); lia). exact V.
    - intros a Ha. apply F. intros q Hq. apply in_coords in Hq. destruct (C1 q Hq) as [V1 _]. apply valid_pad in V1. destruct V1 as (c & -> & Vc).
      rewrite firstn_app, (valid_length _ _ Vc), Ls, Nat.sub_diag, firstn_all2, firstn_O, app_nil_r by (rewrite (valid_length _ _ Vc); lia). apply not_eq_sym. now apply Ha. }
  - intros q m' Hq. apply in_coords in Hq. destruct (C1 q Hq) as [V1 Rk]. apply valid_pad in V1. destruct V1 as (c & Ec & Vc).
    pose proof (valid_length _ _ Vc) as Lc. rewrite Ls in Lc.
    assert (Ef : firstn (length sh) (reduce_pos axis q 0) = c).
    { rewrite Ec, firstn_app, Lc, Nat.sub_diag, firstn_all2, firstn_O, app_nil_r by lia. reflexivity. }
    rewrite Ef. rewrite (Hb c).
    + cbn [bind]. rewrite Ec, Ad by auto. reflexivity.
    + exact Vc.
    + intros k Hk. cbv beta. rewrite Rk, Ec, set_at_app by lia. rewrite Ad by (auto; rewrite set_at_length; auto). reflexivity.
  - intros q Hq. apply in_coords in Hq. destruct (C1 q Hq) as [V1 _]. apply valid_pad in V1. destruct V1 as (c & -> & Vc).
    rewrite firstn_app, (valid_length _ _ Vc), Ls, Nat.sub_diag, firstn_all2, firstn_O, app_nil_r by (rewrite (valid_length _ _ Vc); lia). now apply Hal.
  - intros q q' Hq Hq' Eq. apply in_coords in Hq, Hq'. destruct (C1 q Hq) as [V1 _]. apply valid_pad in V1. destruct V1 as (c & Ec & Vc).
    destruct (C1 q' Hq') as [V2 _]. apply valid_pad in V2. destruct V2 as (c' & Ec' & Vc').
    assert (X : forall c, valid (set_at axis 1 sh) c -> firstn (length sh) (c ++ repeat 0 p) = c).
    { intros x Vx. rewrite firstn_app, (valid_length _ _ Vx), Ls, Nat.sub_diag, firstn_all2, firstn_O, app_nil_r by (rewrite (valid_length _ _ Vx); lia). reflexivity. }
    rewrite Ec, Ec' in *. rewrite !X in * by auto. f_equal. apply Hinj; auto. lia.
Qed.

Lemma max_body_correct read X n : 1 <= n -> (forall k, 0 <= k < n -> read k = Some (X k)) ->
  exists v, max_body read n = Some v /\ (forall k, 0 <= k < n -> X k <= v) /\ exists k, 0 <= k < n /\ X k = v.
Proof.
  intros Hn H. unfold max_body. rewrite H by lia. cbn [bind].
  assert (G : forall m, 0 <= m <= n -> exists v, foldM (fun k acc => do x <- read k; Some (max_fx acc x)) (zrange 0 m) (X 0) = Some v
    /\ (forall k, 0 <= k < m -> X k <= v) /\ exists k, 0 <= k < n /\ X k = v).
  { intros m Hm. assert (Hp : 0 <= m) by lia. revert Hm. pattern m. apply natlike_ind; [| |exact Hp]; clear m Hp.
    - intros _. exists (X 0). split; [reflexivity|]. split; [lia|]. exists 0. split; [lia|reflexivity].
    - intros x Hx IH Hs. destruct IH as (v & E & Ub & k & Hk & Ek); [lia|]. exists (Z.max v (X x)). unfold Z.succ. rewrite (zrange_split 0 x (x + 1)) by lia.
      rewrite foldM_app, E. cbn [bind]. rewrite zrange_cons, zrange_nil by lia. cbn [foldM bind]. rewrite H by lia. cbn [bind]. split.
      + rewrite LutProofs.max_fx_max. reflexivity.
      + split. * intros j Hj. destruct (Z.eq_dec j x) as [->|]; [lia|]. specialize (Ub j ltac:(lia)). lia.
        * destruct (Z_le_gt_dec v (X x)); [exists x; split; lia|exists k; split; lia]. }
  apply G. lia.
Qed.

Lemma wrap_wrap a b t : 1 <= a <= b -> wrap a (wrap b t) = wrap a t.
Proof.
  intros H. unfold wrap. rewrite (Z.mod_eq (t + 2 ^ (b - 1)) (2 ^ b)) by (apply Z.pow_nonzero; lia).
  replace (2 ^ b) with (2 ^ a * 2 ^ (b - a)) at 1 by (rewrite <- Z.pow_add_r by lia; f_equal; lia).
  set (q := (t + 2 ^ (b - 1)) / 2 ^ b). f_equal.
  replace (t + 2 ^ (b - 1) - 2 ^ a * 2 ^ (b - a) * q - 2 ^ (b - 1) + 2 ^ (a - 1)) with (t + 2 ^ (a - 1) + (- 2 ^ (b - a) * q) * 2 ^ a) by ring.
  apply Z.mod_add. apply Z.pow_nonzero; lia.
Qed.

Lemma sum_body_correct nb read X n : 1 <= nb <= 64 -> 0 <= n -> (forall k, 0 <= k < n -> read k = Some (X k)) ->
  sum_body nb read n = Some (wrap nb (zsum 0 n X)).
Proof.
  intros Hb Hn H. unfold sum_body.
  assert (G : forall m, 0 <= m <= n -> foldM (fun k acc => do x <- read k; Some (wrap nb (wrap 64 (acc + x)))) (zrange 0 m) 0 = Some (wrap nb (zsum 0 m X))).
  { intros m Hm. assert (Hp : 0 <= m) by lia. revert Hm. pattern m. apply natlike_ind; [| |exact Hp]; clear m Hp.
    - intros _. cbn. rewrite wrap_id; [reflexivity|lia|]. split; unfold smin, smax; pose proof (pow2_gt0 (nb - 1) ltac:(lia)); lia.
    - intros x Hx IH Hs. unfold Z.succ. rewrite zsum_snoc by lia. rewrite (zrange_split 0 x (x + 1)) by lia. rewrite foldM_app, IH by lia. cbn [bind].
      rewrite zrange_cons, zrange_nil by lia. cbn [foldM bind]. rewrite H by lia. cbn [bind]. f_equal.
      rewrite <- (wrap_add_mod nb (zsum 0 x X)) by lia. generalize (wrap nb (zsum 0 x X) + X x). intros t.
      apply wrap_wrap; lia. }
  apply G. lia.
Qed.

(** The elements of the slice through [c]. *)
Definition slice_val (mi : mem) (t : tensor) (axis : nat) (c : list Z) (k : Z) : Z := rd mi (t_data t + addr (t_stride t) (set_at axis k c)).

Lemma slice_alloc mi tin axis c k : (axis < length (t_shape tin))%nat ->
  (forall c, valid (t_shape tin) c -> allocated mi (t_data tin + addr (t_stride tin) c)) ->
  valid (set_at axis 1 (t_shape tin)) c -> 0 <= k < nth axis (t_shape tin) 0 ->
  load mi (t_data tin + addr (t_stride tin) (set_at axis k c)) = Some (slice_val mi tin axis c k).
Proof.
  intros Ha H V Hk. unfold slice_val. apply rd_load. apply H. clear H. revert axis c Ha V Hk. generalize (t_shape tin) as sh. induction sh as [|d sh IH]; intros [|a] [|i c] Ha V Hk;
    cbn [set_at valid nth length] in *; try lia; try tauto. split; [tauto|]. apply IH; try tauto; lia.
Qed.

(** C46, maximum. The output has the input's shape with the size 1 on the axis; its element at each coordinate is the largest
    element of the slice. *)
Theorem reduce_max_correct axis tin tout mi m :
  (length (t_shape tin) <= 4)%nat -> length (t_stride tin) = length (t_shape tin) -> length (t_stride tout) = length (t_shape tin) ->
  (axis < length (t_shape tin))%nat -> (forall d, In d (t_shape tin) -> 1 <= d) ->
  (forall c, valid (t_shape tin) c -> allocated mi (t_data tin + addr (t_stride tin) c)) ->
  (forall c, valid (set_at axis 1 (t_shape tin)) c -> allocated m (t_data tout + addr (t_stride tout) c)) ->
  (forall c c', valid (set_at axis 1 (t_shape tin)) c -> valid (set_at axis 1 (t_shape tin)) c' -> addr (t_stride tout) c = addr (t_stride tout) c' -> c = c') ->
  exists m', reduce_max axis tin tout mi m = Some m'
    /\ (forall c, valid (set_at axis 1 (t_shape tin)) c ->
         exists v, m' (t_data tout + addr (t_stride tout) c) = Some v
           /\ (forall k, 0 <= k < nth axis (t_shape tin) 0 -> slice_val mi tin axis c k <= v)
           /\ exists k, 0 <= k < nth axis (t_shape tin) 0 /\ slice_val mi tin axis c k = v)
    /\ (forall a, (forall c, valid (set_at axis 1 (t_shape tin)) c -> a <> t_data tout + addr (t_stride tout) c) -> m' a = m a).
Proof.
  intros Hr Li Lo Hax Hpos Hal Hal' Hinj. unfold reduce_max.
  assert (Hn : 1 <= nth axis (t_shape tin) 0) by (apply Hpos, nth_In; auto).
  set (val := fun c => match max_body (fun k => Some (slice_val mi tin axis c k)) (nth axis (t_shape tin) 0) with Some v => v | None => 0 end).
  assert (Hv : forall c read, (forall k, 0 <= k < nth axis (t_shape tin) 0 -> read k = Some (slice_val mi tin axis c k)) ->
    max_body read (nth axis (t_shape tin) 0) = Some (val c) /\ (forall k, 0 <= k < nth axis (t_shape tin) 0 -> slice_val mi tin axis c k <= val c)
    /\ exists k, 0 <= k < nth axis (t_shape tin) 0 /\ slice_val mi tin axis c k = val c).
  { intros c read H. destruct (max_body_correct read _ _ Hn H) as (v & E & U & k & Hk & Ek).
    destruct (max_body_correct (fun k => Some (slice_val mi tin axis c k)) (slice_val mi tin axis c) _ Hn ltac:(reflexivity)) as (v' & E' & U' & k' & Hk' & Ek').
    assert (Ev : v = v') by (specialize (U k' Hk'); specialize (U' k Hk); lia). unfold val. rewrite E', <- Ev. split; [exact E|]. split; [exact U|]. eauto. }
  destruct (reduce_loops_correct max_body val axis tin tout mi m) as (m' & E & V & F); auto.
  - intros c read Vc H. apply Hv. intros k Hk. rewrite H by auto. now apply slice_alloc.
  - exists m'. split; [exact E|]. split; [|exact F]. intros c Vc. exists (val c). split; [now apply V|].
    apply (Hv c (fun k => Some (slice_val mi tin axis c k))). reflexivity.
Qed.

(** C46, sum: exact if the sum of the slice fits the element type, and modulo 2^bits in any case. *)
Theorem reduce_sum_correct nb axis tin tout mi m :
  1 <= nb <= 64 -> (length (t_shape tin) <= 4)%nat -> length (t_stride tin) = length (t_shape tin) -> length (t_stride tout) = length (t_shape tin) ->
  (axis < length (t_shape tin))%nat -> (forall d, In d (t_shape tin) -> 1 <= d) ->
  (forall c, valid (t_shape tin) c -> allocated mi (t_data tin + addr (t_stride tin) c)) ->
  (forall c, valid (set_at axis 1 (t_shape tin)) c -> allocated m (t_data tout + addr (t_stride tout) c)) ->
  (forall c c', valid (set_at axis 1 (t_shape tin)) c -> valid (set_at axis 1 (t_shape tin)) c' -> addr (t_stride tout) c = addr (t_stride tout) c' -> c = c') ->
  exists m', reduce_sum nb axis tin tout mi m = Some m'
    /\ (forall c, valid (set_at axis 1 (t_shape tin)) c ->
         exists v, m' (t_data tout + addr (t_stride tout) c) = Some v /\ in_bits nb v
           /\ (exists z, v = zsum 0 (nth axis (t_shape tin) 0) (slice_val mi tin axis c) + z * 2 ^ nb)
           /\ (in_bits nb (zsum 0 (nth axis (t_shape tin) 0) (slice_val mi tin axis c)) -> v = zsum 0 (nth axis (t_shape tin) 0) (slice_val mi tin axis c)))
    /\ (forall a, (forall c, valid (set_at axis 1 (t_shape tin)) c -> a <> t_data tout + addr (t_stride tout) c) -> m' a = m a).
Proof.
  intros Hb Hr Li Lo Hax Hpos Hal Hal' Hinj. unfold reduce_sum.
  assert (Hn : 1 <= nth axis (t_shape tin) 0) by (apply Hpos, nth_In; auto).
  destruct (reduce_loops_correct (sum_body nb) (fun c => wrap nb (zsum 0 (nth axis (t_shape tin) 0) (slice_val mi tin axis c))) axis tin tout mi m) as (m' & E & V & F); auto.
  - intros c read Vc H. apply sum_body_correct; [lia|lia|]. intros k Hk. rewrite H by auto. now apply slice_alloc.
  - exists m'. split; [exact E|]. split; [|exact F]. intros c Vc. eexists. split; [now apply V|]. set (z := zsum _ _ _).
    split; [apply wrap_in_bits; lia|]. split; [|intros; apply wrap_id; auto; lia].
    unfold wrap. exists (- ((z + 2 ^ (nb - 1)) / 2 ^ nb)). rewrite Z.mod_eq by (apply Z.pow_nonzero; lia). ring.
Qed.

(** The sum of two elements can wrap: 100 + 100 = -56 in 8 bits. *)
Theorem reduce_sum_refuted : exists tin tout mi m m', reduce_sum 8 0 tin tout mi m = Some m' /\ rd mi 0 = 100 /\ rd mi 1 = 100 /\ m' 0 = Some (-56).
Proof.
  exists (mkTensor 0 2 1 [2] [1] false (-1) 0), (mkTensor 0 1 1 [1] [1] false (-1) 0), (list_mem [100; 100]), (list_mem [0]). eexists.
  split; [reflexivity|]. repeat split.
Qed.

(** * Bilinear resizing (C47) *)

(** The weight of an input position for a sampling point at distance [a] (in units of 2^-s pixels). *)
Definition hat (s a : Z) : Z := Z.max 0 (2 ^ s - Z.abs a).
(** The sampling point of output position [h], limited to the input. *)
Definition sample (stride offset s n h : Z) : Z := Z.max 0 (Z.min (h * stride + offset) ((n - 1) * 2 ^ s)).
(** The bilinear interpolation: weights of all input positions, with the scale 2^(2s). *)
Definition bilinear (s H W p q : Z) (X : Z -> Z -> Z) : Z := zsum 0 H (fun i => zsum 0 W (fun j => X i j * hat s (p - i * 2 ^ s) * hat s (q - j * 2 ^ s))).

Lemma zsum_zero lo hi f : (forall i, lo <= i < hi -> f i = 0) -> zsum lo hi f = 0.
Proof. intros H. rewrite (zsum_ext lo hi f (fun i => 0 * f i)) by (intros; rewrite H by auto; lia). rewrite zsum_mul_l. lia. Qed.

Lemma zsum_one lo hi f a : lo <= a < hi -> (forall i, lo <= i < hi -> i <> a -> f i = 0) -> zsum lo hi f = f a.
Proof.
  intros Ha H. rewrite (zsum_split lo a hi), (zsum_cons a hi) by lia. rewrite !zsum_zero by (intros; apply H; lia). lia.
Qed.

Lemma zsum_two lo hi f a : lo <= a < hi - 1 -> (forall i, lo <= i < hi -> i <> a -> i <> a + 1 -> f i = 0) -> zsum lo hi f = f a + f (a + 1).
Proof.
  intros Ha H. rewrite (zsum_split lo a hi), (zsum_cons a hi), (zsum_cons (a + 1) hi) by lia. rewrite !zsum_zero by (intros; apply H; lia). lia.
Qed.

Lemma int32_ok x : in_bits 32 x -> int32 x = Some x.
Proof. intros [A B]. unfold int32. destruct (Z.leb_spec (smin 32) x); [|lia]. destruct (Z.leb_spec x (smax 32)); [reflexivity|lia]. Qed.

(** One dimension: the two positions with their weights are the interpolation. *)
Lemma resize_pos_correct stride offset s n h : 1 <= s <= 12 -> 1 <= n -> in_bits 32 (h * stride) -> in_bits 32 (h * stride + offset) -> - 2 ^ s <= h * stride + offset ->
  exists r0 r1 d, resize_pos stride offset s n h = Some (r0, r1, d) /\ 0 <= r0 < n /\ 0 <= r1 < n /\ 0 <= d < 2 ^ s
    /\ forall f, zsum 0 n (fun i => f i * hat s (sample stride offset s n h - i * 2 ^ s)) = f r0 * (2 ^ s - d) + f r1 * d.
Proof.
  intros Hs Hn B1 B2 Hlow. unfold resize_pos, sample. rewrite (int32_ok (h * stride)) by auto. cbn [bind]. rewrite (int32_ok (h * stride + offset)) by auto. cbn [bind]. set (x := h * stride + offset) in *.
  assert (W : 2 <= 2 ^ s <= 4096) by (split; [change 2 with (2 ^ 1) at 1; apply pow2_le; lia|change 4096 with (2 ^ 12); apply pow2_le; lia]).
  rewrite Z.shiftr_div_pow2 by lia. unfold hat. set (w := 2 ^ s) in *. clearbody w x.
  pose proof (Z.div_mod x w ltac:(lia)) as DM. pose proof (Z.mod_pos_bound x w ltac:(lia)) as MB. set (r := x / w) in *. set (d := x mod w) in *. clearbody r d.
  rewrite ib32 in B2. assert (Hr : -1 <= r <= 2147483647) by nia.
  rewrite (int32_ok (r * w)) by (apply ib32; nia). cbn [bind]. rewrite (int32_ok (x - r * w)) by (apply ib32; nia). cbn [bind].
  rewrite (int32_ok (r + 1)) by (apply ib32; nia). cbn [bind]. replace (x - r * w) with d by lia.
  eexists _, _, d. split; [reflexivity|].
  destruct (Z_lt_le_dec r 0) as [R0|R0]; [|destruct (Z_lt_le_dec r (n - 1)) as [R1|R1]].
  - assert (r = -1) by lia. subst r. replace (Z.min (Z.max (-1) 0) (n - 1)) with 0 by lia. replace (Z.min (-1 + 1) (n - 1)) with 0 by lia.
    split; [lia|]. split; [lia|]. split; [lia|]. intros f. replace (Z.max 0 (Z.min x ((n - 1) * w))) with 0 by nia.
    rewrite (zsum_one 0 n _ 0) by (lia || (intros i Hi Hne; replace (Z.max 0 (w - Z.abs (0 - i * w))) with 0 by nia; lia)).
    replace (Z.max 0 (w - Z.abs (0 - 0 * w))) with w by lia. ring.
  - replace (Z.min (Z.max r 0) (n - 1)) with r by lia. replace (Z.min (r + 1) (n - 1)) with (r + 1) by lia.
    split; [lia|]. split; [lia|]. split; [lia|]. intros f. assert (Hx : x <= (n - 1) * w) by nia. replace (Z.max 0 (Z.min x ((n - 1) * w))) with x by nia.
    rewrite (zsum_two 0 n _ r) by (lia || (intros i Hi Hne Hne'; replace (Z.max 0 (w - Z.abs (x - i * w))) with 0 by nia; lia)).
    replace (Z.max 0 (w - Z.abs (x - r * w))) with (w - d) by lia. replace (Z.max 0 (w - Z.abs (x - (r + 1) * w))) with d by lia. ring.
  - replace (Z.min (Z.max r 0) (n - 1)) with (n - 1) by lia. replace (Z.min (r + 1) (n - 1)) with (n - 1) by lia.
    split; [lia|]. split; [lia|]. split; [lia|]. intros f. assert (Hx : (n - 1) * w <= x) by nia. replace (Z.max 0 (Z.min x ((n - 1) * w))) with ((n - 1) * w) by nia.
    rewrite (zsum_one 0 n _ (n - 1)) by (lia || (intros i Hi Hne; replace (Z.max 0 (w - Z.abs ((n - 1) * w - i * w))) with 0 by nia; lia)).
    replace (Z.max 0 (w - Z.abs ((n - 1) * w - (n - 1) * w))) with w by lia. ring.
Qed.

Lemma mul3_ok a b c : -128 <= a <= 127 -> 0 <= b <= 4096 -> 0 <= c <= 4096 -> mul3 a b c = Some (a * (b * c)) /\ -128 * (b * c) <= a * (b * c) <= 127 * (b * c) /\ 0 <= b * c.
Proof.
  intros Ha Hb Hc. assert (0 <= b * c <= 16777216) by nia. assert (-128 * (b * c) <= a * (b * c) <= 127 * (b * c)) by nia. unfold mul3.
  rewrite (int32_ok (a * b)) by (apply ib32; nia). cbn [bind]. replace (a * b * c) with (a * (b * c)) by ring. rewrite int32_ok by (apply ib32; lia). split; [reflexivity|lia].
Qed.

Lemma resize_mix_ok one dr dc v00 v01 v10 v11 : 2 <= one <= 4096 -> 0 <= dr < one -> 0 <= dc < one ->
  in_bits 8 v00 -> in_bits 8 v01 -> in_bits 8 v10 -> in_bits 8 v11 ->
  resize_mix one dr dc v00 v01 v10 v11 = Some ((v00 * (one - dr) + v10 * dr) * (one - dc) + (v01 * (one - dr) + v11 * dr) * dc).
Proof.
  intros Ho Hr Hc B0 B1 B2 B3. rewrite ib8 in *. unfold resize_mix.
  destruct (mul3_ok v00 (one - dr) (one - dc)) as (-> & A1 & A1'); try lia. destruct (mul3_ok v01 (one - dr) dc) as (-> & A2 & A2'); try lia.
  destruct (mul3_ok v10 dr (one - dc)) as (-> & A3 & A3'); try lia. destruct (mul3_ok v11 dr dc) as (-> & A4 & A4'); try lia.
  assert (S : (one - dr) * (one - dc) + (one - dr) * dc + dr * (one - dc) + dr * dc = one * one) by ring. assert (one * one <= 16777216) by nia.
  cbn [bind].
  set (w0 := (one - dr) * (one - dc)) in *. set (w1 := (one - dr) * dc) in *. set (w2 := dr * (one - dc)) in *. set (w3 := dr * dc) in *.
  rewrite int32_ok by (apply ib32; lia). cbn [bind]. rewrite int32_ok by (apply ib32; lia). cbn [bind]. rewrite int32_ok by (apply ib32; lia).
  f_equal. unfold w0, w1, w2, w3. ring.
Qed.

(** C47. Every sampling point is at most one pixel before the input ([- 2^shift]) and its computation does not overflow. *)
Theorem resize_bilinear_correct cfg tin tout mi m B H W C OH OW :
  let s := rz_shift cfg in
  1 <= s <= 12 -> t_shape tin = [B; H; W; C] -> t_shape tout = [B; OH; OW; C] -> 1 <= H -> 1 <= W ->
  (forall h, 0 <= h < OH -> in_bits 32 (h * rz_stride_h cfg) /\ in_bits 32 (h * rz_stride_h cfg + rz_offset_h cfg) /\ - 2 ^ s <= h * rz_stride_h cfg + rz_offset_h cfg) ->
  (forall w, 0 <= w < OW -> in_bits 32 (w * rz_stride_w cfg) /\ in_bits 32 (w * rz_stride_w cfg + rz_offset_w cfg) /\ - 2 ^ s <= w * rz_stride_w cfg + rz_offset_w cfg) ->
  mem_bits 8 mi -> (forall c, valid (t_shape tin) c -> allocated mi (t_data tin + addr (t_stride tin) c)) ->
  (forall c, valid (t_shape tout) c -> allocated m (t_data tout + addr (t_stride tout) c)) ->
  (forall c c', valid (t_shape tout) c -> valid (t_shape tout) c' -> addr (t_stride tout) c = addr (t_stride tout) c' -> c = c') ->
  exists m', resize_bilinear cfg tin tout mi m = Some m'
    /\ (forall b h w c, valid (t_shape tout) [b; h; w; c] ->
         m' (t_data tout + addr (t_stride tout) [b; h; w; c]) =
           Some (bilinear s H W (sample (rz_stride_h cfg) (rz_offset_h cfg) s H h) (sample (rz_stride_w cfg) (rz_offset_w cfg) s W w)
                   (fun i j => rd mi (t_data tin + addr (t_stride tin) [b; i; j; c]))))
    /\ (forall a, (forall c, valid (t_shape tout) c -> a <> t_data tout + addr (t_stride tout) c) -> m' a = m a).
Proof.
  intros s Hs Si So HH HW Hh Hw Hmi Hal Hal' Hinj. unfold resize_bilinear. fold s. rewrite Si. cbn [nth].
  edestruct (foldM_store (fun c => t_data tout + addr (t_stride tout) c)
    (fun c4 => bilinear s H W (sample (rz_stride_h cfg) (rz_offset_h cfg) s H (nth 1 c4 0)) (sample (rz_stride_w cfg) (rz_offset_w cfg) s W (nth 2 c4 0))
                   (fun i j => rd mi (t_data tin + addr (t_stride tin) [nth 0 c4 0; i; j; nth 3 c4 0])))) as (m' & E & V & F).
  4: { exists m'. split; [exact E|]. split.
    - intros b h w c Hc. apply (V [b; h; w; c]). now apply in_coords.
    - intros a Ha. apply F. intros c Hc. apply in_coords in Hc. intros X. apply (Ha c Hc). auto. }
  - intros c4 m' Hc. apply in_coords in Hc. rewrite So in Hc. destruct c4 as [|b [|h [|w [|c [|]]]]]; cbn [valid] in Hc; try tauto. cbn [nth].
    destruct (Hh h ltac:(tauto)) as (P1 & P2 & P3). destruct (resize_pos_correct _ _ s H h Hs HH P1 P2 P3) as (r0 & r1 & dr & -> & I0 & I1 & Dr & Sr). cbn [bind].
    destruct (Hw w ltac:(tauto)) as (Q1 & Q2 & Q3). destruct (resize_pos_correct _ _ s W w Hs HW Q1 Q2 Q3) as (c0 & c1 & dc & -> & J0 & J1 & Dc & Sc). cbn [bind].
    assert (Va : forall i j, 0 <= i < H -> 0 <= j < W -> allocated mi (t_data tin + addr (t_stride tin) [b; i; j; c])) by (intros i j Hi Hj; apply Hal; rewrite Si; cbn [valid]; tauto).
    rewrite !rd_load by (apply Va; auto). cbn [bind]. rewrite resize_mix_ok.
    + cbn [bind]. f_equal. unfold bilinear. symmetry.
      rewrite (zsum_ext 0 H _ (fun i => (rd mi (t_data tin + addr (t_stride tin) [b; i; c0; c]) * (2 ^ s - dc) + rd mi (t_data tin + addr (t_stride tin) [b; i; c1; c]) * dc)
        * hat s (sample (rz_stride_h cfg) (rz_offset_h cfg) s H h - i * 2 ^ s))).
      * rewrite (Sr (fun i => rd mi (t_data tin + addr (t_stride tin) [b; i; c0; c]) * (2 ^ s - dc) + rd mi (t_data tin + addr (t_stride tin) [b; i; c1; c]) * dc)). ring.
      * intros i Hi. rewrite <- (Sc (fun j => rd mi (t_data tin + addr (t_stride tin) [b; i; j; c]))). rewrite <- zsum_mul_r. apply zsum_ext. intros j Hj. ring.
    + split; [change 2 with (2 ^ 1) at 1; apply pow2_le; lia|change 4096 with (2 ^ 12); apply pow2_le; lia].
    + auto. + auto.
    + apply rd_bits; auto; lia. + apply rd_bits; auto; lia. + apply rd_bits; auto; lia. + apply rd_bits; auto; lia.
  - intros c Hc. apply in_coords in Hc. now apply Hal'.
  - intros c c' Hc Hc' E. apply in_coords in Hc, Hc'. rewrite (Hinj c c'); auto. lia.
Qed.

(** The weights of a dimension add up to 2^s. *)
Lemma hat_sum s n p : 0 <= s -> 1 <= n -> 0 <= p <= (n - 1) * 2 ^ s -> zsum 0 n (fun i => hat s (p - i * 2 ^ s)) = 2 ^ s.
Proof.
  intros Hs Hn Hp. unfold hat. pose proof (pow2_gt0 s Hs). set (w := 2 ^ s) in *. clearbody w.
  pose proof (Z.div_mod p w ltac:(lia)) as DM. pose proof (Z.mod_pos_bound p w ltac:(lia)) as MB. set (r := p / w) in *. set (d := p mod w) in *. clearbody r d.
  assert (0 <= r <= n - 1) by nia. destruct (Z.eq_dec r (n - 1)) as [->|].
  - assert (d = 0) by nia. rewrite (zsum_one 0 n _ (n - 1)) by (lia || (intros i Hi Hne; nia)). nia.
  - rewrite (zsum_two 0 n _ r) by (lia || (intros i Hi Hne Hne'; nia)).
    replace (Z.max 0 (w - Z.abs (p - r * w))) with (w - d) by lia. replace (Z.max 0 (w - Z.abs (p - (r + 1) * w))) with d by lia. lia.
Qed.

Lemma zsum_mono lo hi f g : (forall i, lo <= i < hi -> f i <= g i) -> zsum lo hi f <= zsum lo hi g.
Proof.
  intros H. unfold zsum. assert (G : forall l, (forall i, In i l -> f i <= g i) -> fold_right Z.add 0 (map f l) <= fold_right Z.add 0 (map g l)).
  { induction l as [|x l IH]; intros A; cbn [map fold_right]; [lia|]. pose proof (A x ltac:(now left)). specialize (IH ltac:(intros; apply A; now right)). lia. }
  apply G. intros i Hi. apply H. now apply in_zrange.
Qed.

(** C47: the interpolated value, divided by 2^(2s), lies between bounds of the input, and is exact for a constant input. *)
Theorem bilinear_between s H W p q X lo hi : 0 <= s -> 1 <= H -> 1 <= W -> 0 <= p <= (H - 1) * 2 ^ s -> 0 <= q <= (W - 1) * 2 ^ s ->
  (forall i j, 0 <= i < H -> 0 <= j < W -> lo <= X i j <= hi) ->
  lo * 2 ^ (2 * s) <= bilinear s H W p q X <= hi * 2 ^ (2 * s).
Proof.
  intros Hs HH HW Hp Hq HX. unfold bilinear. replace (2 ^ (2 * s)) with (2 ^ s * 2 ^ s) by (rewrite <- Z.pow_add_r by lia; f_equal; lia).
  assert (P : forall a, 0 <= hat s a) by (unfold hat; lia).
  assert (E : forall v, v * (2 ^ s * 2 ^ s) = zsum 0 H (fun i => zsum 0 W (fun j => v * hat s (p - i * 2 ^ s) * hat s (q - j * 2 ^ s)))).
  { intros v. transitivity (v * 2 ^ s * zsum 0 H (fun i => hat s (p - i * 2 ^ s))); [rewrite hat_sum by auto; ring|]. rewrite <- zsum_mul_l. apply zsum_ext. intros i Hi.
    rewrite zsum_mul_l, hat_sum by auto. ring. }
  rewrite !E. split; apply zsum_mono; intros i Hi; apply zsum_mono; intros j Hj; destruct (HX i j Hi Hj); pose proof (P (p - i * 2 ^ s)); pose proof (P (q - j * 2 ^ s));
    apply Z.mul_le_mono_nonneg_r; auto; apply Z.mul_le_mono_nonneg_r; auto.
Qed.

(** The sampling points are always inside the input. *)
Lemma sample_inside stride offset s n h : 0 <= s -> 1 <= n -> 0 <= sample stride offset s n h <= (n - 1) * 2 ^ s.
Proof. intros. unfold sample. pose proof (pow2_gt0 s ltac:(lia)). nia. Qed.

(** The documented range of offsets is up to 16 pixels. A sampling point two pixels before the input makes the kernel read before
    the input: the second position is only limited from above. *)
Theorem resize_offset_refuted : exists cfg tin tout mi m, rz_shift cfg = 1 /\ rz_offset_h cfg = -4 /\ rz_offset_w cfg = 0
  /\ (forall a, 0 <= a < 2 -> allocated mi a) /\ allocated m 0 /\ resize_bilinear cfg tin tout mi m = None.
Proof.
  exists (mkResize 2 2 (-4) 0 1), (mkTensor 0 2 1 [1; 2; 1; 1] [2; 1; 1; 1] false (-1) 0), (mkTensor 0 4 4 [1; 1; 1; 1] [1; 1; 1; 1] false (-1) 0), (list_mem [10; 20]), (list_mem [0]).
  split; [reflexivity|]. split; [reflexivity|]. split; [reflexivity|]. split; [|split; [discriminate|vm_compute; reflexivity]].
  intros a Ha. assert (a = 0 \/ a = 1) as [-> | ->] by lia; discriminate.
Qed.

(** * Matrix multiplication (C48) *)

(** C48. The inner strides of the operands are 1; the output is contiguous. The differences from the zero points fit in 8 bits and
    no partial sum overflows 32 bits. *)
Theorem matmul_correct zl zr tl tr tout ml mr m M K N sl sr :
  0 <= K -> t_shape tl = [M; K] -> t_shape tr = [K; N] -> t_shape tout = [M; N] -> t_stride tl = [sl; 1] -> t_stride tr = [sr; 1] -> t_stride tout = [N; 1] ->
  (forall c, valid (t_shape tl) c -> allocated ml (t_data tl + addr (t_stride tl) c) /\ in_bits 8 (rd ml (t_data tl + addr (t_stride tl) c) - zl)) ->
  (forall c, valid (t_shape tr) c -> allocated mr (t_data tr + addr (t_stride tr) c) /\ in_bits 8 (rd mr (t_data tr + addr (t_stride tr) c) - zr)) ->
  (forall c, valid (t_shape tout) c -> allocated m (t_data tout + addr (t_stride tout) c)) ->
  let A i k := rd ml (t_data tl + addr (t_stride tl) [i; k]) - zl in
  let B k j := rd mr (t_data tr + addr (t_stride tr) [k; j]) - zr in
  (forall i j k, 0 <= i < M -> 0 <= j < N -> 0 <= k <= K -> in_bits 32 (zsum 0 k (fun x => A i x * B x j))) ->
  exists m', matmul zl zr tl tr tout ml mr m = Some m'
    /\ (forall i j, 0 <= i < M -> 0 <= j < N -> m' (t_data tout + addr (t_stride tout) [i; j]) = Some (zsum 0 K (fun k => A i k * B k j)))
    /\ (forall a, (forall c, valid (t_shape tout) c -> a <> t_data tout + addr (t_stride tout) c) -> m' a = m a).
Proof.
  intros HK S1 S2 S3 D1 D2 D3 Hl Hr Ho A B Hs. unfold matmul. rewrite S1, S2, S3, D1, D2, D3 in *. cbn [nth].
  edestruct (foldM_store (fun c => t_data tout + addr [N; 1] c) (fun c => zsum 0 K (fun k => A (nth 0 c 0) k * B k (nth 1 c 0)))) as (m' & E & V & F).
  4: { exists m'. split; [exact E|]. split.
    - intros i j Hi Hj. apply (V [i; j]). apply in_coords. cbn [valid]. tauto.
    - intros a Ha. apply F. intros c Hc. apply in_coords in Hc. intros X. apply (Ha c Hc). auto. }
  - intros c m' Hc. apply in_coords in Hc. destruct c as [|i [|j [|]]]; cbn [valid] in Hc; try tauto. cbn [nth]. destruct Hc as (Hi & Hj & _).
    assert (G : forall x, 0 <= x -> x <= K -> foldM (fun k acc =>
        do x0 <- load ml (t_data tl + (i * sl + k)); do y <- load mr (t_data tr + (k * sr + j)); int32 (acc + wrap 8 (x0 - zl) * wrap 8 (y - zr))) (zrange 0 x) 0
        = Some (zsum 0 x (fun k => A i k * B k j))).
    { intros x Hx. pattern x. apply natlike_ind; [| |exact Hx]; clear x Hx; [reflexivity|]. intros x Hx IH Hk. unfold Z.succ in *.
      rewrite zsum_snoc by lia. rewrite (zrange_split 0 x (x + 1)) by lia. rewrite foldM_app, IH by lia. cbn [bind]. rewrite zrange_cons, zrange_nil by lia. cbn [foldM].
      destruct (Hl [i; x]) as [A1 A2]; [cbn [valid]; lia|]. destruct (Hr [x; j]) as [B1 B2]; [cbn [valid]; lia|].
      specialize (Hs i j (x + 1) Hi Hj ltac:(lia)). rewrite zsum_snoc in Hs by lia.
      assert (EA : rd ml (t_data tl + (i * sl + x)) - zl = A i x) by (unfold A; rewrite D1; cbn [addr]; do 3 f_equal; lia).
      assert (EB : rd mr (t_data tr + (x * sr + j)) - zr = B x j) by (unfold B; rewrite D2; cbn [addr]; do 3 f_equal; lia).
      replace (addr [sl; 1] [i; x]) with (i * sl + x) in * by (cbn [addr]; lia). replace (addr [sr; 1] [x; j]) with (x * sr + j) in * by (cbn [addr]; lia).
      rewrite (rd_load ml), (rd_load mr) by auto. cbn [bind]. rewrite (wrap_id 8), (wrap_id 8), EA, EB by (auto; lia). rewrite int32_ok by exact Hs. reflexivity. }
    rewrite G by lia. cbn [bind addr]. f_equal. lia.
  - intros c Hc. apply in_coords in Hc. apply Ho. exact Hc.
  - intros c c' Hc Hc' E. apply in_coords in Hc, Hc'. destruct c as [|i [|j [|]]]; cbn [valid] in Hc; try tauto. destruct c' as [|i' [|j' [|]]]; cbn [valid] in Hc'; try tauto.
    cbn [addr] in E. assert (i = i') by nia. subst. assert (j = j') by lia. now subst.
Qed.

(** The 8-bit difference wraps: (100 - (-100)) * 1 is computed as -56. Outputs with a row stride are written at the wrong places: the
    second row of an output with row stride 2 goes to the second cell. *)
Theorem matmul_refuted :
  (exists tl tr tout ml mr m m', matmul (-100) 0 tl tr tout ml mr m = Some m' /\ rd ml 0 = 100 /\ rd mr 0 = 1 /\ m' 0 = Some (-56))
  /\ (exists tl tr tout ml mr m m', matmul 0 0 tl tr tout ml mr m = Some m' /\ t_stride tout = [2; 1] /\ rd ml 1 = 5 /\ rd mr 0 = 1 /\ m' (t_data tout + addr (t_stride tout) [1; 0]) = Some 0 /\ m' 1 = Some 5).
Proof.
  split.
  - exists (mkTensor 0 1 1 [1; 1] [1; 1] false (-1) 0), (mkTensor 0 1 1 [1; 1] [1; 1] false (-1) 0), (mkTensor 0 1 4 [1; 1] [1; 1] false (-1) 0), (list_mem [100]), (list_mem [1]), (list_mem [0]).
    eexists. split; [reflexivity|]. repeat split.
  - exists (mkTensor 0 2 1 [2; 1] [1; 1] false (-1) 0), (mkTensor 0 1 1 [1; 1] [1; 1] false (-1) 0), (mkTensor 0 4 4 [2; 1] [2; 1] false (-1) 0), (list_mem [3; 5]), (list_mem [1]), (list_mem [0; 0; 0; 0]).
    eexists. split; [reflexivity|]. repeat split.
Qed.

(** * Non-vacuity *)

Definition o3_t : tensor := mkTensor 0 6 1 [2; 3] [3; 1] false (-1) 0.
Definition o3_m : mem := list_mem [5; -7; 100; 20; -128; 127].
Definition o3_z : mem := list_mem [0; 0; 0; 0; 0; 0].
Definition o3_p : rescale_params := mkRescale (list_mem [1; 2; 3]) (list_mem [3; -5; 7]) (list_mem [1; 2; -1]) (list_mem [10; 20; 30]).

Lemma o3_cases c : valid [2; 3] c -> In c [[0; 0]; [0; 1]; [0; 2]; [1; 0]; [1; 1]; [1; 2]].
Proof. intros V. apply in_coords in V. exact V. Qed.

Example o3_hyps : rescale_params_ok 8 8 o3_p 3 /\ mem_bits 8 o3_m
  /\ (forall c, valid (t_shape o3_t) c -> allocated o3_m (t_data o3_t + addr (t_stride o3_t) c) /\ allocated o3_z (t_data o3_t + addr (t_stride o3_t) c))
  /\ (forall c c', valid (t_shape o3_t) c -> valid (t_shape o3_t) c' -> addr (t_stride o3_t) c = addr (t_stride o3_t) c' -> c = c').
Proof.
  split; [|split; [|split]].
  - split; [|split; [|split]; apply list_bits; reflexivity]. intros k Hk. assert (k = 0 \/ k = 1 \/ k = 2) as [-> | [-> | ->]] by lia; repeat split; discriminate.
  - apply list_bits; reflexivity.
  - intros c V. apply o3_cases in V. repeat (destruct V as [<- | V]; [split; discriminate|]). destruct V.
  - intros [|x [|y [|]]] [|x' [|y' [|]]] V V' E; unfold o3_t in *; cbn [valid t_shape t_stride addr] in V, V', E; try tauto. assert (x = x') by lia. assert (y = y') by lia. now subst.
Qed.

(** Rescaling along the last axis: (5 - 1) * 3 / 2 + 10 = 16, (-7 - 2) * -5 / 4 + 20 = 31.25, (100 - 3) * 7 * 2 + 30 is limited to 127. *)
Example rescale_run : (do m <- rescale RM_UP 8 8 o3_p 1 o3_t o3_t o3_m o3_z; Some (map (rd m) (zrange 0 6))) = Some [16; 31; 127; 39; 127; 127].
Proof. reflexivity. Qed.
Example clip_run : (do m <- clip (-10) 90 o3_t o3_t o3_m; Some (map (rd m) (zrange 0 6))) = Some [5; -7; 90; 20; -10; 90].
Proof. reflexivity. Qed.
(** Maximum over the first axis. *)
Example reduce_max_run : (do m <- reduce_max 0 o3_t (mkTensor 0 3 1 [1; 3] [3; 1] false (-1) 0) o3_m o3_z; Some (map (rd m) (zrange 0 6))) = Some [20; -7; 127; 0; 0; 0].
Proof. reflexivity. Qed.
(** Sum over the last axis. *)
Example reduce_sum_run : (do m <- reduce_sum 8 1 o3_t (mkTensor 0 2 1 [2; 1] [1; 1] false (-1) 0) o3_m o3_z; Some (map (rd m) (zrange 0 6))) = Some [98; 19; 0; 0; 0; 0].
Proof. reflexivity. Qed.
(** Doubling the width of a row with two pixels: sampling points at 0, 1/2, 1 and 3/2 (limited to 1); results have the scale 4. *)
Example resize_run : (do m <- resize_bilinear (mkResize 2 1 0 0 1) (mkTensor 0 2 1 [1; 1; 2; 1] [2; 2; 1; 1] false (-1) 0) (mkTensor 0 16 4 [1; 1; 4; 1] [4; 4; 1; 1] false (-1) 0) (list_mem [10; 20]) (list_mem [0; 0; 0; 0]);
  Some (map (rd m) (zrange 0 4))) = Some [40; 60; 80; 80].
Proof. reflexivity. Qed.
Example resize_hyps : forall w, 0 <= w < 4 -> in_bits 32 (w * 1) /\ in_bits 32 (w * 1 + 0) /\ - 2 ^ 1 <= w * 1 + 0.
Proof. intros w Hw. rewrite !ib32. change (2 ^ 1) with 2. lia. Qed.
(** [[1 2] [3 4]] times [[5 6] [7 8]], with the zero points 0 and 1. *)
Example matmul_run : (do m <- matmul 0 1 (mkTensor 0 4 1 [2; 2] [2; 1] false (-1) 0) (mkTensor 0 4 1 [2; 2] [2; 1] false (-1) 0) (mkTensor 0 16 4 [2; 2] [2; 1] false (-1) 0)
  (list_mem [1; 2; 3; 4]) (list_mem [6; 7; 8; 9]) (list_mem [0; 0; 0; 0]); Some (map (rd m) (zrange 0 4))) = Some [19; 22; 43; 50].
Proof. reflexivity. Qed.
