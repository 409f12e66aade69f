(** Proofs about the L2 normalization kernels. *)
From Coq Require Import ZArith QArith List Lia Bool Zdiv Reals Lra.
From Verif Require Import Base FxMath FxMathProofs Tensor TensorProofs ArgMax ArgMaxProofs MovProofs PermuteProofs Quant QuantProofs QSpec QuantCastProofs
  PoolKernels DotProdProofs ConvTheorems Eltwise EltwiseProofs EltwiseSa8Proofs Relu ReluProofs Lut LutProofs Softmax SoftmaxProofs L2 L2Table.
Import ListNotations.
Open Scope Z_scope.

(** * Specification *)

(** The closest value of a signed [n] bit number. *)
Definition clipR (n : Z) (t : R) : R := Rmax (IZR (- 2 ^ (n - 1))) (Rmin t (IZR (2 ^ (n - 1) - 1))).

(** [y], with [f] fractional bits and [n] bits, is [x] divided by the norm sqrt(S): half a unit in the last place for rounding and a
    relative error of 2^-12. Zero if the norm is zero. *)
Definition is_l2 (n f S x y : Z) : Prop :=
  if S =? 0 then y = 0 else
  let t := (IZR (2 ^ f * x) / sqrt (IZR S))%R in
  (Rabs (IZR y - clipR n t) <= / 2 + Rabs t / 4096)%R.

(** The sum of the squares of the elements [x c] of a slice. *)
Definition sum_squares (x : list Z -> Z) (sl : list (list Z)) : Z := lsum (map (fun c => x c * x c) sl).

(** * One element *)

Lemma scale_rnd_mono rm x y k : x <= y -> scale_rnd rm x k <= scale_rnd rm y k.
Proof.
  intros H. unfold scale_rnd. destruct (Z.leb_spec 0 k); [now apply rnd_mono|]. pose proof (pow2_gt0 (- k) ltac:(lia)). nia.
Qed.

Lemma rnd_zero rm k : 0 <= k -> rnd rm 0 k = 0.
Proof. intros Hk. pose proof (rnd_exact rm 0 k Hk) as R. now rewrite Z.mul_0_l in R. Qed.

Lemma acc_cast_n_exact rm n x k : n = 8 \/ n = 16 -> Z.abs x <= 2 ^ 30 - 1 -> acc_cast_n rm n x k = sat n (scale_rnd rm x k).
Proof.
  intros Hn Hx. assert (Bx : in_bits 32 x) by (rewrite ib32; lia). rewrite acc_cast_n_spec by auto.
  rewrite <- (cast_narrow_spec rm 32 n x k) by (auto; lia). apply cast_narrow_exact; [lia|lia|exact Bx|]. left. apply small_rnd_safe; lia.
Qed.

Lemma clipR_lip n a b : (Rabs (clipR n a - clipR n b) <= Rabs (a - b))%R.
Proof.
  unfold clipR. set (lo := IZR (- 2 ^ (n - 1))). set (hi := IZR (2 ^ (n - 1) - 1)). clearbody lo hi.
  unfold Rmax, Rmin. repeat destruct Rle_dec; unfold Rabs; repeat destruct Rcase_abs; lra.
Qed.

Lemma clipR_sat n z : IZR (sat n z) = clipR n (IZR z).
Proof.
  unfold clipR, sat, clamp, smin, smax. unfold Rmax, Rmin. repeat destruct Rle_dec; f_equal;
    repeat match goal with H : (IZR _ <= IZR _)%R |- _ => apply le_IZR in H | H : ~ (IZR _ <= IZR _)%R |- _ => apply Rnot_le_lt, lt_IZR in H end; lia.
Qed.

(** From the factor [v] / 2^(14+h) to the quotient. *)
Lemma l2_accuracy rm n f h v S x : 0 <= h -> 0 <= f -> 1 <= S ->
  (2 ^ 12 - 1) ^ 2 * 2 ^ (28 + 2 * h) <= v * v * S * 2 ^ 24 <= (2 ^ 12 + 1) ^ 2 * 2 ^ (28 + 2 * h) -> 0 < v ->
  is_l2 n f S x (sat n (scale_rnd rm (v * x) (14 + h - f))).
Proof.
  intros Hh Hf HS Hv V0. unfold is_l2. destruct (Z.eqb_spec S 0); [lia|]. cbv zeta.
  set (w := scale_rnd rm (v * x) (14 + h - f)). set (D := 2 ^ (14 + h)). assert (D0 : 0 < D) by (apply pow2_gt0; lia).
  assert (W : 2 * Z.abs (w * D - v * x * 2 ^ f) <= D).
  { unfold w, scale_rnd, D. destruct (Z.leb_spec 0 (14 + h - f)).
    - pose proof (rnd_err rm (v * x) (14 + h - f) ltac:(lia)) as R. replace (2 ^ (14 + h)) with (2 ^ (14 + h - f) * 2 ^ f) by (rewrite <- Z.pow_add_r by lia; f_equal; lia).
      set (r := rnd rm (v * x) (14 + h - f)) in *. set (P := 2 ^ (14 + h - f)) in *. pose proof (pow2_gt0 f ltac:(lia)) as F0. set (F := 2 ^ f) in *.
      replace (r * (P * F) - v * x * F) with ((r * P - v * x) * F) by ring. rewrite Z.abs_mul, (Z.abs_eq F) by lia. rewrite Z.mul_assoc. apply Z.mul_le_mono_nonneg_r; lia.
    - replace (v * x * 2 ^ (- (14 + h - f)) * 2 ^ (14 + h)) with (v * x * 2 ^ f) by (rewrite <- !Z.mul_assoc, <- Z.pow_add_r by lia; do 3 f_equal; lia).
      rewrite Z.sub_diag. cbn [Z.abs]. lia. }
  assert (E28 : 2 ^ (28 + 2 * h) = D * D) by (unfold D; rewrite <- Z.pow_add_r by lia; f_equal; lia). rewrite E28 in Hv.
  change ((2 ^ 12 - 1) ^ 2) with (4095 * 4095) in Hv. change ((2 ^ 12 + 1) ^ 2) with (4097 * 4097) in Hv. change (2 ^ 24) with (4096 * 4096) in Hv.
  clearbody w D. rewrite clipR_sat. eapply Rle_trans; [apply clipR_lip|].
  assert (S0 : (0 < IZR S)%R) by (apply IZR_lt; lia). pose proof (sqrt_lt_R0 _ S0) as Q0. pose proof (sqrt_sqrt (IZR S) ltac:(lra)) as QQ.
  set (q := sqrt (IZR S)) in *. clearbody q.
  assert (DR : (0 < IZR D)%R) by (apply IZR_lt; lia). assert (VR : (0 < IZR v)%R) by (apply IZR_lt; lia).
  assert (B : (4095 * IZR D <= 4096 * IZR v * q <= 4097 * IZR D)%R).
  { destruct Hv as [L H]. apply IZR_le in L. apply IZR_le in H. rewrite !mult_IZR in L, H. rewrite <- QQ in L, H.
    assert (0 < IZR v * q)%R by (apply Rmult_lt_0_compat; lra). split; apply Rsqr_incr_0; unfold Rsqr; try lra; try nra. }
  assert (W' : (Rabs (IZR w - IZR (v * x * 2 ^ f) / IZR D) <= / 2)%R).
  { assert (E : (IZR w - IZR (v * x * 2 ^ f) / IZR D = IZR (w * D - v * x * 2 ^ f) / IZR D)%R) by (rewrite minus_IZR, (mult_IZR w D); field; lra).
    rewrite E. unfold Rdiv. rewrite Rabs_mult, (Rabs_pos_eq (/ IZR D)) by (apply Rlt_le, Rinv_0_lt_compat; lra). rewrite <- abs_IZR.
    apply IZR_le in W. rewrite mult_IZR in W. apply (Rmult_le_reg_r (IZR D)); [lra|]. rewrite Rmult_assoc, Rinv_l by lra. lra. }
  set (F := 2 ^ f) in *. set (t := (IZR (F * x) / q)%R).
  assert (T : (Rabs (IZR (v * x * F) / IZR D - t) <= Rabs t / 4096)%R).
  { assert (E : (IZR (v * x * F) / IZR D - t = t * ((4096 * IZR v * q - 4096 * IZR D) / (4096 * IZR D)))%R) by (unfold t; rewrite !mult_IZR; field; lra).
    rewrite E, Rabs_mult. apply Rmult_le_compat_l; [apply Rabs_pos|].
    unfold Rdiv. rewrite Rabs_mult, (Rabs_pos_eq (/ (4096 * IZR D))) by (apply Rlt_le, Rinv_0_lt_compat; lra).
    apply (Rmult_le_reg_r (4096 * IZR D)); [lra|]. rewrite Rmult_assoc, Rinv_l by lra. unfold Rabs. destruct Rcase_abs; lra. }
  replace (IZR w - t)%R with ((IZR w - IZR (v * x * F) / IZR D) + (IZR (v * x * F) / IZR D - t))%R by ring.
  eapply Rle_trans; [apply Rabs_triang|]. lra.
Qed.

(** * One slice *)

Definition l2_sumsq (zp : option Z) (X : list Z) : Z := lsum (map (fun x => l2_input zp x * l2_input zp x) X).

Definition l2_val (rm : rmode) (n : Z) (zp : option Z) (f : Z) (X : list Z) (x : Z) : Z :=
  let ck := l2_normalize_sum rm (l2_sumsq zp X) in
  l2_elem rm n zp (isqrt rm (fst ck)) (17 + Z.shiftr (snd ck + 8) 1 - f) x.

Lemma sumsq_bound zp B X : (forall x, In x X -> Z.abs (l2_input zp x) <= B) -> 0 <= l2_sumsq zp X <= B * B * Z.of_nat (length X).
Proof.
  unfold l2_sumsq. induction X as [|x X IH]; intros H; cbn [map lsum fold_right length]; [lia|]. fold (lsum (map (fun x => l2_input zp x * l2_input zp x) X)).
  specialize (IH (fun y Hy => H y (or_intror Hy))). specialize (H x (or_introl eq_refl)). set (v := l2_input zp x) in *. nia.
Qed.

Lemma sumsq_zero zp X : l2_sumsq zp X = 0 -> forall x, In x X -> l2_input zp x = 0.
Proof.
  unfold l2_sumsq. induction X as [|x X IH]; intros H y Hy; [contradiction|]. cbn [map lsum fold_right] in H. fold (lsum (map (fun x => l2_input zp x * l2_input zp x) X)) in H.
  assert (N : 0 <= lsum (map (fun x => l2_input zp x * l2_input zp x) X)) by (apply lsum_nonneg; intros z Hz; apply in_map_iff in Hz; destruct Hz as (u & <- & _); nia).
  destruct Hy as [<-|Hy]; [nia|]. apply IH; [nia|exact Hy].
Qed.

Lemma sumsq_pairs zp m (P : list (Z * Z)) : forall s, (forall p, In p P -> allocated m (fst p)) -> 0 <= s -> s + l2_sumsq zp (vals m P) < 2 ^ 63 ->
  foldM (fun p s => do x <- load m (fst p); Some (mac_fx 64 s (l2_input zp x) (l2_input zp x))) P s = Some (s + l2_sumsq zp (vals m P)).
Proof.
  induction P as [|p P IH]; intros s HA Hs Hb; cbn [foldM]; [f_equal; unfold l2_sumsq; cbn; lia|].
  unfold l2_sumsq, vals in *. cbn [map lsum fold_right] in *. fold (lsum (map (fun x => l2_input zp x * l2_input zp x) (map (fun p => rd m (fst p)) P))) in *.
  assert (N : 0 <= lsum (map (fun x => l2_input zp x * l2_input zp x) (map (fun p => rd m (fst p)) P))) by (apply lsum_nonneg; intros z Hz; apply in_map_iff in Hz; destruct Hz as (u & <- & _); nia).
  rewrite rd_load by (apply HA; now left). cbn [bind]. set (v := l2_input zp (rd m (fst p))) in *. assert (0 <= v * v) by nia.
  assert (Em : mac_fx 64 s v v = s + v * v) by (unfold mac_fx; apply wrap_id; [lia|rewrite ib64; lia]).
  rewrite Em, IH; [f_equal; lia|intros q Hq; apply HA; now right|lia|lia].
Qed.

Lemma l2_norm_16 rm S : 0 <= S < 2 ^ 61 -> in_bits 16 (fst (l2_normalize_sum rm S)).
Proof.
  intros HS. unfold l2_normalize_sum. cbv zeta. cbn [fst]. rewrite cast_narrow_spec by (try lia; rewrite ib64; lia). apply sat_in_bits. lia.
Qed.

Lemma l2_slice_correct rm n zp f l pi po ds P m :
  pairs pi po (d_shape ds) (d_stride 0 ds) (d_stride 1 ds) = P -> slice_ok P m -> 0 <= l2_sumsq zp (vals m P) < 2 ^ 61 -> lut_same l invsqrt_lut ->
  exists m', l2_slice rm n zp f l pi po ds m = Some m'
    /\ (forall p, In p P -> m' (snd p) = Some (l2_val rm n zp f (vals m P) (rd m (fst p))))
    /\ (forall a, (forall p, In p P -> snd p <> a) -> m' a = m a).
Proof.
  intros EP OK HS Hl. unfold l2_slice.
  assert (Es : l2_sum zp pi ds m = Some (l2_sumsq zp (vals m P))).
  { pose proof (sumsq_pairs zp m P 0) as SP. rewrite Z.add_0_l in SP. unfold l2_sum. rewrite <- SP; [|intros p Hp; now apply OK|lia|lia].
    rewrite <- EP. unfold pairs. now rewrite foldM_map. }
  rewrite Es. cbn [bind]. rewrite isqrt_elem by (auto; now apply l2_norm_16). cbn [bind].
  assert (Efo : l_fo l = 17) by (destruct Hl as (_ & _ & _ & -> & _); reflexivity). rewrite Efo.
  destruct (map_pairs (fun x => Some (l2_val rm n zp f (vals m P) x)) (l2_val rm n zp f (vals m P)) P m OK ltac:(auto)) as (m' & E & V & F).
  exists m'. split; [|auto]. rewrite <- E. clear - EP. set (X := vals m P). clearbody X. unfold map_all. rewrite <- EP. unfold pairs. rewrite foldM_map. unfold l2_val. cbv zeta. cbn [fst snd]. reflexivity.
Qed.

(** * The paths of the kernel *)

Lemma coords_one n : coords [n] = map (fun i => [i]) (zrange 0 n).
Proof. cbn [coords map]. induction (zrange 0 n) as [|i l IH]; cbn [flat_map map app]; [reflexivity|now rewrite IH]. Qed.

Lemma pairs_one pi po n si so : pairs pi po [n] [si] [so] = map (fun i => (pi + si * i, po + so * i)) (zrange 0 n).
Proof. unfold pairs. rewrite coords_one, map_map. apply map_ext. intros i. cbn [addr]. f_equal; ring. Qed.

Lemma flat_pairs pi po sh sti sto : sh <> [] -> (length sh <= 4)%nat -> Forall (fun d => 0 <= d) sh ->
  length sti = length sh -> length sto = length sh -> last sti 0 = 1 -> last sto 0 = 1 ->
  let ds := dims_of sh [sti; sto] in squash_to_one_dim ds <> 0 ->
  pairs pi po [squash_to_one_dim ds] [1] [1] = pairs pi po sh sti sto.
Proof.
  intros Hn Hr Hp L1 L2 E1 E2 ds Hne. set (sts := [sti; sto]) in *. pose proof (dims_wf sh sts Hp) as W. destruct (dims_snoc sh sts Hn) as (l & inner & El).
  assert (HL : forall k, (k < 2)%nat -> d_stride k (dims_of sh sts) = nth k sts [] /\ last (nth k sts []) 0 = 1).
  { intros k Hk. split; [apply dims_stride|]; destruct k as [|[|k]]; cbn [nth sts length]; auto; lia. }
  assert (Hin : forall k, (k < 2)%nat -> nth k (snd inner) 0 = 1).
  { intros k Hk. destruct (HL k Hk) as [A B]. rewrite <- A, El in B. unfold d_stride in B. rewrite map_app in B. cbn [map] in B. now rewrite last_last in B. }
  assert (V : forall k, (k < 2)%nat -> visited sh (nth k sts []) = zrange 0 (squash_to_one_dim ds)).
  { intros k Hk. pose proof (squash_to_one_dim_correct 2 k l inner Hk ltac:(rewrite <- El; exact W) (Hin k Hk)) as V. rewrite <- El in V. specialize (V Hne).
    rewrite dims_shape in V. now rewrite (proj1 (HL k Hk)) in V. }
  pose proof (V 0%nat ltac:(lia)) as V0. pose proof (V 1%nat ltac:(lia)) as V1. cbn [nth sts] in V0, V1. unfold visited in V0, V1.
  rewrite pairs_one, <- V0, map_map. unfold pairs. apply map_ext_in. intros c Hc. rewrite <- V0 in V1. rewrite map_ext_in_iff in V1. rewrite <- (V1 c Hc). f_equal; ring.
Qed.

Lemma one_axis_pairs pi po a sh sti sto d : (a < length sh)%nat -> length sti = length sh -> length sto = length sh -> valid (drop_at a sh) d ->
  pairs (pi + addr (drop_at a sti) d) (po + addr (drop_at a sto) d) [nth a sh 0] [nth a sti 0] [nth a sto 0]
  = map (fun x => (pi + addr sti x, po + addr sto x)) (map (fun i => ins_at a i d) (zrange 0 (nth a sh 0))).
Proof.
  intros Ha L1 L2 Hd. rewrite pairs_one, map_map. apply map_ext_in. intros i Hi. apply in_zrange in Hi.
  destruct (valid_ins a sh i d Hd Hi Ha) as (V & N & D). pose proof (valid_length _ _ V) as VL.
  rewrite (addr_split a sti (ins_at a i d)), (addr_split a sto (ins_at a i d)) by lia. rewrite N, D. f_equal; ring.
Qed.

Lemma nth_last (l : list Z) : l <> [] -> nth (length l - 1) l 0 = last l 0.
Proof. intros H. destruct (exists_last H) as (l' & x & ->). rewrite app_length, last_last. cbn [length]. rewrite app_nth2 by lia. now replace (length l' + 1 - 1 - length l')%nat with 0%nat by lia. Qed.

Lemma slice_at_count axis sh st d : axis < Z.of_nat (length sh) -> nested sh st -> valid (non_axis axis sh) d ->
  Z.of_nat (length (slice_at axis sh d)) <= span sh st.
Proof.
  intros Ha Hn Hd. pose proof (proj1 (nested_prod sh st Hn)) as NP.
  assert (Hp : Forall (fun d => 0 <= d) sh).
  { clear - Hn. revert st Hn. induction sh as [|x sh IH]; intros [|s st] H; cbn [nested] in H; try contradiction; constructor; [lia|]. apply (IH st). tauto. }
  assert (L : (length (slice_at axis sh d) <= length (coords sh))%nat).
  { apply NoDup_incl_length; [now apply slice_at_NoDup|]. intros x Hx. apply slice_at_in in Hx; auto. apply in_coords. tauto. }
  rewrite <- coords_length in NP by exact Hp. lia.
Qed.

Lemma chk_l2_facts tin tout axis : chk_l2_normalize tin tout axis = ST_OK -> chk_basic_activation tin tout = ST_OK /\ axis < t_rank tin.
Proof. unfold chk_l2_normalize. destruct (chk_basic_activation tin tout); try discriminate. destruct (Z.ltb_spec axis (t_rank tin)); [auto|discriminate]. Qed.

Lemma l2_run_correct rm n zp f B l axis tin tout m : n = 8 \/ n = 16 -> 0 <= B <= 32768 -> (forall x, in_bits n x -> Z.abs (l2_input zp x) <= B) ->
  chk_l2_normalize tin tout axis = ST_OK -> -1 <= axis -> t_rank tin <> 0 -> fits32 tin -> fits32 tout -> backed tin m -> backed tout m -> unary_ok tin tout -> mem_bits n m ->
  lut_same l invsqrt_lut ->
  exists m', l2_run rm n zp f l axis tin tout m = Some m'
    /\ (forall c, valid (t_shape tin) c -> m' (t_data tout + addr (t_stride tout) c)
        = Some (l2_val rm n zp f (map (fun c' => rd m (t_data tin + addr (t_stride tin) c')) (axis_slice axis (t_shape tin) c)) (rd m (t_data tin + addr (t_stride tin) c))))
    /\ frame_ok tout m m'.
Proof.
  intros Hn HB HI Hc Ha R FI FO BI BO U MB Hl. destruct (chk_l2_facts _ _ _ Hc) as [Hb Hax]. destruct (chk_relu_facts tin tout Hb R) as (CI & CO & Es & L1 & L2).
  pose proof FI as (LI & E1 & _ & Hsp). pose proof FO as (LO & _). destruct (chk_tensor_pos tin CI LI) as (R4 & P & _). destruct (chk_tensor_nested tin FI CI) as (Nst & _).
  unfold t_rank in *.
  assert (Hne : t_shape tin <> []) by (intros E; rewrite E in R; now apply R).
  set (ds := if axis =? -1 then let ds := dims_of (t_shape tin) [t_stride tin; t_stride tout] in
               if negb (squash_to_one_dim ds =? 0) then [(squash_to_one_dim ds, [1; 1])] else squash_generic 2 ds
             else if axis =? Z.of_nat (length (t_shape tin)) - 1 then [(nth (Z.to_nat axis) (t_shape tin) 0, [1; 1])]
             else [(nth (Z.to_nat axis) (t_shape tin) 0, [nth (Z.to_nat axis) (t_stride tin) 0; nth (Z.to_nat axis) (t_stride tout) 0])]).
  set (F := fun d m => l2_slice rm n zp f l (t_data tin + addr (non_axis axis (t_stride tin)) d) (t_data tout + addr (non_axis axis (t_stride tout)) d) ds m).
  assert (ER : l2_run rm n zp f l axis tin tout m = foldM F (coords (non_axis axis (t_shape tin))) m).
  { unfold l2_run, F, ds, non_axis, t_rank. destruct (Z.eqb_spec axis (-1)) as [->|Hne1].
    - change (-1 <? 0) with true. cbv iota. cbn [coords foldM addr]. rewrite !Z.add_0_r. cbv zeta.
      destruct (l2_slice rm n zp f l (t_data tin) (t_data tout) _ m); reflexivity.
    - destruct (Z.ltb_spec axis 0); [lia|]. reflexivity. }
  rewrite ER. apply (axis_blocks F (l2_val rm n zp f) n); auto; [lia|]. intros d m1 Hd P' OK _ HBt _.
  assert (EP : pairs (t_data tin + addr (non_axis axis (t_stride tin)) d) (t_data tout + addr (non_axis axis (t_stride tout)) d) (d_shape ds) (d_stride 0 ds) (d_stride 1 ds) = P').
  { unfold ds, P', slice_at, non_axis in *. destruct (Z.eqb_spec axis (-1)) as [->|Hne1].
    - change (-1 <? 0) with true in *. cbv iota in *. destruct d; [|contradiction]. cbn [addr]. rewrite !Z.add_0_r. cbv zeta.
      assert (P0 : Forall (fun d => 0 <= d) (t_shape tin)) by (now apply last_pos_shape).
      change (map (fun x => (t_data tin + addr (t_stride tin) x, t_data tout + addr (t_stride tout) x)) (coords (t_shape tin))) with (pairs (t_data tin) (t_data tout) (t_shape tin) (t_stride tin) (t_stride tout)).
      destruct (Z.eqb_spec (squash_to_one_dim (dims_of (t_shape tin) [t_stride tin; t_stride tout])) 0) as [E0|E0]; cbn [negb].
      + apply squash2_pairs; auto; lia || congruence.
      + apply flat_pairs; auto; lia || congruence.
    - destruct (Z.ltb_spec axis 0); [lia|]. set (a := Z.to_nat axis) in *.
      rewrite <- (one_axis_pairs (t_data tin) (t_data tout) a (t_shape tin)) by (auto; lia || congruence).
      destruct (Z.eqb_spec axis (Z.of_nat (length (t_shape tin)) - 1)) as [Er|Er]; [|reflexivity].
      assert (Ea : a = (length (t_shape tin) - 1)%nat) by lia.
      assert (N1 : nth a (t_stride tin) 0 = 1) by (rewrite Ea, LI, nth_last by (intros E; rewrite E in LI; destruct (t_shape tin); [auto|discriminate]); exact L1).
      assert (N2 : nth a (t_stride tout) 0 = 1) by (rewrite Ea, Es, LO, nth_last by (intros E; rewrite E in LO; rewrite Es in Hne; destruct (t_shape tout); [auto|discriminate]); exact L2).
      rewrite N1, N2. reflexivity. }
  unfold F. apply (l2_slice_correct rm n zp f l _ _ ds P' m1 EP OK); auto.
  assert (HBv : forall x, In x (vals m1 P') -> Z.abs (l2_input zp x) <= B) by (intros x Hx; apply in_map_iff in Hx; destruct Hx as (p & <- & Hp); apply HI; now apply HBt).
  pose proof (sumsq_bound zp B (vals m1 P') HBv) as SB.
  assert (LP : Z.of_nat (length (vals m1 P')) <= 2 ^ 31 - 1).
  { unfold vals, P'. rewrite !map_length. pose proof (slice_at_count axis (t_shape tin) (t_stride tin) d Hax Nst Hd). clear - H E1 Hsp.
    assert (0 <= span (t_shape tin) (t_stride tin)) by lia. nia. }
  split; [lia|]. change (2 ^ 31 - 1) with 2147483647 in LP. change (2 ^ 61) with 2305843009213693952. clear - SB LP HB. nia.
Qed.

(** * The value of an element *)

Lemma l2_val_spec rm n f zp B X : n = 8 \/ n = 16 -> 0 <= f -> 0 <= B <= 32768 -> (forall x, In x X -> Z.abs (l2_input zp x) <= B) -> Z.of_nat (length X) <= 2 ^ 31 - 1 ->
  (forall x, In x X -> is_l2 n f (l2_sumsq zp X) (l2_input zp x) (l2_val rm n zp f X x))
  /\ (forall x y, In x X -> In y X -> l2_input zp x <= l2_input zp y -> l2_val rm n zp f X x <= l2_val rm n zp f X y)
  /\ (forall x, In x X -> 0 <= l2_input zp x -> 0 <= l2_val rm n zp f X x)
  /\ (forall x, In x X -> l2_input zp x <= 0 -> l2_val rm n zp f X x <= 0).
Proof.
  intros Hn Hf HB HX HL. pose proof (sumsq_bound zp B X HX) as SB. set (S := l2_sumsq zp X) in *.
  assert (S61 : S < 2 ^ 61) by (change (2 ^ 31 - 1) with 2147483647 in HL; change (2 ^ 61) with 2305843009213693952; clearbody S; clear - SB HL HB; nia).
  destruct (Z.eq_dec S 0) as [E0|E0].
  - assert (Z0 : forall x, In x X -> l2_val rm n zp f X x = 0).
    { intros x Hx. unfold l2_val, l2_elem. fold S. rewrite (sumsq_zero zp X E0 x Hx), Z.mul_0_r. rewrite acc_cast_n_exact by (auto; cbn; lia).
      unfold scale_rnd. match goal with |- context [0 <=? ?k] => destruct (Z.leb_spec 0 k) end; [|destruct Hn as [-> | ->]; reflexivity].
      rewrite rnd_zero by lia. destruct Hn as [-> | ->]; reflexivity. }
    split; [|split; [|split]]; intros; rewrite ?Z0 by auto; try lia. unfold is_l2. rewrite E0. reflexivity.
  - destruct (l2_factor rm S ltac:(lia)) as (B16 & V0 & h & Hh & Ek & _ & Hv). cbv zeta in *. set (v := isqrt rm (fst (l2_normalize_sum rm S))) in *.
    assert (Ev : forall x, In x X -> l2_val rm n zp f X x = sat n (scale_rnd rm (v * l2_input zp x) (14 + h - f))).
    { intros x Hx. unfold l2_val, l2_elem. fold S. cbv zeta. fold v. rewrite Ek, Z.shiftr_div_pow2 by lia. change (2 ^ 1) with 2.
      replace (17 + (2 * h - 14 + 8) / 2 - f) with (14 + h - f) by lia. apply acc_cast_n_exact; auto. specialize (HX x Hx). rewrite Z.abs_mul. nia. }
    assert (Mo : forall a b, a <= b -> sat n (scale_rnd rm (v * a) (14 + h - f)) <= sat n (scale_rnd rm (v * b) (14 + h - f))).
    { intros a b Hab. apply sat_mono, scale_rnd_mono. nia. }
    assert (M0 : sat n (scale_rnd rm (v * 0) (14 + h - f)) = 0).
    { rewrite Z.mul_0_r. unfold scale_rnd. destruct (Z.leb_spec 0 (14 + h - f)); [rewrite rnd_zero by lia|]; destruct Hn as [-> | ->]; reflexivity. }
    split; [|split; [|split]]; intros; rewrite !Ev by auto.
    + apply l2_accuracy; auto; lia.
    + now apply Mo.
    + eapply Z.le_trans; [rewrite <- M0; reflexivity|]. now apply Mo.
    + eapply Z.le_trans; [apply Mo; eassumption|]. now rewrite M0.
Qed.

Lemma l2_spec_at rm n f zp B axis tin tout m m' c : n = 8 \/ n = 16 -> 0 <= f -> 0 <= B <= 32768 -> (forall x, in_bits n x -> Z.abs (l2_input zp x) <= B) ->
  chk_l2_normalize tin tout axis = ST_OK -> t_rank tin <> 0 -> fits32 tin -> mem_bits n m ->
  (forall c, valid (t_shape tin) c -> m' (t_data tout + addr (t_stride tout) c)
        = Some (l2_val rm n zp f (map (fun c' => rd m (t_data tin + addr (t_stride tin) c')) (axis_slice axis (t_shape tin) c)) (rd m (t_data tin + addr (t_stride tin) c)))) ->
  valid (t_shape tin) c ->
  let X := fun c => l2_input zp (rd m (t_data tin + addr (t_stride tin) c)) in
  let Y := fun c => rd m' (t_data tout + addr (t_stride tout) c) in
  let sl := axis_slice axis (t_shape tin) c in
  is_l2 n f (sum_squares X sl) (X c) (Y c)
  /\ (0 <= X c -> 0 <= Y c) /\ (X c <= 0 -> Y c <= 0)
  /\ (forall c', In c' sl -> X c <= X c' -> Y c <= Y c').
Proof.
  intros Hn Hf HB HI Hc R FI MB V Vc X Y sl. destruct (chk_l2_facts _ _ _ Hc) as [Hb Hax]. destruct (chk_relu_facts tin tout Hb R) as (CI & _).
  destruct (chk_tensor_nested tin FI CI) as (Nst & _). pose proof FI as (_ & E1 & _ & Hsp). unfold t_rank in Hax.
  pose proof (non_axis_valid axis _ c Hax Vc) as Vd.
  assert (Hsl : forall c', In c' sl <-> valid (t_shape tin) c' /\ non_axis axis c' = non_axis axis c) by (intros c'; now apply slice_at_in).
  assert (Esl : forall c', In c' sl -> axis_slice axis (t_shape tin) c' = sl) by (intros c' Hc'; apply Hsl in Hc'; unfold sl, axis_slice; now rewrite (proj2 Hc')).
  assert (Hcs : In c sl) by (apply Hsl; auto).
  set (L := map (fun c' => rd m (t_data tin + addr (t_stride tin) c')) sl).
  assert (HL : Z.of_nat (length L) <= 2 ^ 31 - 1).
  { unfold L. rewrite map_length. pose proof (slice_at_count axis (t_shape tin) (t_stride tin) (non_axis axis c) Hax Nst Vd) as Q. fold (axis_slice axis (t_shape tin) c) in Q. fold sl in Q.
    clear - Q E1 Hsp. assert (0 <= span (t_shape tin) (t_stride tin)) by lia. nia. }
  assert (HX : forall x, In x L -> Z.abs (l2_input zp x) <= B).
  { intros x Hx. apply in_map_iff in Hx. destruct Hx as (p & <- & _). apply HI, rd_bits; auto. lia. }
  assert (EY : forall c', In c' sl -> Y c' = l2_val rm n zp f L (rd m (t_data tin + addr (t_stride tin) c'))).
  { intros c' Hc'. unfold Y, rd at 1. rewrite V by (now apply Hsl). rewrite (Esl c' Hc'). reflexivity. }
  assert (ES : l2_sumsq zp L = sum_squares X sl) by (unfold l2_sumsq, L, sum_squares, X; now rewrite map_map).
  assert (HIn : forall c', In c' sl -> In (rd m (t_data tin + addr (t_stride tin) c')) L) by (intros c' Hc'; now apply (in_map (fun c' => rd m (t_data tin + addr (t_stride tin) c')))).
  destruct (l2_val_spec rm n f zp B L Hn Hf HB HX HL) as (A1 & A2 & A3 & A4). rewrite ES in A1.
  rewrite (EY c Hcs). split; [|split; [|split]].
  - apply A1. auto.
  - apply A3. auto.
  - apply A4. auto.
  - intros c' Hc' Hle. rewrite (EY c' Hc'). apply A2; auto.
Qed.

(** * Theorems *)

(** C41: every output element is the input element divided by the L2 norm of its slice (the whole tensor for axis -1), with the sign
    and the order of the inputs. *)
Theorem l2_fx16_correct rm l axis tin tout m :
  chk_l2_normalize tin tout axis = ST_OK -> -1 <= axis -> t_rank tin <> 0 -> fits32 tin -> fits32 tout -> backed tin m -> backed tout m -> unary_ok tin tout ->
  mem_bits 16 m -> lut_same l invsqrt_lut ->
  exists m', l2_fx16 rm l axis tin tout m = Some m' /\ frame_ok tout m m'
    /\ forall c, valid (t_shape tin) c ->
       let X := fun c => rd m (t_data tin + addr (t_stride tin) c) in
       let Y := fun c => rd m' (t_data tout + addr (t_stride tout) c) in
       let sl := axis_slice axis (t_shape tin) c in
       is_l2 16 15 (sum_squares X sl) (X c) (Y c)
       /\ (0 <= X c -> 0 <= Y c) /\ (X c <= 0 -> Y c <= 0)
       /\ (forall c', In c' sl -> X c <= X c' -> Y c <= Y c').
Proof.
  intros Hc Ha R FI FO BI BO U MB Hl.
  destruct (l2_run_correct rm 16 None 15 32768 l axis tin tout m ltac:(now right) ltac:(lia) ltac:(intros x Hx; rewrite ib16 in Hx; cbn [l2_input]; lia) Hc Ha R FI FO BI BO U MB Hl) as (m' & E & V & F).
  exists m'. split; [exact E|]. split; [exact F|]. intros c Vc X Y sl.
  exact (l2_spec_at rm 16 15 None 32768 axis tin tout m m' c ltac:(now right) ltac:(lia) ltac:(lia) ltac:(intros x Hx; rewrite ib16 in Hx; cbn [l2_input]; lia) Hc R FI MB V Vc).
Qed.

(** The same for SA8: the inputs are relative to the zero point, the scale of the input cancels out. The output has zero point 0
    and scale 2^-7. *)
Theorem l2_sa8_correct rm q l axis tin tout m :
  chk_l2_normalize tin tout axis = ST_OK -> -1 <= axis -> t_rank tin <> 0 -> fits32 tin -> fits32 tout -> backed tin m -> backed tout m -> unary_ok tin tout ->
  mem_bits 8 m -> lut_same l invsqrt_lut -> chk_act_quant q = true ->
  exists m', l2_sa8 rm q l axis tin tout m = Some m' /\ frame_ok tout m m'
    /\ forall c, valid (t_shape tin) c ->
       let X := fun c => rd m (t_data tin + addr (t_stride tin) c) - q_zp q in
       let Y := fun c => rd m' (t_data tout + addr (t_stride tout) c) in
       let sl := axis_slice axis (t_shape tin) c in
       is_l2 8 7 (sum_squares X sl) (X c) (Y c)
       /\ (0 <= X c -> 0 <= Y c) /\ (X c <= 0 -> Y c <= 0)
       /\ (forall c', In c' sl -> X c <= X c' -> Y c <= Y c').
Proof.
  intros Hc Ha R FI FO BI BO U MB Hl Hq. unfold chk_act_quant in Hq.
  assert (EI : forall x, in_bits 8 x -> l2_input (Some (q_zp q)) x = x - q_zp q).
  { intros x Hx. rewrite ib8 in Hx. cbn [l2_input]. rewrite sub_fx_spec by (try lia; rewrite ib16; lia). apply sat_id. rewrite ib16. lia. }
  assert (HI : forall x, in_bits 8 x -> Z.abs (l2_input (Some (q_zp q)) x) <= 255) by (intros x Hx; rewrite EI by exact Hx; rewrite ib8 in Hx; lia).
  destruct (l2_run_correct rm 8 (Some (q_zp q)) 7 255 l axis tin tout m ltac:(now left) ltac:(lia) HI Hc Ha R FI FO BI BO U MB Hl) as (m' & E & V & F).
  exists m'. split; [exact E|]. split; [exact F|]. intros c Vc X Y sl.
  pose proof (l2_spec_at rm 8 7 (Some (q_zp q)) 255 axis tin tout m m' c ltac:(now left) ltac:(lia) ltac:(lia) HI Hc R FI MB V Vc) as A. cbv zeta in A.
  assert (EX : forall c, l2_input (Some (q_zp q)) (rd m (t_data tin + addr (t_stride tin) c)) = X c) by (intros c'; apply EI, rd_bits; auto; lia).
  assert (ES : sum_squares (fun c => l2_input (Some (q_zp q)) (rd m (t_data tin + addr (t_stride tin) c))) sl = sum_squares X sl) by (unfold sum_squares; f_equal; apply map_ext; intros c'; now rewrite EX).
  fold sl in A. rewrite ES, EX in A. destruct A as (A1 & A2 & A3 & A4). split; [exact A1|]. split; [exact A2|]. split; [exact A3|].
  intros c' Hc' Hle. apply A4; [exact Hc'|]. rewrite EX. exact Hle.
Qed.

(** The checker accepts axes below -1, for which the kernel reads a shape outside of the array. *)
Theorem l2_axis_refuted : exists l axis tin tout m, chk_l2_normalize tin tout axis = ST_OK /\ t_rank tin <> 0 /\ fits32 tin /\ fits32 tout /\ backed tin m /\ backed tout m
  /\ unary_ok tin tout /\ mem_bits 16 m /\ lut_same l invsqrt_lut /\ forall rm, l2_fx16 rm l axis tin tout m = None.
Proof.
  exists invsqrt_lut, (-2), (mkTensor 0 4 2 [2] [1] false (-1) 0), (mkTensor 2 4 2 [2] [1] false (-1) 0), (list_mem [3; 4; 0; 0]).
  split; [vm_compute; reflexivity|]. split; [discriminate|]. split; [fits32_tac|]. split; [fits32_tac|].
  split; [apply list_backed_esz; cbn; lia|]. split; [apply list_backed_esz; cbn; lia|].
  split. { intros c c' V V' _. destruct c as [|i [|]], c' as [|j [|]]; cbn in V, V'; try tauto; cbn [t_data t_stride addr]; lia. }
  split; [apply list_bits; reflexivity|]. split; [repeat split|]. intros rm. reflexivity.
Qed.

(** Non-vacuity: (3, 4) is normalized to (0.6, 0.8). *)
Example l2_example :
  let tin := mkTensor 0 4 2 [2] [1] false (-1) 0 in let tout := mkTensor 2 4 2 [2] [1] false (-1) 0 in
  chk_l2_normalize tin tout (-1) = ST_OK /\ chk_l2_normalize tin tout 0 = ST_OK /\ unary_ok tin tout
  /\ (exists m', l2_fx16 RM_UP invsqrt_lut (-1) tin tout (list_mem [3; 4; 0; 0]) = Some m' /\ m' 2 = Some 19661 /\ m' 3 = Some 26214)
  /\ (exists m', l2_fx16 RM_UP invsqrt_lut 0 tin tout (list_mem [0; 0; 7; 7]) = Some m' /\ m' 2 = Some 0 /\ m' 3 = Some 0).
Proof.
  cbv zeta. split; [vm_compute; reflexivity|]. split; [vm_compute; reflexivity|]. split.
  { intros c c' V V' _. destruct c as [|i [|]], c' as [|j [|]]; cbn in V, V'; try tauto; cbn [t_data t_stride addr]; lia. }
  split; (eexists; split; [vm_compute; reflexivity|split; vm_compute; reflexivity]).
Qed.
