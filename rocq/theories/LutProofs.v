(** Proofs about the lookup table activations. *)
From Coq Require Import ZArith QArith List Lia Bool Zdiv.
From Verif Require Import Base FxMath FxMathProofs Tensor TensorProofs ArgMax MovProofs PermuteProofs Quant QuantProofs QSpec QuantCastProofs
  PoolKernels DotProdProofs ConvTheorems Eltwise EltwiseProofs EltwiseSa8Proofs Relu ReluProofs Lut.
Import ListNotations.
Open Scope Z_scope.

(** * Tables *)

(** Entry [i] of the table. *)
Definition tab (l : lut) (i : Z) : Z := rd (l_data l) i.

(** A usable table: at least two 16-bit entries, all readable. *)
Definition lut_ok (l : lut) : Prop :=
  2 <= l_len l <= 2 ^ 30 /\ Z.abs (l_off l) <= 2 ^ 30 /\ 0 <= l_fi l <= 119
  /\ forall i, 0 <= i < l_len l -> exists v, l_data l i = Some v /\ in_bits 16 v.

(** Neighbouring entries differ by at most a 16-bit value. *)
Definition lut_smooth (l : lut) : Prop := forall i, 0 <= i -> i + 1 < l_len l -> in_bits 16 (tab l i - tab l (i + 1)).

Definition lut_mono (l : lut) : Prop := forall i, 0 <= i -> i + 1 < l_len l -> tab l i <= tab l (i + 1).

Lemma tab_load l i : lut_ok l -> 0 <= i < l_len l -> load (l_data l) i = Some (tab l i) /\ in_bits 16 (tab l i).
Proof.
  intros (_ & _ & _ & H) Hi. destruct (H i Hi) as (v & E & B). unfold tab, rd, load. rewrite E. auto.
Qed.

(** [r] is the value of the table at the point [x] * 2^-[d], where entry [i] belongs to the point [i] - offset. Between the two
    neighbouring entries, and nearest to their linear interpolation if [d] <= 15 (up to 2^-15 of their difference otherwise).
    Beyond the ends of the table only the first claim holds, for the first or last two entries. *)
Definition table_value (l : lut) (d x r : Z) : Prop :=
  let p := x + l_off l * 2 ^ d in
  let i := Z.max 0 (Z.min (p / 2 ^ d) (l_len l - 2)) in
  let t := tab l i in
  let t' := tab l (i + 1) in
  Z.min t t' <= r <= Z.max t t'
  /\ (0 <= p < (l_len l - 1) * 2 ^ d -> d <= 30 ->
      2 * Z.abs (r * 2 ^ d - (t * (2 ^ d - p mod 2 ^ d) + t' * (p mod 2 ^ d)))
      <= 2 ^ d + (if d <=? 15 then 0 else 2 * Z.abs (t - t') * 2 ^ (d - 15))).

(** * The interpolation *)

Definition idx_of (l : lut) (s x : Z) : Z := Z.max 0 (Z.min (x / 2 ^ s + l_off l) (l_len l - 2)).

Definition interp (rm : rmode) (l : lut) (s x : Z) : Z :=
  tab l (idx_of l s x) - rnd rm ((tab l (idx_of l s x) - tab l (idx_of l s x + 1)) * (x mod 2 ^ s)) s.

Lemma bound_range_clamp x lo hi : lo <= hi -> bound_range_fx x lo hi = Z.max lo (Z.min x hi).
Proof.
  intros. unfold bound_range_fx, min_fx, max_fx. rewrite Z.gtb_ltb. destruct (Z.ltb_spec lo x).
  - destruct (Z.ltb_spec x hi); lia.
  - destruct (Z.ltb_spec lo hi); lia.
Qed.

Lemma min_fx_min a b : min_fx a b = Z.min a b.
Proof. unfold min_fx. destruct (Z.ltb_spec a b); lia. Qed.
Lemma max_fx_max a b : max_fx a b = Z.max a b.
Proof. unfold max_fx. rewrite Z.gtb_ltb. destruct (Z.ltb_spec b a); lia. Qed.

Lemma idx_of_range l s x : lut_ok l -> 0 <= idx_of l s x /\ idx_of l s x + 1 < l_len l.
Proof. intros (H & _). unfold idx_of. lia. Qed.

Lemma rnd_frac rm a f s : 0 <= s -> 0 <= f < 2 ^ s -> Z.min 0 a <= rnd rm (a * f) s <= Z.max 0 a.
Proof.
  intros Hs Hf. pose proof (pow2_gt0 s Hs). split.
  - destruct (Z_le_gt_dec a 0).
    + rewrite Z.min_r by lia. rewrite <- (rnd_exact rm a s) at 1 by lia. apply rnd_mono; [lia|nia].
    + rewrite Z.min_l by lia. replace 0 with (rnd rm (0 * 2 ^ s) s) by (now rewrite rnd_exact). apply rnd_mono; [lia|nia].
  - destruct (Z_le_gt_dec a 0).
    + rewrite Z.max_l by lia. replace 0 with (rnd rm (0 * 2 ^ s) s) by (now rewrite rnd_exact). apply rnd_mono; [lia|nia].
    + rewrite Z.max_r by lia. rewrite <- (rnd_exact rm a s) at 2 by lia. apply rnd_mono; [lia|nia].
Qed.

Lemma interp_between rm l s x : lut_ok l -> 0 <= s ->
  let i := idx_of l s x in Z.min (tab l i) (tab l (i + 1)) <= interp rm l s x <= Z.max (tab l i) (tab l (i + 1)).
Proof.
  intros Hl Hs i. unfold interp. fold i. pose proof (Z.mod_pos_bound x (2 ^ s) (pow2_gt0 s Hs)) as F.
  pose proof (rnd_frac rm (tab l i - tab l (i + 1)) (x mod 2 ^ s) s Hs F). lia.
Qed.

Lemma interp_bits rm l s x : lut_ok l -> 0 <= s -> in_bits 16 (interp rm l s x).
Proof.
  intros Hl Hs. pose proof (interp_between rm l s x Hl Hs) as H. cbv zeta in H. destruct (idx_of_range l s x Hl) as [A B].
  destruct (tab_load l (idx_of l s x) Hl ltac:(lia)) as [_ B1]. destruct (tab_load l (idx_of l s x + 1) Hl ltac:(lia)) as [_ B2].
  rewrite ib16 in *. lia.
Qed.

Lemma asr_fx_div n x k : 1 <= n -> in_bits n x -> 0 <= k -> asr_fx n x k = x / 2 ^ k.
Proof. intros. rewrite asr_fx_spec by auto. unfold shift_spec. destruct (Z.leb_spec 0 k); [reflexivity|lia]. Qed.

Definition pre_of (d : Z) : Z := Z.min (Z.max (d - 15) 0) 15.

Lemma lut_interp_eq rm l fin x : lut_ok l -> lut_smooth l -> 1 <= fin - l_fi l -> in_bits 32 x ->
  let d := fin - l_fi l in
  lut_interp rm l fin x = Some (interp rm l (Z.min d 15) (x / 2 ^ pre_of d)).
Proof.
  intros Hl Hsm Hd Hx d. unfold lut_interp. fold d. rewrite !min_fx_min, max_fx_max. fold (pre_of d).
  set (s := Z.min d 15). assert (Hs : 1 <= s <= 15) by (unfold s, d; lia).
  assert (Hp : 0 <= pre_of d <= 15) by (unfold pre_of; lia).
  assert (Pp : 0 < 2 ^ pre_of d) by (apply pow2_gt0; lia). assert (Ps : 0 < 2 ^ s) by (apply pow2_gt0; lia).
  assert (Ps' : 2 ^ s <= 2 ^ 15) by (apply pow2_le; lia).
  rewrite (asr_fx_div 32 x) by (auto; lia).
  set (y := x / 2 ^ pre_of d).
  assert (By : in_bits 32 y).
  { rewrite ib32 in *. unfold y. pose proof (Z.div_mod x (2 ^ pre_of d) ltac:(lia)). pose proof (Z.mod_pos_bound x (2 ^ pre_of d) Pp). nia. }
  rewrite (asr_fx_div 32 y s) by (auto; lia).
  pose proof Hl as (Hlen & Ho' & _ & _). assert (Ho : in_bits 32 (l_off l)) by (rewrite ib32; lia).
  assert (Bz : in_bits 32 (y / 2 ^ s)).
  { rewrite ib32 in *. pose proof (Z.div_mod y (2 ^ s) ltac:(lia)). pose proof (Z.mod_pos_bound y (2 ^ s) Ps). nia. }
  rewrite (add_fx_spec 32 (y / 2 ^ s) (l_off l)) by (auto; lia). rewrite bound_range_clamp by lia.
  replace (Z.max 0 (Z.min (sat 32 (y / 2 ^ s + l_off l)) (l_len l - 2))) with (idx_of l s y).
  2:{ unfold idx_of, sat, clamp. change (smin 32) with (- 2 ^ 31). change (smax 32) with (2 ^ 31 - 1). lia. }
  destruct (idx_of_range l s y Hl) as [I1 I2]. unfold interp. set (i := idx_of l s y) in *.
  destruct (tab_load l i Hl ltac:(lia)) as [E1 B1]. destruct (tab_load l (i + 1) Hl ltac:(lia)) as [E2 B2].
  rewrite E1, E2. cbn [bind]. f_equal. specialize (Hsm i I1 I2). rewrite (wrap_id 16 (tab l i - tab l (i + 1))) by (auto; lia).
  assert (M : wrap 16 (Z.shiftl 1 s - 1) = Z.ones s).
  { rewrite Z.shiftl_1_l, Z.ones_equiv. apply wrap_id; [lia|]. rewrite ib16. lia. }
  rewrite M, Z.land_ones by lia. pose proof (Z.mod_pos_bound y (2 ^ s) Ps) as F.
  rewrite (wrap_id 16 (y mod 2 ^ s)) by (rewrite ?ib16; lia).
  set (a := tab l i - tab l (i + 1)) in *. set (f := y mod 2 ^ s) in *.
  assert (Ba : - 32768 <= a <= 32767) by (rewrite ib16 in Hsm; lia).
  assert (Bf : 0 <= f <= 32767) by (change (2 ^ 15) with 32768 in Ps'; clear - F Ps'; lia).
  assert (Bm : Z.abs (a * f) <= 2 ^ 30 - 1).
  { rewrite Z.abs_mul, (Z.abs_eq f) by lia. assert (Z.abs a <= 32768) by lia. change (2 ^ 30 - 1) with 1073741823. nia. }
  assert (Bm' : in_bits 32 (a * f)) by (rewrite ib32; lia).
  rewrite acc_cast_16_spec by exact Bm'. rewrite asr_rnd_fx_spec; [|lia|exact Bm'|apply small_rnd_safe; lia].
  unfold rshift_spec. destruct (Z.leb_spec 0 s); [|lia].
  pose proof (rnd_frac rm a f s ltac:(lia) F) as R.
  rewrite (sat_id 16) by (try lia; rewrite ib16; lia). apply wrap_id; [lia|].
  assert (Ea : a = tab l i - tab l (i + 1)) by reflexivity. clearbody a. rewrite ib16 in *. lia.
Qed.

Lemma tab_mono_le l i j : lut_mono l -> 0 <= i -> i <= j -> j < l_len l -> tab l i <= tab l j.
Proof.
  intros Hm Hi Hij Hj. revert Hj. pattern j. apply Zlt_lower_bound_ind with (z := i); [|exact Hij].
  clear j Hij. intros j IH Hij Hj. destruct (Z.eq_dec i j) as [->|]; [lia|].
  specialize (IH (j - 1) ltac:(lia) ltac:(lia)). specialize (Hm (j - 1) ltac:(lia)). replace (j - 1 + 1) with j in Hm by lia. lia.
Qed.

Lemma idx_of_mono l s x y : 0 <= s -> x <= y -> idx_of l s x <= idx_of l s y.
Proof. intros Hs H. unfold idx_of. pose proof (Z.div_le_mono x y (2 ^ s) (pow2_gt0 s Hs) H). lia. Qed.

(** The point [x] lies between two entries of the table. *)
Definition in_table (l : lut) (d x : Z) : Prop := 0 <= x + l_off l * 2 ^ d < (l_len l - 1) * 2 ^ d.

Lemma in_table_idx l s x : 0 <= s -> in_table l s x -> idx_of l s x = x / 2 ^ s + l_off l.
Proof.
  intros Hs [H1 H2]. pose proof (pow2_gt0 s Hs) as P. pose proof (Z.div_mod x (2 ^ s) ltac:(lia)). pose proof (Z.mod_pos_bound x (2 ^ s) P).
  unfold idx_of. nia.
Qed.

(** Monotone up to the jumps beyond the ends of the table. *)
Lemma interp_mono rm l s x y e : lut_ok l -> lut_mono l -> 0 <= s -> x <= y -> 0 <= e ->
  (in_table l s x /\ in_table l s y \/ tab l 1 - tab l 0 <= e /\ tab l (l_len l - 1) - tab l (l_len l - 2) <= e) ->
  interp rm l s x <= interp rm l s y + e.
Proof.
  intros Hl Hm Hs Hxy He Hr. pose proof (interp_between rm l s x Hl Hs) as Bx. pose proof (interp_between rm l s y Hl Hs) as By. cbv zeta in Bx, By.
  destruct (idx_of_range l s x Hl) as [X1 X2]. destruct (idx_of_range l s y Hl) as [Y1 Y2]. pose proof (idx_of_mono l s x y Hs Hxy) as I.
  pose proof (Hm _ X1 X2) as Mx. pose proof (Hm _ Y1 Y2) as My.
  destruct (Z_lt_le_dec (idx_of l s x) (idx_of l s y)) as [Hlt|Hle].
  { pose proof (tab_mono_le l (idx_of l s x + 1) (idx_of l s y) Hm ltac:(lia) ltac:(lia) ltac:(lia)). lia. }
  assert (E : idx_of l s y = idx_of l s x) by lia. pose proof (pow2_gt0 s Hs) as P.
  destruct (Z.eq_dec (x / 2 ^ s) (y / 2 ^ s)) as [Eq|Nq].
  - unfold interp. rewrite E. set (i := idx_of l s x) in *. pose proof (Z.div_mod x (2 ^ s) ltac:(lia)). pose proof (Z.div_mod y (2 ^ s) ltac:(lia)).
    assert (x mod 2 ^ s <= y mod 2 ^ s) by (rewrite Eq in *; lia).
    pose proof (rnd_mono rm ((tab l i - tab l (i + 1)) * (y mod 2 ^ s)) ((tab l i - tab l (i + 1)) * (x mod 2 ^ s)) s Hs ltac:(nia)). lia.
  - destruct Hr as [[Rx Ry]|[Hf Hla]].
    + rewrite !in_table_idx in E by auto. lia.
    + rewrite E in By. pose proof (Z.div_le_mono x y (2 ^ s) P Hxy).
      assert (idx_of l s x = 0 \/ idx_of l s x = l_len l - 2) as [K|K] by (unfold idx_of in E |- *; lia); rewrite K in *.
      * change (0 + 1) with 1 in *. lia.
      * replace (l_len l - 2 + 1) with (l_len l - 1) in * by lia. lia.
Qed.

Lemma rnd_err rm v k : 0 <= k -> 2 * Z.abs (rnd rm v k * 2 ^ k - v) <= 2 ^ k.
Proof.
  intros Hk. pose proof (rnd_nearest rm v k Hk) as N. pose proof (pow2_gt0 k Hk).
  destruct rm; unfold nearest, nearest_up, nearest_even in N; lia.
Qed.

Lemma div_small_neg x k j : 0 <= j <= k -> - 2 ^ j <= x < 2 ^ j -> x / 2 ^ k = x / 2 ^ j.
Proof.
  intros Hj Hx. pose proof (pow2_gt0 j ltac:(lia)). pose proof (pow2_gt0 k ltac:(lia)). pose proof (pow2_le j k ltac:(lia) ltac:(lia)).
  destruct (Z_lt_le_dec x 0).
  - transitivity (-1); [symmetry; apply Z.div_unique with (x + 2 ^ k)|apply Z.div_unique with (x + 2 ^ j)]; lia.
  - rewrite !Z.div_small; lia.
Qed.

Lemma idx_of_pre l d x : 1 <= d -> (d <= 30 \/ - 2 ^ 30 <= x < 2 ^ 30) ->
  idx_of l (Z.min d 15) (x / 2 ^ pre_of d) = Z.max 0 (Z.min ((x + l_off l * 2 ^ d) / 2 ^ d) (l_len l - 2)).
Proof.
  intros Hd H. unfold idx_of. pose proof (pow2_gt0 d ltac:(lia)). rewrite Z.div_add by lia. do 2 f_equal. f_equal.
  rewrite Z.div_div; [|apply Z.pow_nonzero; unfold pre_of; lia|apply pow2_gt0; lia].
  rewrite <- Z.pow_add_r by (unfold pre_of; lia).
  destruct (Z_le_gt_dec d 30).
  - replace (pre_of d + Z.min d 15) with d by (unfold pre_of; lia). reflexivity.
  - replace (pre_of d + Z.min d 15) with 30 by (unfold pre_of; lia). symmetry. apply div_small_neg; lia.
Qed.

Lemma interp_table_value rm l d x : lut_ok l -> 1 <= d -> (d <= 30 \/ - 2 ^ 30 <= x < 2 ^ 30) ->
  table_value l d x (interp rm l (Z.min d 15) (x / 2 ^ pre_of d)).
Proof.
  intros Hl Hd H. unfold table_value. rewrite <- idx_of_pre by auto.
  set (s := Z.min d 15). set (y := x / 2 ^ pre_of d). assert (Hs : 1 <= s <= 15) by (unfold s; lia). split.
  - apply interp_between; [exact Hl|lia].
  - intros Hp Hd30. unfold interp. set (i := idx_of l s y). set (t := tab l i). set (t' := tab l (i + 1)).
    assert (Ed : d = pre_of d + s) by (unfold s, pre_of; lia). pose proof (pow2_gt0 (pre_of d) ltac:(unfold pre_of; lia)) as PP.
    pose proof (pow2_gt0 s ltac:(lia)) as PS. assert (ED : 2 ^ d = 2 ^ pre_of d * 2 ^ s) by (rewrite Ed at 1; apply Z.pow_add_r; unfold pre_of; lia).
    rewrite Z.add_mod, Z.mod_mul, Z.add_0_r, Z.mod_mod by lia.
    pose proof (rnd_err rm ((t - t') * (y mod 2 ^ s)) s ltac:(lia)) as R.
    assert (Ef : x mod 2 ^ d = (y mod 2 ^ s) * 2 ^ pre_of d + x mod 2 ^ pre_of d).
    { rewrite ED, Z.rem_mul_r by lia. fold y. ring. }
    rewrite Ef. set (f := y mod 2 ^ s) in *. set (v := rnd rm ((t - t') * f) s) in *. pose proof (Z.mod_pos_bound x (2 ^ pre_of d) PP) as Q.
    set (rho := x mod 2 ^ pre_of d) in *. rewrite ED.
    replace ((t - v) * (2 ^ pre_of d * 2 ^ s) - (t * (2 ^ pre_of d * 2 ^ s - (f * 2 ^ pre_of d + rho)) + t' * (f * 2 ^ pre_of d + rho)))
      with ((t - t') * rho - (v * 2 ^ s - (t - t') * f) * 2 ^ pre_of d) by ring.
    set (e := v * 2 ^ s - (t - t') * f) in *. set (a := t - t') in *.
    assert (B1 : Z.abs (a * rho - e * 2 ^ pre_of d) <= Z.abs a * rho + Z.abs e * 2 ^ pre_of d).
    { pose proof (Z.abs_triangle (a * rho) (- (e * 2 ^ pre_of d))) as Tr. rewrite Z.abs_opp, !Z.abs_mul, (Z.abs_eq rho), (Z.abs_eq (2 ^ pre_of d)) in Tr by lia.
      unfold Z.sub. exact Tr. }
    assert (B2 : 2 * (Z.abs e * 2 ^ pre_of d) <= 2 ^ pre_of d * 2 ^ s).
    { rewrite Z.mul_assoc, (Z.mul_comm (2 ^ pre_of d)). apply Z.mul_le_mono_nonneg_r; [lia|exact R]. }
    assert (B3 : Z.abs a * rho <= if d <=? 15 then 0 else Z.abs a * 2 ^ (d - 15)).
    { destruct (Z.leb_spec d 15).
      - replace (pre_of d) with 0 in Q by (unfold pre_of; lia). change (2 ^ 0) with 1 in Q. replace rho with 0 by lia. lia.
      - replace (d - 15) with (pre_of d) by (unfold pre_of; lia). apply Z.mul_le_mono_nonneg_l; [apply Z.abs_nonneg|lia]. }
    destruct (Z.leb_spec d 15); lia.
Qed.

(** * One element *)

(** [r] is the value of the table at [x] * 2^-[d]; inputs that are not finer than the table hit entries directly. *)
Definition table_spec (l : lut) (d x r : Z) : Prop :=
  if 0 <? d then table_value l d x r else r = tab l (Z.max 0 (Z.min (x * 2 ^ (- d) + l_off l) (l_len l - 1))).

Lemma lut_output_fx rm n l r : n = 8 \/ n = 16 -> in_bits 16 r -> lut_output rm (LOUT_FX n) l r = sat n (rnd rm r (16 - n)).
Proof.
  intros [-> | ->] Hr; unfold lut_output; cbn [Z.eqb Pos.eqb].
  - rewrite (cast_narrow_exact rm 16 8 r 8); [reflexivity|lia|lia|exact Hr|right; lia].
  - rewrite cast_same_spec by (auto; lia). change (16 - 16) with 0. rewrite rnd_0, sat_id by (auto; lia). reflexivity.
Qed.

Lemma lut_output_sa rm q l r : in_bits 16 r -> in_bits 8 (q_zp q) -> 0 <= l_fo l - q_frac q -> lut_output rm (LOUT_SA q) l r = sat 8 (rnd rm r (l_fo l - q_frac q) + q_zp q).
Proof.
  intros Hr Hz Hk. unfold lut_output, convert_fx16_sa8. set (k := l_fo l - q_frac q) in *.
  assert (Hr32 : in_bits 32 r) by (apply (in_bits_mono 16 32); auto; lia).
  rewrite asr_rnd_fx_spec; [|lia|exact Hr32|apply small_rnd_safe; rewrite ?ib16 in Hr; lia].
  unfold rshift_spec. destruct (Z.leb_spec 0 k); [|lia].
  assert (B : - 32768 <= rnd rm r k <= 32767).
  { rewrite ib16 in Hr. destruct (Z.eq_dec k 0) as [->|]; [rewrite rnd_0; lia|].
    pose proof (rnd_bounds rm 16 r k ltac:(lia) ltac:(now rewrite ib16) ltac:(lia)) as P. change (2 ^ (16 - 1)) with 32768 in P. lia. }
  rewrite ib8 in Hz. rewrite (wrap_id 32) by (try rewrite ib32; lia). rewrite acc_cast_8_spec by (rewrite ib32; lia).
  rewrite asr_rnd_fx_spec; [|lia|rewrite ib32; lia|apply small_rnd_safe; lia]. unfold rshift_spec. cbn [Z.leb Z.compare]. now rewrite rnd_0.
Qed.

Lemma lut_core rm ok l fin x ik : lut_ok l -> lut_smooth l -> in_bits 8 fin -> (ik = LIN_FX \/ exists off, ik = LIN_OFFSET off /\ in_bits 16 off) -> in_bits 16 x ->
  exists r, in_bits 16 r /\ table_spec l (fin - l_fi l) (lut_input rm ik fin x) r /\ lut_elem rm ik ok l fin x = Some (lut_output rm ok l r).
Proof.
  intros Hl Hsm Hf Hk Hx. pose proof Hl as (Hlen & Ho & Hfi & _). unfold lut_elem.
  assert (Ef : lut_in_frac ik l fin = fin) by (destruct Hk as [->|(off & -> & _)]; cbn [lut_in_frac]; apply wrap_id; auto; lia).
  assert (Bi : - 2 ^ 16 <= lut_input rm ik fin x <= 2 ^ 16 - 1 /\ lut_input_direct rm ik fin x = lut_input rm ik fin x).
  { rewrite ib16 in Hx. destruct Hk as [->|(off & -> & Bo)]; cbn [lut_input lut_input_direct]; (split; [|reflexivity]); [lia|].
    rewrite ib16 in Bo. rewrite sub_fx_spec by (try lia; rewrite ib32; lia). rewrite sat_id by (try lia; rewrite ib32; lia). lia. }
  destruct Bi as [Bi Ed]. assert (Bi32 : in_bits 32 (lut_input rm ik fin x)) by (rewrite ib32; lia).
  rewrite Ef, min_fx_min. unfold table_spec. rewrite Z.gtb_ltb.
  destruct (Z.ltb_spec 0 (Z.min (fin - l_fi l) 15)); destruct (Z.ltb_spec 0 (fin - l_fi l)); try lia.
  - unfold lut_elem_interp. rewrite Ef, lut_interp_eq by (auto; lia). cbn [bind]. eexists. split; [|split; [|reflexivity]].
    + apply interp_bits; [exact Hl|lia].
    + apply interp_table_value; [exact Hl|lia|right; lia].
  - unfold lut_elem_direct. rewrite Ef, Ed, min_fx_min. rewrite asl_fx_pos by (auto; lia).
    set (a := lut_input rm ik fin x) in *. replace (- Z.min (fin - l_fi l) 15) with (- (fin - l_fi l)) by lia.
    set (b := a * 2 ^ (- (fin - l_fi l))).
    rewrite add_fx_spec; [|lia|apply sat_in_bits; lia|rewrite ib32; lia]. rewrite bound_range_clamp by lia.
    replace (Z.max 0 (Z.min (sat 32 (sat 32 b + l_off l)) (l_len l - 1))) with (Z.max 0 (Z.min (b + l_off l) (l_len l - 1))).
    2:{ unfold sat, clamp. change (smin 32) with (- 2 ^ 31). change (smax 32) with (2 ^ 31 - 1). lia. }
    destruct (tab_load l (Z.max 0 (Z.min (b + l_off l) (l_len l - 1))) Hl ltac:(lia)) as [E B]. rewrite E. cbn [bind].
    eexists. split; [exact B|]. split; [reflexivity|reflexivity].
Qed.

(** The fixed point of an SA8 input with [f] fractional bits. *)
Definition sa_to_fx (rm : rmode) (q : qpar) (f x : Z) : Z := sat 32 (scale_rnd rm ((x - q_zp q) * q_scale q) (q_frac q - f)).

Lemma lut_input_sa rm q f x : in_bits 8 x -> in_bits 8 (q_zp q) -> in_bits 16 (q_scale q) -> lut_input rm (LIN_SA q) f x = sa_to_fx rm q f x.
Proof.
  intros Hx Hz Hs. cbn [lut_input]. unfold sa_to_fx. rewrite ib8 in Hx, Hz. rewrite ib16 in Hs.
  rewrite (wrap_id 16) by (try lia; rewrite ib16; lia). set (v := (x - q_zp q) * q_scale q).
  assert (B : Z.abs v <= 2 ^ 30 - 1) by (unfold v; rewrite Z.abs_mul; change (2 ^ 30 - 1) with 1073741823; nia).
  assert (B32 : in_bits 32 v) by (rewrite ib32; lia).
  rewrite cast_same_spec by (auto; lia). rewrite asr_rnd_fx_spec; [|lia|exact B32|apply small_rnd_safe; lia].
  unfold rshift_spec, scale_rnd. destruct (Z.leb_spec 0 (q_frac q - f)).
  - symmetry. apply sat_id. destruct (Z.eq_dec (q_frac q - f) 0) as [->|]; [now rewrite rnd_0|].
    pose proof (rnd_bounds rm 32 v (q_frac q - f) ltac:(lia) B32 ltac:(lia)) as P. rewrite ib32. change (2 ^ (32 - 1)) with 2147483648 in P. lia.
  - reflexivity.
Qed.

Lemma lut_core_sa rm ok l q fin x : lut_ok l -> lut_smooth l -> in_bits 8 x -> in_bits 8 (q_zp q) -> in_bits 16 (q_scale q) ->
  exists r, in_bits 16 r /\ table_value l 8 (sa_to_fx rm q (l_fi l + 8) x) r
    /\ lut_elem rm (LIN_SA q) ok l fin x = Some (lut_output rm ok l r) /\ lut_elem_interp rm (LIN_SA q) ok l fin x = Some (lut_output rm ok l r).
Proof.
  intros Hl Hsm Hx Hz Hs. pose proof Hl as (Hlen & Ho & Hfi & _). unfold lut_elem.
  assert (Ef : lut_in_frac (LIN_SA q) l fin = l_fi l + 8) by (cbn [lut_in_frac]; rewrite wrap_id; [lia|lia|rewrite ib8; lia]).
  rewrite Ef, min_fx_min. destruct (Z.gtb_spec (Z.min (l_fi l + 8 - l_fi l) 15) 0); [|lia].
  unfold lut_elem_interp. rewrite Ef, lut_input_sa by auto.
  rewrite lut_interp_eq; [|exact Hl|exact Hsm|lia|apply sat_in_bits; lia]. cbn [bind]. replace (l_fi l + 8 - l_fi l) with 8 by lia.
  eexists. split; [|split; [|split; reflexivity]].
  - apply interp_bits; [exact Hl|lia].
  - apply interp_table_value; [exact Hl|lia|left; lia].
Qed.

(** * All elements *)

Lemma map_all_run g pi po sh sti sto m : sh <> [] -> (length sh <= 4)%nat -> Forall (fun d => 0 <= d) sh ->
  length sti = length sh -> length sto = length sh -> last sti 0 = 1 -> last sto 0 = 1 ->
  map_all g pi po (squash_generic 2 (dims_of sh [sti; sto])) m
  = foldM (fun c m => do x <- load m (pi + addr sti c); do y <- g x; store m (po + addr sto c) y) (coords sh) m.
Proof.
  intros Hn Hr Hp L1 L2 E1 E2. unfold map_all. set (sts := [sti; sto]). pose proof (dims_wf sh sts Hp) as W. destruct (dims_snoc sh sts Hn) as (l & inner & El).
  assert (HL : forall k, (k < 2)%nat -> d_stride k (dims_of sh sts) = nth k sts [] /\ last (nth k sts []) 0 = 1).
  { intros k Hk. split; [apply dims_stride|]; destruct k as [|[|k]]; cbn [nth sts length]; auto; lia. }
  assert (Hin : forall k, (k < 2)%nat -> nth k (snd inner) 0 = 1).
  { intros k Hk. destruct (HL k Hk) as [A B]. rewrite <- A, El in B. unfold d_stride in B. rewrite map_app in B. cbn [map] in B. now rewrite last_last in B. }
  assert (Hll : (length l < 4)%nat).
  { pose proof (f_equal (@length Z) (dims_shape sh sts)) as E. unfold d_shape in E. rewrite map_length, El, app_length in E. cbn in E. lia. }
  assert (V : forall k, (k < 2)%nat -> map (addr (d_stride k (squash_generic 2 (dims_of sh sts)))) (coords (d_shape (squash_generic 2 (dims_of sh sts))))
    = map (addr (nth k sts [])) (coords sh)).
  { intros k Hk. destruct (squash_generic_correct 2 k l inner Hk ltac:(now rewrite <- El) Hll (Hin k Hk)) as [V _].
    rewrite <- El in V. unfold visited in V. rewrite V, dims_shape. now rewrite (proj1 (HL k Hk)). }
  apply (foldM_triple (fun a b _ m => do x <- load m (pi + a); do y <- g x; store m (po + b) y) (addr (d_stride 0 (squash_generic 2 (dims_of sh sts))))
    (addr (d_stride 1 (squash_generic 2 (dims_of sh sts)))) (addr (d_stride 1 (squash_generic 2 (dims_of sh sts)))) (addr sti) (addr sto) (addr sto)).
  - exact (V 0%nat ltac:(lia)).
  - exact (V 1%nat ltac:(lia)).
  - exact (V 1%nat ltac:(lia)).
Qed.

Lemma map_all_correct g gv tin tout m :
  chk_basic_activation tin tout = ST_OK -> t_rank tin <> 0 -> fits32 tin -> fits32 tout -> backed tin m -> backed tout m -> unary_ok tin tout ->
  (forall c, valid (t_shape tin) c -> g (rd m (t_data tin + addr (t_stride tin) c)) = Some (gv c)) ->
  exists m', map_all g (t_data tin) (t_data tout) (squash_generic 2 (dims_of (t_shape tin) [t_stride tin; t_stride tout])) m = Some m'
    /\ (forall c, valid (t_shape tout) c -> m' (t_data tout + addr (t_stride tout) c) = Some (gv c))
    /\ frame_ok tout m m'.
Proof.
  intros Hc R FI FO BI BO U Hg. destruct (chk_relu_facts tin tout Hc R) as (CI & CO & Es & L1 & L2).
  pose proof FI as (LI & _). pose proof FO as (LO & _). destruct (chk_tensor_pos tin CI LI) as (R4 & P & _).
  destruct (chk_tensor_nested tout FO CO) as (Nst & _).
  rewrite map_all_run; auto using last_pos_shape; try congruence.
  2:{ intros E. apply R. unfold t_rank. now rewrite E. }
  destruct (foldM_inplace (fun c => t_data tout + addr (t_stride tout) c) gv (fun c a => a = t_data tin + addr (t_stride tin) c)
    (fun c m => do x <- load m (t_data tin + addr (t_stride tin) c); do y <- g x; store m (t_data tout + addr (t_stride tout) c) y) (coords (t_shape tin)) m)
    as (m' & Em & H1 & H2).
  - apply coords_NoDup.
  - intros c m' Hin Hr. apply in_coords in Hin. rewrite (load_eq m); [|now apply chk_backed|now apply Hr]. cbn [bind]. rewrite Hg by exact Hin. reflexivity.
  - intros c Hin. apply in_coords in Hin. apply chk_backed; auto. now rewrite <- Es.
  - intros c c' Hin Hin' E. apply in_coords in Hin, Hin'. rewrite Es in Hin, Hin'. apply (nested_inj (t_shape tout) (t_stride tout)); auto. lia.
  - intros c c' Hin Hin' Hne E. apply in_coords in Hin, Hin'. rewrite Es in Hin, Hin'. exact (U c c' Hin Hin' Hne (eq_sym E)).
  - exists m'. split; [exact Em|]. split.
    + intros c V. apply H1. apply in_coords. now rewrite Es.
    + intros a Ha. apply H2. intros c Hin E. apply in_coords in Hin. rewrite Es in Hin. apply (Ha c Hin). lia.
Qed.

Definition lut_get (rm : rmode) (ik : lut_in) (ok : lut_out) (l : lut) (fin x : Z) : Z :=
  match lut_elem rm ik ok l fin x with Some v => v | None => 0 end.

(** The whole kernel for any conversions, if the element function is defined for all inputs. *)
Lemma activation_lut_run rm ik ok l fin n tin tout m : 1 <= n ->
  chk_basic_activation tin tout = ST_OK -> t_rank tin <> 0 -> fits32 tin -> fits32 tout -> backed tin m -> backed tout m -> unary_ok tin tout ->
  mem_bits n m -> (forall x, in_bits n x -> lut_elem rm ik ok l fin x = Some (lut_get rm ik ok l fin x)) ->
  exists m', activation_lut rm ik ok l fin tin tout m = Some m'
    /\ (forall c, valid (t_shape tout) c ->
        m' (t_data tout + addr (t_stride tout) c) = Some (lut_get rm ik ok l fin (rd m (t_data tin + addr (t_stride tin) c))))
    /\ frame_ok tout m m'.
Proof.
  intros Hn Hc R FI FO BI BO U MB Hg.
  destruct (map_all_correct (lut_elem rm ik ok l fin) (fun c => lut_get rm ik ok l fin (rd m (t_data tin + addr (t_stride tin) c)))
    tin tout m Hc R FI FO BI BO U) as (m' & E & V & F).
  - intros c _. apply Hg. apply rd_bits; auto.
  - exists m'. auto.
Qed.

Lemma lut_get_fx rm n l fin x : n = 8 \/ n = 16 -> lut_ok l -> lut_smooth l -> in_bits 8 fin -> in_bits n x ->
  lut_elem rm LIN_FX (LOUT_FX n) l fin x = Some (lut_get rm LIN_FX (LOUT_FX n) l fin x)
  /\ exists r, in_bits 16 r /\ table_spec l (fin - l_fi l) x r /\ lut_get rm LIN_FX (LOUT_FX n) l fin x = sat n (rnd rm r (16 - n)).
Proof.
  intros Hn Hl Hsm Hf Hx. assert (B : in_bits 16 x) by (destruct Hn as [-> | ->]; [apply (in_bits_mono 8 16); auto; lia|auto]).
  destruct (lut_core rm (LOUT_FX n) l fin x LIN_FX Hl Hsm Hf (or_introl eq_refl) B) as (r & Br & S & E).
  unfold lut_get. rewrite E. split; [reflexivity|]. exists r. split; [exact Br|]. split; [exact S|]. now apply lut_output_fx.
Qed.

Lemma lut_get_sa rm l i o x : lut_ok l -> lut_smooth l -> in_bits 8 (q_zp i) -> in_bits 16 (q_scale i) -> in_bits 8 (q_zp o) -> 0 <= l_fo l - q_frac o -> in_bits 8 x ->
  lut_elem rm (LIN_SA i) (LOUT_SA o) l 0 x = Some (lut_get rm (LIN_SA i) (LOUT_SA o) l 0 x)
  /\ exists r, in_bits 16 r /\ table_value l 8 (sa_to_fx rm i (l_fi l + 8) x) r
     /\ lut_get rm (LIN_SA i) (LOUT_SA o) l 0 x = sat 8 (rnd rm r (l_fo l - q_frac o) + q_zp o).
Proof.
  intros Hl Hsm Hz Hs Ho Hk Hx.
  destruct (lut_core_sa rm (LOUT_SA o) l i 0 x Hl Hsm Hx Hz Hs) as (r & Br & S & E & _).
  unfold lut_get. rewrite E. split; [reflexivity|]. exists r. split; [exact Br|]. split; [exact S|]. now apply lut_output_sa.
Qed.

(** * The kernels *)

(** mli_krn_{sigm,tanh}_fx{8,16}: every output element is the value of the table at the real value of the input element, rounded
    to the output format; nothing else is written, and only table entries are read. *)
Theorem act_fx_correct rm n l fin tin tout m : n = 8 \/ n = 16 ->
  chk_basic_activation tin tout = ST_OK -> t_rank tin <> 0 -> fits32 tin -> fits32 tout -> backed tin m -> backed tout m -> unary_ok tin tout ->
  mem_bits n m -> lut_ok l -> lut_smooth l -> in_bits 8 fin ->
  exists m', act_fx rm n l fin tin tout m = Some m'
    /\ (forall c, valid (t_shape tout) c -> exists r,
        table_spec l (fin - l_fi l) (rd m (t_data tin + addr (t_stride tin) c)) r
        /\ m' (t_data tout + addr (t_stride tout) c) = Some (sat n (rnd rm r (16 - n))))
    /\ frame_ok tout m m'.
Proof.
  intros Hn Hc R FI FO BI BO U MB Hl Hsm Hf.
  destruct (activation_lut_run rm LIN_FX (LOUT_FX n) l fin n tin tout m ltac:(lia) Hc R FI FO BI BO U MB) as (m' & E & V & F).
  { intros x Hx. now apply lut_get_fx. }
  exists m'. split; [exact E|]. split; [|exact F]. intros c Hv. rewrite V by exact Hv.
  destruct (lut_get_fx rm n l fin (rd m (t_data tin + addr (t_stride tin) c)) Hn Hl Hsm Hf ltac:(apply rd_bits; auto; lia)) as (_ & r & _ & S & Eg).
  exists r. split; [exact S|]. now rewrite Eg.
Qed.

(** mli_krn_{sigm,tanh}_sa8: the input is converted to fixed point with 8 fractional bits more than the table. *)
Theorem act_sa8_correct rm l i o tin tout m :
  chk_basic_activation tin tout = ST_OK -> t_rank tin <> 0 -> fits32 tin -> fits32 tout -> backed tin m -> backed tout m -> unary_ok tin tout ->
  mem_bits 8 m -> lut_ok l -> lut_smooth l -> qpar_typed i -> chk_act_quant i = true -> o = sigm_sa8_out \/ o = tanh_sa8_out -> 8 <= l_fo l ->
  exists m', act_sa8 rm o l i tin tout m = Some m'
    /\ (forall c, valid (t_shape tout) c -> exists r,
        table_value l 8 (sa_to_fx rm i (l_fi l + 8) (rd m (t_data tin + addr (t_stride tin) c))) r
        /\ m' (t_data tout + addr (t_stride tout) c) = Some (sat 8 (rnd rm r (l_fo l - q_frac o) + q_zp o)))
    /\ frame_ok tout m m'.
Proof.
  intros Hc R FI FO BI BO U MB Hl Hsm Hq Hqc Ho Hfo.
  assert (Hz : in_bits 8 (q_zp i)) by (unfold chk_act_quant in Hqc; rewrite ib8; lia). destruct Hq as [Hs _].
  assert (Ho' : in_bits 8 (q_zp o) /\ 0 <= l_fo l - q_frac o) by (destruct Ho as [-> | ->]; rewrite ib8; cbn [q_zp q_frac sigm_sa8_out tanh_sa8_out]; lia).
  destruct (activation_lut_run rm (LIN_SA i) (LOUT_SA o) l 0 8 tin tout m ltac:(lia) Hc R FI FO BI BO U MB) as (m' & E & V & F).
  { intros x Hx. now apply lut_get_sa. }
  exists m'. split; [exact E|]. split; [|exact F]. intros c Hv. rewrite V by exact Hv.
  destruct (lut_get_sa rm l i o (rd m (t_data tin + addr (t_stride tin) c)) Hl Hsm Hz Hs (proj1 Ho') (proj2 Ho') ltac:(apply rd_bits; auto; lia)) as (_ & r & _ & S & Eg).
  exists r. split; [exact S|]. now rewrite Eg.
Qed.

(** Memory safety does not depend on the values in the table: the two entries that are read always exist. *)
Theorem lut_elem_safe rm ik ok l fin x : lut_ok l -> exists v, lut_elem rm ik ok l fin x = Some v.
Proof.
  intros Hl. pose proof Hl as (Hlen & _). unfold lut_elem, lut_elem_interp, lut_interp, lut_elem_direct. destruct (_ >? 0).
  - rewrite bound_range_clamp by lia. set (i := Z.max 0 _). assert (0 <= i <= l_len l - 2) by (unfold i; lia).
    destruct (tab_load l i Hl ltac:(lia)) as [E1 _]. destruct (tab_load l (i + 1) Hl ltac:(lia)) as [E2 _]. rewrite E1, E2. cbn [bind]. eauto.
  - rewrite bound_range_clamp by lia. set (i := Z.max 0 _). assert (0 <= i <= l_len l - 1) by (unfold i; lia).
    destruct (tab_load l i Hl ltac:(lia)) as [E1 _]. rewrite E1. cbn [bind]. eauto.
Qed.

(** * Monotonicity *)

(** The result for the fixed point input [x] (before the conversion of the output). *)
Definition fx_core (rm : rmode) (l : lut) (d x : Z) : Z :=
  if 0 <? d then interp rm l (Z.min d 15) (x / 2 ^ pre_of d) else tab l (Z.max 0 (Z.min (x * 2 ^ (- d) + l_off l) (l_len l - 1))).

Lemma fx_core_bits rm l d x : lut_ok l -> in_bits 16 (fx_core rm l d x).
Proof.
  intros Hl. unfold fx_core. destruct (Z.ltb_spec 0 d); [apply interp_bits; auto; lia|]. apply tab_load; auto. destruct Hl; lia.
Qed.

Lemma lut_core_eq rm ok l fin x ik : lut_ok l -> lut_smooth l -> in_bits 8 fin -> (ik = LIN_FX \/ exists off, ik = LIN_OFFSET off /\ in_bits 16 off) -> in_bits 16 x ->
  lut_elem rm ik ok l fin x = Some (lut_output rm ok l (fx_core rm l (fin - l_fi l) (lut_input rm ik fin x))).
Proof.
  intros Hl Hsm Hf Hk Hx. pose proof Hl as (Hlen & Ho & Hfi & _). unfold lut_elem.
  assert (Ef : lut_in_frac ik l fin = fin) by (destruct Hk as [->|(off & -> & _)]; cbn [lut_in_frac]; apply wrap_id; auto; lia).
  assert (Bi : - 2 ^ 16 <= lut_input rm ik fin x <= 2 ^ 16 - 1 /\ lut_input_direct rm ik fin x = lut_input rm ik fin x).
  { rewrite ib16 in Hx. destruct Hk as [->|(off & -> & Bo)]; cbn [lut_input lut_input_direct]; (split; [|reflexivity]); [lia|].
    rewrite ib16 in Bo. rewrite sub_fx_spec by (try lia; rewrite ib32; lia). rewrite sat_id by (try lia; rewrite ib32; lia). lia. }
  destruct Bi as [Bi Ed]. assert (Bi32 : in_bits 32 (lut_input rm ik fin x)) by (rewrite ib32; lia).
  rewrite Ef, min_fx_min. unfold fx_core. rewrite Z.gtb_ltb.
  destruct (Z.ltb_spec 0 (Z.min (fin - l_fi l) 15)); destruct (Z.ltb_spec 0 (fin - l_fi l)); try lia.
  - unfold lut_elem_interp. rewrite Ef, lut_interp_eq by (auto; lia). reflexivity.
  - unfold lut_elem_direct. rewrite Ef, Ed, min_fx_min. rewrite asl_fx_pos by (auto; lia).
    set (a := lut_input rm ik fin x) in *. replace (- Z.min (fin - l_fi l) 15) with (- (fin - l_fi l)) by lia.
    set (b := a * 2 ^ (- (fin - l_fi l))).
    rewrite add_fx_spec; [|lia|apply sat_in_bits; lia|rewrite ib32; lia]. rewrite bound_range_clamp by lia.
    replace (Z.max 0 (Z.min (sat 32 (sat 32 b + l_off l)) (l_len l - 1))) with (Z.max 0 (Z.min (b + l_off l) (l_len l - 1))).
    2:{ unfold sat, clamp. change (smin 32) with (- 2 ^ 31). change (smax 32) with (2 ^ 31 - 1). lia. }
    destruct (tab_load l (Z.max 0 (Z.min (b + l_off l) (l_len l - 1))) Hl ltac:(lia)) as [E B]. rewrite E. reflexivity.
Qed.

Lemma sa_core_eq rm ok l q fin x : lut_ok l -> lut_smooth l -> in_bits 8 x -> in_bits 8 (q_zp q) -> in_bits 16 (q_scale q) ->
  lut_elem rm (LIN_SA q) ok l fin x = Some (lut_output rm ok l (fx_core rm l 8 (sa_to_fx rm q (l_fi l + 8) x)))
  /\ lut_elem_interp rm (LIN_SA q) ok l fin x = Some (lut_output rm ok l (fx_core rm l 8 (sa_to_fx rm q (l_fi l + 8) x))).
Proof.
  intros Hl Hsm Hx Hz Hs. pose proof Hl as (Hlen & Ho & Hfi & _). unfold lut_elem.
  assert (Ef : lut_in_frac (LIN_SA q) l fin = l_fi l + 8) by (cbn [lut_in_frac]; rewrite wrap_id; [lia|lia|rewrite ib8; lia]).
  rewrite Ef, min_fx_min. destruct (Z.gtb_spec (Z.min (l_fi l + 8 - l_fi l) 15) 0); [|lia].
  unfold lut_elem_interp. rewrite Ef, lut_input_sa by auto.
  rewrite lut_interp_eq; [|exact Hl|exact Hsm|lia|apply sat_in_bits; lia]. cbn [bind]. replace (l_fi l + 8 - l_fi l) with 8 by lia.
  split; reflexivity.
Qed.

Lemma sa_to_fx_mono rm q f x y : 0 <= q_scale q -> x <= y -> sa_to_fx rm q f x <= sa_to_fx rm q f y.
Proof.
  intros Hs Hxy. unfold sa_to_fx, scale_rnd. destruct (Z.leb_spec 0 (q_frac q - f)).
  - pose proof (rnd_mono rm ((x - q_zp q) * q_scale q) ((y - q_zp q) * q_scale q) (q_frac q - f) ltac:(lia) ltac:(nia)).
    unfold sat, clamp. lia.
  - pose proof (pow2_gt0 (- (q_frac q - f)) ltac:(lia)).
    assert ((x - q_zp q) * q_scale q * 2 ^ (- (q_frac q - f)) <= (y - q_zp q) * q_scale q * 2 ^ (- (q_frac q - f))) by (apply Z.mul_le_mono_nonneg_r; nia).
    unfold sat, clamp. lia.
Qed.

(** For a function [h] that does not see the jumps beyond the ends of the table. *)
Lemma interp_mono_out rm l s x y (h : Z -> Z) : lut_ok l -> lut_mono l -> 0 <= s -> x <= y -> (forall a b, a <= b -> h a <= h b) ->
  (in_table l s x /\ in_table l s y \/ h (tab l 0) = h (tab l 1) /\ h (tab l (l_len l - 2)) = h (tab l (l_len l - 1))) ->
  h (interp rm l s x) <= h (interp rm l s y).
Proof.
  intros Hl Hm Hs Hxy Hh Hr. pose proof (interp_between rm l s x Hl Hs) as Bx. pose proof (interp_between rm l s y Hl Hs) as By. cbv zeta in Bx, By.
  destruct (idx_of_range l s x Hl) as [X1 X2]. destruct (idx_of_range l s y Hl) as [Y1 Y2]. pose proof (idx_of_mono l s x y Hs Hxy) as I.
  pose proof (Hm _ X1 X2) as Mx. pose proof (Hm _ Y1 Y2) as My.
  destruct (Z_lt_le_dec (idx_of l s x) (idx_of l s y)) as [Hlt|Hle].
  { pose proof (tab_mono_le l (idx_of l s x + 1) (idx_of l s y) Hm ltac:(lia) ltac:(lia) ltac:(lia)). apply Hh. lia. }
  assert (E : idx_of l s y = idx_of l s x) by lia. pose proof (pow2_gt0 s Hs) as P.
  destruct (Z.eq_dec (x / 2 ^ s) (y / 2 ^ s)) as [Eq|Nq].
  - apply Hh. unfold interp. rewrite E. set (i := idx_of l s x) in *. pose proof (Z.div_mod x (2 ^ s) ltac:(lia)). pose proof (Z.div_mod y (2 ^ s) ltac:(lia)).
    assert (x mod 2 ^ s <= y mod 2 ^ s) by (rewrite Eq in *; lia).
    pose proof (rnd_mono rm ((tab l i - tab l (i + 1)) * (y mod 2 ^ s)) ((tab l i - tab l (i + 1)) * (x mod 2 ^ s)) s Hs ltac:(nia)). lia.
  - destruct Hr as [[Rx Ry]|[Hf Hla]].
    + rewrite !in_table_idx in E by auto. lia.
    + rewrite E in By. pose proof (Z.div_le_mono x y (2 ^ s) P Hxy).
      rewrite Z.min_l, Z.max_r in Bx, By by exact Mx.
      pose proof (Hh _ _ (proj1 Bx)). pose proof (Hh _ _ (proj2 Bx)). pose proof (Hh _ _ (proj1 By)). pose proof (Hh _ _ (proj2 By)).
      assert (idx_of l s x = 0 \/ idx_of l s x = l_len l - 2) as [K|K] by (unfold idx_of in E |- *; lia); rewrite K in *.
      * change (0 + 1) with 1 in *. lia.
      * replace (l_len l - 2 + 1) with (l_len l - 1) in * by lia. lia.
Qed.

Lemma in_table_pre l d x : 1 <= d -> d <= 30 -> in_table l d x -> in_table l (Z.min d 15) (x / 2 ^ pre_of d).
Proof.
  intros Hd Hd' [H1 H2]. unfold in_table. pose proof (pow2_gt0 (pre_of d) ltac:(unfold pre_of; lia)) as PP. pose proof (pow2_gt0 (Z.min d 15) ltac:(lia)) as PS.
  assert (ED : 2 ^ d = 2 ^ Z.min d 15 * 2 ^ pre_of d) by (rewrite <- Z.pow_add_r by (unfold pre_of; lia); f_equal; unfold pre_of; lia).
  rewrite ED in *. pose proof (Z.div_mod x (2 ^ pre_of d) ltac:(lia)). pose proof (Z.mod_pos_bound x (2 ^ pre_of d) PP).
  set (q := x / 2 ^ pre_of d) in *. set (P := 2 ^ pre_of d) in *. set (S := 2 ^ Z.min d 15) in *. set (o := l_off l) in *. set (n := l_len l - 1) in *.
  assert (A1 : 0 <= (q + o * S) * P + x mod P) by lia. assert (A2 : (q + o * S) * P + x mod P < n * S * P) by lia. nia.
Qed.

Lemma fx_core_mono rm l d x y (h : Z -> Z) : lut_ok l -> lut_mono l -> x <= y -> (forall a b, a <= b -> h a <= h b) ->
  (d <= 30 /\ in_table l d x /\ in_table l d y \/ h (tab l 0) = h (tab l 1) /\ h (tab l (l_len l - 2)) = h (tab l (l_len l - 1))) ->
  h (fx_core rm l d x) <= h (fx_core rm l d y).
Proof.
  intros Hl Hm Hxy Hh Hr. unfold fx_core. destruct (Z.ltb_spec 0 d).
  - apply interp_mono_out; auto; [lia|apply Z.div_le_mono; [apply pow2_gt0; unfold pre_of; lia|exact Hxy]|].
    destruct Hr as [(H30 & A & B)|]; [left|right; assumption]. split; apply in_table_pre; auto; lia.
  - apply Hh. pose proof (pow2_gt0 (- d) ltac:(lia)). apply tab_mono_le; auto; destruct Hl; nia.
Qed.

(** At most one unit of table output is lost beyond the ends of the table if the first and last steps are at most 1. *)
Lemma fx_core_mono_err rm l d x y e : lut_ok l -> lut_mono l -> x <= y -> 0 <= e ->
  tab l 1 - tab l 0 <= e -> tab l (l_len l - 1) - tab l (l_len l - 2) <= e -> fx_core rm l d x <= fx_core rm l d y + e.
Proof.
  intros Hl Hm Hxy He H1 H2. unfold fx_core. destruct (Z.ltb_spec 0 d).
  - apply interp_mono; auto; [lia|apply Z.div_le_mono; [apply pow2_gt0; unfold pre_of; lia|exact Hxy]].
  - pose proof (pow2_gt0 (- d) ltac:(lia)).
    assert (tab l (Z.max 0 (Z.min (x * 2 ^ (- d) + l_off l) (l_len l - 1))) <= tab l (Z.max 0 (Z.min (y * 2 ^ (- d) + l_off l) (l_len l - 1)))).
    { apply tab_mono_le; auto; destruct Hl; nia. }
    lia.
Qed.

(** * Monotone kernels *)

Lemma sat_mono n a b : a <= b -> sat n a <= sat n b.
Proof. unfold sat, clamp. lia. Qed.

(** With a non-decreasing table, larger inputs get larger outputs, as long as both points lie in the table or the output
    format does not see the difference of the first two and the last two entries. *)
Theorem act_fx_monotone rm n l fin tin tout m m' c c' : n = 8 \/ n = 16 ->
  chk_basic_activation tin tout = ST_OK -> t_rank tin <> 0 -> fits32 tin -> fits32 tout -> backed tin m -> backed tout m -> unary_ok tin tout ->
  mem_bits n m -> lut_ok l -> lut_smooth l -> lut_mono l -> in_bits 8 fin -> act_fx rm n l fin tin tout m = Some m' ->
  valid (t_shape tout) c -> valid (t_shape tout) c' ->
  let x := rd m (t_data tin + addr (t_stride tin) c) in
  let y := rd m (t_data tin + addr (t_stride tin) c') in
  let d := fin - l_fi l in
  let out r := sat n (rnd rm r (16 - n)) in
  (d <= 30 /\ in_table l d x /\ in_table l d y
   \/ out (tab l 0) = out (tab l 1) /\ out (tab l (l_len l - 2)) = out (tab l (l_len l - 1))) ->
  x <= y -> rd m' (t_data tout + addr (t_stride tout) c) <= rd m' (t_data tout + addr (t_stride tout) c').
Proof.
  intros Hn Hc R FI FO BI BO U MB Hl Hsm Hm Hf E V V' x y d out Hr Hxy.
  assert (Bx : forall a, in_bits n (rd m a)) by (intros; apply rd_bits; auto; lia).
  assert (K : forall x, in_bits n x -> lut_elem rm LIN_FX (LOUT_FX n) l fin x = Some (out (fx_core rm l d x))).
  { intros z Hz. rewrite lut_core_eq; auto; [|destruct Hn as [-> | ->]; [apply (in_bits_mono 8 16); auto; lia|auto]].
    cbn [lut_input]. f_equal. apply lut_output_fx; auto. now apply fx_core_bits. }
  destruct (activation_lut_run rm LIN_FX (LOUT_FX n) l fin n tin tout m ltac:(lia) Hc R FI FO BI BO U MB) as (m'' & E' & H & _).
  { intros z Hz. unfold lut_get. rewrite K by exact Hz. reflexivity. }
  unfold act_fx in E. rewrite E in E'. injection E' as <-.
  unfold rd at 1 2. rewrite !H by auto. unfold lut_get. fold x y. rewrite !K by apply Bx.
  apply (fx_core_mono rm l d x y out); auto. intros a b Hab. unfold out. apply sat_mono, rnd_mono; lia.
Qed.

Theorem act_sa8_monotone rm l i o tin tout m m' c c' :
  chk_basic_activation tin tout = ST_OK -> t_rank tin <> 0 -> fits32 tin -> fits32 tout -> backed tin m -> backed tout m -> unary_ok tin tout ->
  mem_bits 8 m -> lut_ok l -> lut_smooth l -> lut_mono l -> qpar_typed i -> chk_act_quant i = true -> o = sigm_sa8_out \/ o = tanh_sa8_out -> 8 <= l_fo l ->
  act_sa8 rm o l i tin tout m = Some m' -> valid (t_shape tout) c -> valid (t_shape tout) c' ->
  let x := rd m (t_data tin + addr (t_stride tin) c) in
  let y := rd m (t_data tin + addr (t_stride tin) c') in
  let out r := sat 8 (rnd rm r (l_fo l - q_frac o) + q_zp o) in
  (in_table l 8 (sa_to_fx rm i (l_fi l + 8) x) /\ in_table l 8 (sa_to_fx rm i (l_fi l + 8) y)
   \/ out (tab l 0) = out (tab l 1) /\ out (tab l (l_len l - 2)) = out (tab l (l_len l - 1))) ->
  x <= y -> rd m' (t_data tout + addr (t_stride tout) c) <= rd m' (t_data tout + addr (t_stride tout) c').
Proof.
  intros Hc R FI FO BI BO U MB Hl Hsm Hm Hq Hqc Ho Hfo E V V' x y out Hr Hxy.
  assert (Hz : in_bits 8 (q_zp i) /\ 0 < q_scale i) by (unfold chk_act_quant in Hqc; rewrite ib8; lia). destruct Hz as [Hz Hp]. destruct Hq as [Hs _].
  assert (Ho' : in_bits 8 (q_zp o) /\ 0 <= l_fo l - q_frac o) by (destruct Ho as [-> | ->]; rewrite ib8; cbn [q_zp q_frac sigm_sa8_out tanh_sa8_out]; lia).
  assert (Bx : forall a, in_bits 8 (rd m a)) by (intros; apply rd_bits; auto; lia).
  assert (K : forall x, in_bits 8 x -> lut_elem rm (LIN_SA i) (LOUT_SA o) l 0 x = Some (out (fx_core rm l 8 (sa_to_fx rm i (l_fi l + 8) x)))).
  { intros z Bz. rewrite (proj1 (sa_core_eq rm (LOUT_SA o) l i 0 z Hl Hsm Bz Hz Hs)). f_equal. apply lut_output_sa; try tauto. now apply fx_core_bits. }
  destruct (activation_lut_run rm (LIN_SA i) (LOUT_SA o) l 0 8 tin tout m ltac:(lia) Hc R FI FO BI BO U MB) as (m'' & E' & H & _).
  { intros z Bz. unfold lut_get. rewrite K by exact Bz. reflexivity. }
  unfold act_sa8 in E. rewrite E in E'. injection E' as <-.
  unfold rd at 1 2. rewrite !H by auto. unfold lut_get. fold x y. rewrite !K by apply Bx.
  apply (fx_core_mono rm l 8 _ _ out); auto.
  - apply sa_to_fx_mono; lia.
  - intros a b Hab. unfold out. apply sat_mono. pose proof (rnd_mono rm a b (l_fo l - q_frac o) ltac:(lia) Hab). lia.
  - destruct Hr as [[A B]|]; [left; repeat split; try apply A; try apply B; lia|right; assumption].
Qed.

(** * The tables of the library *)

Definition table_chk (t : list Z) : bool :=
  (2 <=? Z.of_nat (length t)) && (Z.of_nat (length t) <=? 65536) && forallb (fun v => (-32768 <=? v) && (v <=? 32767)) t
  && forallb (fun '(a, b) => (-32768 <=? a - b) && (a - b <=? 32767)) (combine t (tl t)).

Definition table_mono_chk (t : list Z) : bool := forallb (fun '(a, b) => a <=? b) (combine t (tl t)).

Lemma tab_const t fi fo off i : 0 <= i -> tab (const_lut t fi fo off) i = nth (Z.to_nat i) t 0.
Proof.
  intros Hi. unfold tab, const_lut, rd, tab_mem. cbn [l_data]. destruct (Z.ltb_spec i 0); [lia|].
  destruct (nth_error t (Z.to_nat i)) eqn:E; [symmetry; now apply nth_error_nth|]. apply nth_error_None in E. now rewrite nth_overflow.
Qed.

Lemma pair_in t i : 0 <= i -> i + 1 < Z.of_nat (length t) -> In (nth (Z.to_nat i) t 0, nth (Z.to_nat (i + 1)) t 0) (combine t (tl t)).
Proof.
  intros Hi Hj. replace (Z.to_nat (i + 1)) with (S (Z.to_nat i)) by lia. assert (Hk : (S (Z.to_nat i) < length t)%nat) by lia.
  revert Hk. generalize (Z.to_nat i) as k. clear. induction t as [|a t IH]; intros k Hk; cbn [length] in Hk; [lia|].
  destruct t as [|b t]; cbn [length] in Hk; [lia|]. cbn [tl combine]. destruct k as [|k]; [left; reflexivity|].
  right. apply (IH k). cbn [length]. lia.
Qed.

Lemma const_lut_ok t fi fo off : table_chk t = true -> Z.abs off <= 2 ^ 30 -> 0 <= fi <= 119 ->
  lut_ok (const_lut t fi fo off) /\ lut_smooth (const_lut t fi fo off).
Proof.
  intros H Ho Hf. unfold table_chk in H. rewrite !andb_true_iff, !Z.leb_le, !forallb_forall in H. destruct H as (((H1 & H2) & H3) & H4). split.
  - split; [cbn [const_lut l_len]; lia|]. split; [exact Ho|]. split; [exact Hf|]. intros i Hi. cbn [const_lut l_len l_data] in *. unfold tab_mem.
    destruct (Z.ltb_spec i 0); [lia|]. destruct (nth_error t (Z.to_nat i)) as [v|] eqn:E.
    + exists v. split; [reflexivity|]. apply nth_error_In in E. specialize (H3 v E). rewrite ib16. lia.
    + apply nth_error_None in E. lia.
  - intros i Hi Hj. cbn [const_lut l_len] in Hj. rewrite !tab_const by lia. specialize (H4 _ (pair_in t i Hi Hj)). cbv beta iota in H4. rewrite ib16. lia.
Qed.

Lemma const_lut_mono t fi fo off : table_mono_chk t = true -> lut_mono (const_lut t fi fo off).
Proof.
  intros H i Hi Hj. unfold table_mono_chk in H. rewrite forallb_forall in H. cbn [const_lut l_len] in Hj. rewrite !tab_const by lia.
  specialize (H _ (pair_in t i Hi Hj)). cbv beta iota in H. lia.
Qed.

Theorem library_tables_ok :
  (lut_ok sigmoid_lut /\ lut_smooth sigmoid_lut /\ lut_mono sigmoid_lut)
  /\ (lut_ok tanh_lut /\ lut_smooth tanh_lut /\ lut_mono tanh_lut)
  /\ (lut_ok expneg_lut /\ lut_smooth expneg_lut /\ lut_mono expneg_lut)
  /\ (lut_ok invsqrt_lut /\ lut_smooth invsqrt_lut).
Proof.
  assert (A : forall t fi fo off, table_chk t = true -> Z.abs off <= 1000 -> 0 <= fi <= 119 -> lut_ok (const_lut t fi fo off) /\ lut_smooth (const_lut t fi fo off)).
  { intros. apply const_lut_ok; auto. change (2 ^ 30) with 1073741824. lia. }
  unfold sigmoid_lut, tanh_lut, expneg_lut, invsqrt_lut. repeat match goal with |- _ /\ _ => split end;
    try (apply A; [vm_compute; reflexivity|lia|lia]); apply const_lut_mono; vm_compute; reflexivity.
Qed.

Lemma tab_end t fi fo off k : 0 <= k -> k <= Z.of_nat (length t) ->
  tab (const_lut t fi fo off) (l_len (const_lut t fi fo off) - k) = nth (length t - Z.to_nat k) t 0.
Proof. intros. cbn [const_lut l_len]. rewrite tab_const by lia. f_equal. lia. Qed.

(** With the tables of the library the 8-bit sigmoid and tanh are monotone for all inputs and input formats. *)
Theorem sigm_tanh_fx8_monotone rm l fin tin tout m m' c c' : l = sigmoid_lut \/ l = tanh_lut ->
  chk_basic_activation tin tout = ST_OK -> t_rank tin <> 0 -> fits32 tin -> fits32 tout -> backed tin m -> backed tout m -> unary_ok tin tout ->
  mem_bits 8 m -> in_bits 8 fin -> act_fx rm 8 l fin tin tout m = Some m' ->
  valid (t_shape tout) c -> valid (t_shape tout) c' ->
  rd m (t_data tin + addr (t_stride tin) c) <= rd m (t_data tin + addr (t_stride tin) c') ->
  rd m' (t_data tout + addr (t_stride tout) c) <= rd m' (t_data tout + addr (t_stride tout) c').
Proof.
  intros Hl Hc R FI FO BI BO U MB Hf E V V' Hxy. destruct library_tables_ok as ((S1 & S2 & S3) & (T1 & T2 & T3) & _).
  assert (L : lut_ok l /\ lut_smooth l /\ lut_mono l) by (destruct Hl as [-> | ->]; auto). destruct L as (L1 & L2 & L3).
  apply (act_fx_monotone rm 8 l fin tin tout m m' c c'); auto.
  right. destruct Hl as [-> | ->]; destruct rm; split; vm_compute; reflexivity.
Qed.

(** The same for the SA8 kernels with their own output formats. *)
Theorem sigm_tanh_sa8_monotone rm l i o tin tout m m' c c' : l = sigmoid_lut /\ o = sigm_sa8_out \/ l = tanh_lut /\ o = tanh_sa8_out ->
  chk_basic_activation tin tout = ST_OK -> t_rank tin <> 0 -> fits32 tin -> fits32 tout -> backed tin m -> backed tout m -> unary_ok tin tout ->
  mem_bits 8 m -> qpar_typed i -> chk_act_quant i = true -> act_sa8 rm o l i tin tout m = Some m' ->
  valid (t_shape tout) c -> valid (t_shape tout) c' ->
  rd m (t_data tin + addr (t_stride tin) c) <= rd m (t_data tin + addr (t_stride tin) c') ->
  rd m' (t_data tout + addr (t_stride tout) c) <= rd m' (t_data tout + addr (t_stride tout) c').
Proof.
  intros Hl Hc R FI FO BI BO U MB Hq Hqc E V V' Hxy. destruct library_tables_ok as ((S1 & S2 & S3) & (T1 & T2 & T3) & _).
  assert (L : lut_ok l /\ lut_smooth l /\ lut_mono l /\ (o = sigm_sa8_out \/ o = tanh_sa8_out) /\ 8 <= l_fo l).
  { destruct Hl as [[-> ->]|[-> ->]]; (split; [assumption|]); (split; [assumption|]); (split; [assumption|]); (split; [auto|]); vm_compute; discriminate. }
  destruct L as (L1 & L2 & L3 & L4 & L5).
  apply (act_sa8_monotone rm l i o tin tout m m' c c'); auto.
  right. destruct Hl as [[-> ->]|[-> ->]]; destruct rm; split; vm_compute; reflexivity.
Qed.

(** The 16-bit kernels are monotone for inputs inside the table, and lose at most one unit in the last place otherwise. *)
Theorem sigm_tanh_fx16_monotone rm l fin tin tout m m' c c' : l = sigmoid_lut \/ l = tanh_lut ->
  chk_basic_activation tin tout = ST_OK -> t_rank tin <> 0 -> fits32 tin -> fits32 tout -> backed tin m -> backed tout m -> unary_ok tin tout ->
  mem_bits 16 m -> in_bits 8 fin -> act_fx rm 16 l fin tin tout m = Some m' ->
  valid (t_shape tout) c -> valid (t_shape tout) c' ->
  let x := rd m (t_data tin + addr (t_stride tin) c) in
  let y := rd m (t_data tin + addr (t_stride tin) c') in
  x <= y ->
  rd m' (t_data tout + addr (t_stride tout) c) <= rd m' (t_data tout + addr (t_stride tout) c') + 1
  /\ (fin - l_fi l <= 30 -> in_table l (fin - l_fi l) x -> in_table l (fin - l_fi l) y ->
      rd m' (t_data tout + addr (t_stride tout) c) <= rd m' (t_data tout + addr (t_stride tout) c')).
Proof.
  intros Hl Hc R FI FO BI BO U MB Hf E V V' x y Hxy. destruct library_tables_ok as ((S1 & S2 & S3) & (T1 & T2 & T3) & _).
  assert (L : lut_ok l /\ lut_smooth l /\ lut_mono l) by (destruct Hl as [-> | ->]; auto). destruct L as (L1 & L2 & L3). split.
  - assert (Bx : forall a, in_bits 16 (rd m a)) by (intros; apply rd_bits; auto; lia).
    assert (K : forall x, in_bits 16 x -> lut_elem rm LIN_FX (LOUT_FX 16) l fin x = Some (fx_core rm l (fin - l_fi l) x)).
    { intros z Hz. rewrite lut_core_eq; auto. cbn [lut_input]. f_equal. pose proof (fx_core_bits rm l (fin - l_fi l) z L1).
      rewrite lut_output_fx by auto. change (16 - 16) with 0. now rewrite rnd_0, sat_id. }
    destruct (activation_lut_run rm LIN_FX (LOUT_FX 16) l fin 16 tin tout m ltac:(lia) Hc R FI FO BI BO U MB) as (m'' & E' & H & _).
    { intros z Hz. unfold lut_get. rewrite K by exact Hz. reflexivity. }
    unfold act_fx in E. rewrite E in E'. injection E' as <-.
    unfold rd at 1 2. rewrite !H by auto. unfold lut_get. fold x y. rewrite !K by apply Bx.
    apply fx_core_mono_err; auto; [lia| |]; destruct Hl as [-> | ->]; vm_compute; discriminate.
  - intros H30 Ix Iy. apply (act_fx_monotone rm 16 l fin tin tout m m' c c'); auto.
Qed.

(** Beyond the ends of the table the index is clamped but the fraction is not, so the 16-bit kernels are not monotone there:
    sigmoid just below -10 and at -10, tanh just below and at the end of the table. *)
Theorem sigm_tanh_fx16_monotone_refuted :
  (lut_elem RM_UP LIN_FX (LOUT_FX 16) sigmoid_lut 11 (-20481) = Some 2 /\ lut_elem RM_UP LIN_FX (LOUT_FX 16) sigmoid_lut 11 (-20480) = Some 1)
  /\ (lut_elem RM_UP LIN_FX (LOUT_FX 16) tanh_lut 12 (171 * 128 - 1) = Some 32767 /\ lut_elem RM_UP LIN_FX (LOUT_FX 16) tanh_lut 12 (171 * 128) = Some 32766).
Proof. repeat split; vm_compute; reflexivity. Qed.

(** * Creating a table *)

(** mli_krn_*_create_lut: with a buffer of at least mli_krn_*_get_lut_size() bytes the call succeeds and the caller's table
    equals the library's; only the first bytes of the buffer are written. With less it fails and leaves the table alone. *)
Theorem create_lut_correct t fi fo off dst : Z.of_nat (length t) <= 65536 ->
  (forall i, 0 <= i -> (i + 1) * 2 <= l_cap dst -> allocated (l_data dst) i) ->
  let src := const_lut t fi fo off in
  if get_lut_size src <=? l_cap dst
  then exists l, create_lut src dst = (ST_OK, Some l)
    /\ (forall i, 0 <= i < l_len src -> l_data l i = l_data src i) /\ (forall i, ~ 0 <= i < l_len src -> l_data l i = l_data dst i)
    /\ l_len l = l_len src /\ l_fi l = fi /\ l_fo l = fo /\ l_off l = off
  else create_lut src dst = (ST_NOT_ENGH_MEM, Some dst).
Proof.
  intros Hlen HA src. unfold create_lut, get_lut_size.
  assert (Ec : l_cap src = l_len src * 2) by (cbn [src const_lut l_cap l_len]; lia). rewrite Ec, Z.geb_leb.
  destruct (Z.leb_spec (l_len src * 2) (l_cap dst)); cbn [negb]; [|reflexivity].
  destruct (foldM_store (fun i : Z => i) (fun i => nth (Z.to_nat i) t 0) (fun i d => do v <- load (l_data src) i; store d i v) (zrange 0 (l_len src)) (l_data dst)) as (d & E & H1 & H2).
  - intros i d Hi. apply in_zrange in Hi. cbn [src const_lut l_len l_data] in *. unfold load, tab_mem. destruct (Z.ltb_spec i 0); [lia|].
    destruct (nth_error t (Z.to_nat i)) eqn:En; [|apply nth_error_None in En; lia]. cbn [bind]. erewrite nth_error_nth by exact En. reflexivity.
  - intros i Hi. apply in_zrange in Hi. apply HA; lia.
  - intros i j Hi Hj Eij. now subst.
  - rewrite E. cbn [bind]. eexists. split; [reflexivity|]. cbn [l_data l_len l_fi l_fo l_off]. split; [|split; [|repeat split]].
    + intros i Hi. rewrite H1 by (apply in_zrange; lia). cbn [src const_lut l_data l_len] in *. unfold tab_mem. destruct (Z.ltb_spec i 0); [lia|].
      symmetry. apply nth_error_nth'. lia.
    + intros i Hi. apply H2. intros j Hj Ej. apply in_zrange in Hj. lia.
Qed.

(** * Examples *)

Lemma list_backed_esz t l : 0 <= t_data t -> 0 < t_esz t -> t_cap t <= t_esz t * (Z.of_nat (length l) - t_data t) -> backed t (list_mem l).
Proof.
  intros D S C a H0 H1. unfold allocated, list_mem. destruct (Z.ltb_spec (t_data t + a) 0); [lia|]. apply nth_error_Some. nia.
Qed.

(** In place on a 2 x 3 tensor with a row stride of 4; 11 fractional bits, so -32768 is -16. *)
Definition la_t : tensor := mkTensor 0 16 2 [2; 3] [4; 1] false (-1) 0.
Definition la_mem : mem := list_mem [0; 2048; -2048; 99; 32767; -32768; 1000; 98].
Example la_hyps : chk_basic_activation la_t la_t = ST_OK /\ t_rank la_t <> 0 /\ fits32 la_t /\ backed la_t la_mem /\ unary_ok la_t la_t /\ mem_bits 16 la_mem
  /\ in_table sigmoid_lut (11 - l_fi sigmoid_lut) (-2048) /\ in_table sigmoid_lut (11 - l_fi sigmoid_lut) 2048.
Proof.
  split; [reflexivity|]. split; [vm_compute; discriminate|]. split; [fits32_tac|]. split; [apply list_backed_esz; cbn; lia|].
  split; [apply unary_inplace; [reflexivity|fits32_tac|reflexivity|reflexivity]|]. split; [apply list_bits; reflexivity|].
  unfold in_table; vm_compute; repeat split; congruence.
Qed.
(** sigmoid(1) = 0.7311 = 23956 / 2^15 *)
Example la_run : (do m <- act_fx RM_UP 16 sigmoid_lut 11 la_t la_t la_mem; Some (map (rd m) (zrange 0 8)))
  = Some [16384; 23955; 8813; 99; 32766; 1; 20306; 98].
Proof. vm_compute. reflexivity. Qed.
(** SA8 with scale 1/16 and zero point 3 *)
Definition la_q : qpar := mkQ 1 4 3.
Definition la_t8 : tensor := mkTensor 0 8 1 [2; 3] [4; 1] false (-1) 0.
Definition la_mem8 : mem := list_mem [3; 19; -13; 99; 127; -128; 1; 98].
Example la_hyps8 : chk_basic_activation la_t8 la_t8 = ST_OK /\ t_rank la_t8 <> 0 /\ fits32 la_t8 /\ backed la_t8 la_mem8 /\ unary_ok la_t8 la_t8 /\ mem_bits 8 la_mem8
  /\ qpar_typed la_q /\ chk_act_quant la_q = true.
Proof.
  split; [reflexivity|]. split; [vm_compute; discriminate|]. split; [fits32_tac|]. split; [apply list_backed_esz; cbn; lia|].
  split; [apply unary_inplace; [reflexivity|fits32_tac|reflexivity|reflexivity]|]. split; [apply list_bits; reflexivity|].
  split; [split; [rewrite ib16|rewrite ib8]; cbn; lia|reflexivity].
Qed.
Example la_run8 : (do m <- act_sa8 RM_UP sigm_sa8_out sigmoid_lut la_q la_t8 la_t8 la_mem8; Some (map (rd m) (zrange 0 8)))
  = Some [0; 59; -59; 99; 127; -128; -8; 98]
  /\ (do m <- act_sa8 RM_UP tanh_sa8_out tanh_lut la_q la_t8 la_t8 la_mem8; Some (map (rd m) (zrange 0 8)))
  = Some [0; 97; -97; 99; 127; -128; -16; 98].
Proof. split; vm_compute; reflexivity. Qed.
Example la_create : let dst := mkLut (fun i => if (0 <=? i) && (i <? 320) then Some 7 else None) 640 0 0 0 0 in
  get_lut_size sigmoid_lut = 640
  /\ match create_lut sigmoid_lut dst with (ST_OK, Some l) => map (l_data l) [0; 160; 319; 320] | _ => [] end = [Some 1; Some 16384; Some 32766; None].
Proof. split; vm_compute; reflexivity. Qed.
