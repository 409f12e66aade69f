(** Proofs about the softmax kernels. *)
From Coq Require Import ZArith QArith List Lia Bool Zdiv.
From Verif Require Import Base FxMath FxMathProofs Tensor TensorProofs ArgMax MovProofs PermuteProofs Quant QuantProofs QSpec QuantCastProofs
  PoolKernels DotProdProofs ConvTheorems Eltwise EltwiseProofs EltwiseSa8Proofs Relu ReluProofs Lut LutProofs Softmax.
Import ListNotations.
Open Scope Z_scope.

(** * The arithmetic of one element *)

Lemma acc_cast_16_exact rm x k : in_bits 32 x -> (rnd_safe rm 32 x k \/ k <= 16) -> acc_cast_16 rm x k = sat 16 (scale_rnd rm x k).
Proof.
  intros Hx Hk. rewrite acc_cast_16_spec by exact Hx. rewrite <- (cast_narrow_spec rm 32 16 x k) by (auto; lia).
  rewrite cast_narrow_exact; [reflexivity|lia|lia|exact Hx|]. destruct Hk; [now left|right; lia].
Qed.

(** The reciprocal [r] of the sum [s], with a relative error of about 2^-13. *)
Lemma softmax_recip_spec rm s : 1 <= s <= 2 ^ 31 - 1 ->
  exists r e, softmax_recip rm 16 s = Some (r, e) /\ 0 <= e <= 30 /\ 0 <= r <= 32767 /\ Z.abs (r * (s * 2 ^ e) - 2 ^ 45) <= 2 ^ 32.
Proof.
  intros Hs. assert (Bs : in_bits 32 s) by (rewrite ib32; lia). destruct (norm_fx_pos 32 s ltac:(lia) Bs ltac:(lia)) as [N1 N2].
  pose proof (norm_fx_range 32 s ltac:(lia) Bs) as N3. unfold softmax_recip. set (e := norm_fx 32 s) in *. change (32 - 2) with 30 in *. change (32 - 1) with 31 in *.
  unfold acc_cast_n. cbn [Z.eqb Pos.eqb]. rewrite acc_cast_16_exact by (auto; right; lia).
  set (A := s * 2 ^ e) in *. set (m0 := scale_rnd rm s (16 - e)).
  assert (B : Z.abs (m0 * 2 ^ 16 - A) <= 2 ^ 15).
  { unfold m0, scale_rnd. destruct (Z.leb_spec 0 (16 - e)).
    - pose proof (rnd_err rm s (16 - e) ltac:(lia)) as R. set (v := rnd rm s (16 - e)) in *.
      assert (E : v * 2 ^ 16 - A = (v * 2 ^ (16 - e) - s) * 2 ^ e).
      { unfold A. replace (2 ^ 16) with (2 ^ (16 - e) * 2 ^ e) by (rewrite <- Z.pow_add_r by lia; f_equal; lia). ring. }
      rewrite E, Z.abs_mul, (Z.abs_eq (2 ^ e)) by (apply Z.pow_nonneg; lia).
      assert (P : 2 ^ (16 - e) * 2 ^ e = 2 ^ 16) by (rewrite <- Z.pow_add_r by lia; f_equal; lia).
      pose proof (pow2_gt0 e ltac:(lia)). change (2 ^ 16) with 65536 in P. change (2 ^ 15) with 32768. nia.
    - replace (s * 2 ^ (- (16 - e)) * 2 ^ 16) with A; [rewrite Z.sub_diag; cbn; lia|].
      unfold A. rewrite <- Z.mul_assoc, <- Z.pow_add_r by lia. do 2 f_equal. lia. }
  change (2 ^ 30) with 1073741824 in *. change (2 ^ 31) with 2147483648 in *. change (2 ^ 16) with 65536 in *. change (2 ^ 15) with 32768 in *.
  assert (Bm : 16384 <= m0 <= 32768) by lia.
  set (mnt := sat 16 m0). assert (Em : mnt = Z.min m0 32767).
  { unfold mnt, sat, clamp. change (smin 16) with (-32768). change (smax 16) with 32767. lia. }
  destruct (Z.eqb_spec mnt 0); [lia|]. rewrite Z.quot_div_nonneg by lia. change (2 ^ 29) with 536870912.
  pose proof (Z.div_mod 536870912 mnt ltac:(lia)) as D. pose proof (Z.mod_pos_bound 536870912 mnt ltac:(lia)) as D'.
  set (q := 536870912 / mnt) in *. assert (Bq : 16384 <= q <= 32768) by nia.
  rewrite wrap_id; [|lia|rewrite ib16; lia]. exists (Z.min q 32767), e. split; [reflexivity|]. split; [lia|]. split; [lia|].
  set (r := Z.min q 32767) in *.
  assert (R1 : r * mnt <= 536870912 /\ 536870912 - mnt <= r * mnt).
  { destruct (Z_le_gt_dec q 32767); [assert (r = q) as -> by (unfold r; lia); nia|].
    assert (q = 32768) by lia. assert (r = 32767) as -> by (unfold r; lia). assert (mnt = 16384) by nia. lia. }
  change (2 ^ 45) with (536870912 * 65536). change (2 ^ 32) with 4294967296.
  assert (Br : 0 <= r <= 32767) by (unfold r; lia). set (th := mnt * 65536 - A).
  assert (Bt : - 65536 <= th <= 32768) by (unfold th; lia).
  replace (r * A) with (r * mnt * 65536 - r * th) by (unfold th; ring).
  assert (-65536 * 32767 <= r * th <= 32768 * 32767) by nia. lia.
Qed.

(** The value the kernel computes for an exponent [v] with sum [s]. *)
Definition softmax_val16 (rm : rmode) (r e v : Z) : Z := acc_cast_16 rm (r * v) (min_fx (15 * 2 + (15 - e) - 15) 31).

Lemma softmax_val16_spec rm s r e v : 1 <= s <= 2 ^ 31 - 1 -> softmax_recip rm 16 s = Some (r, e) -> 0 <= v <= 32767 -> v <= s ->
  let y := softmax_val16 rm r e v in 0 <= y <= 32767 /\ 2 * Z.abs (y * s - 2 ^ 15 * v) <= s + 8 * v.
Proof.
  intros Hs E Hv Hvs y. destruct (softmax_recip_spec rm s Hs) as (r' & e' & E' & He & Hr & B). rewrite E in E'. injection E' as <- <-.
  assert (Bp : 0 <= r * v <= 2 ^ 30 - 1) by (change (2 ^ 30 - 1) with 1073741823; nia).
  assert (Ey : y = sat 16 (rnd rm (r * v) (30 - e))).
  { unfold y, softmax_val16. rewrite min_fx_min. replace (Z.min (15 * 2 + (15 - e) - 15) 31) with (30 - e) by lia. rewrite acc_cast_16_exact; [|rewrite ib32; lia|left; apply small_rnd_safe; lia]. unfold scale_rnd. destruct (Z.leb_spec 0 (30 - e)); [reflexivity|lia]. }
  pose proof (rnd_err rm (r * v) (30 - e) ltac:(lia)) as R. set (y0 := rnd rm (r * v) (30 - e)) in *.
  assert (P : 2 ^ (30 - e) * 2 ^ e = 2 ^ 30) by (rewrite <- Z.pow_add_r by lia; f_equal; lia).
  pose proof (pow2_gt0 e ltac:(lia)) as Pe. pose proof (pow2_gt0 (30 - e) ltac:(lia)) as Pe'. set (A := s * 2 ^ e) in *.
  assert (R1 : 2 * Z.abs (y0 * 2 ^ 30 * s - r * v * A) <= 2 ^ 30 * s).
  { replace (y0 * 2 ^ 30 * s - r * v * A) with ((y0 * 2 ^ (30 - e) - r * v) * A) by (unfold A; rewrite <- P; ring).
    assert (0 <= A) by (unfold A; nia). rewrite Z.abs_mul, (Z.abs_eq A) by lia.
    replace (2 ^ 30 * s) with (2 ^ (30 - e) * A) by (unfold A; rewrite <- P; ring). nia. }
  assert (R2 : Z.abs (r * v * A - 2 ^ 45 * v) <= 2 ^ 32 * v).
  { replace (r * v * A - 2 ^ 45 * v) with ((r * A - 2 ^ 45) * v) by ring. rewrite Z.abs_mul, (Z.abs_eq v) by lia. nia. }
  change (2 ^ 45) with (32768 * 2 ^ 30) in R2. change (2 ^ 32) with (4 * 2 ^ 30) in R2. change (2 ^ 15) with 32768 in *.
  assert (R3 : 2 * Z.abs (y0 * s - 32768 * v) <= s + 8 * v) by (change (2 ^ 30) with 1073741824 in *; nia).
  assert (Y0 : 0 <= y0).
  { replace 0 with (rnd rm (0 * 2 ^ (30 - e)) (30 - e)) by (rewrite rnd_exact by lia; reflexivity). apply rnd_mono; lia. }
  assert (Ey' : y = Z.min y0 32767).
  { rewrite Ey. unfold sat, clamp. change (smin 16) with (-32768). change (smax 16) with 32767. lia. }
  clearbody y y0. split; [lia|]. destruct (Z_le_gt_dec y0 32767) as [Hle|Hgt]; [now replace y with y0 by lia|].
  replace y with 32767 by lia. clear - R3 Hgt Hvs Hs Hv.
  assert (32768 * s <= y0 * s) by (apply Z.mul_le_mono_nonneg_r; lia). lia.
Qed.

Lemma softmax_val16_mono rm s r e v w : 1 <= s <= 2 ^ 31 - 1 -> softmax_recip rm 16 s = Some (r, e) -> 0 <= v <= w -> w <= 32767 ->
  softmax_val16 rm r e v <= softmax_val16 rm r e w.
Proof.
  intros Hs E Hv Hw. destruct (softmax_recip_spec rm s Hs) as (r' & e' & E' & He & Hr & B). rewrite E in E'. injection E' as <- <-.
  unfold softmax_val16. rewrite min_fx_min. replace (Z.min (15 * 2 + (15 - e) - 15) 31) with (30 - e) by lia.
  rewrite !acc_cast_16_exact; try (rewrite ib32; nia); try (left; apply small_rnd_safe; [lia| |lia]; change (2 ^ (32 - 2) - 1) with 1073741823; nia).
  unfold scale_rnd. destruct (Z.leb_spec 0 (30 - e)); [|lia]. apply sat_mono, rnd_mono; nia.
Qed.

Definition softmax_val8 (rm : rmode) (r e v : Z) : Z := convert_fx16_sa8 rm (r * v) (q_zp softmax_out) (min_fx (15 * 2 + (15 - e) - q_frac softmax_out) 31).

Lemma softmax_val8_eq rm r e v : 0 <= e <= 30 -> 0 <= r <= 32767 -> 0 <= v <= 32767 ->
  softmax_val8 rm r e v = sat 8 (rnd rm (r * v) (37 - e) - 128).
Proof.
  intros He Hr Hv. unfold softmax_val8, convert_fx16_sa8, softmax_out. cbn [q_zp q_frac]. rewrite min_fx_min.
  assert (Bp : 0 <= r * v <= 2 ^ 30 - 1) by (change (2 ^ 30 - 1) with 1073741823; nia).
  rewrite asr_rnd_fx_spec; [|lia|rewrite ib32; lia|apply small_rnd_safe; lia]. unfold rshift_spec.
  destruct (Z.leb_spec 0 (Z.min (15 * 2 + (15 - e) - 8) 31)); [|lia].
  assert (E : rnd rm (r * v) (Z.min (15 * 2 + (15 - e) - 8) 31) = rnd rm (r * v) (37 - e)).
  { destruct (Z_le_gt_dec 6 e); [f_equal; lia|]. replace (Z.min (15 * 2 + (15 - e) - 8) 31) with 31 by lia.
    rewrite !rnd_big; try lia. pose proof (pow2_le 30 (37 - e - 1) ltac:(lia) ltac:(lia)). lia. }
  rewrite E. set (y := rnd rm (r * v) (37 - e)).
  assert (B : - 2 ^ 31 <= 2 * y <= 2 ^ 31) by (apply (rnd_bounds rm 32); [lia|rewrite ib32; lia|lia]).
  rewrite wrap_id by (try rewrite ib32; lia). rewrite acc_cast_8_spec by (rewrite ib32; lia). f_equal.
Qed.

Lemma softmax_val8_spec rm s r e v : 1 <= s <= 2 ^ 31 - 1 -> softmax_recip rm 16 s = Some (r, e) -> 0 <= v <= 32767 -> v <= s ->
  let y := softmax_val8 rm r e v in -128 <= y <= 127 /\ 2 * Z.abs ((y + 128) * s - 2 ^ 8 * v) <= s + 2 * v.
Proof.
  intros Hs E Hv Hvs y. destruct (softmax_recip_spec rm s Hs) as (r' & e' & E' & He & Hr & B). rewrite E in E'. injection E' as <- <-.
  assert (Ey : y = sat 8 (rnd rm (r * v) (37 - e) - 128)) by (unfold y; now apply softmax_val8_eq).
  pose proof (rnd_err rm (r * v) (37 - e) ltac:(lia)) as R. set (y0 := rnd rm (r * v) (37 - e)) in *.
  assert (P : 2 ^ (37 - e) * 2 ^ e = 2 ^ 37) by (rewrite <- Z.pow_add_r by lia; f_equal; lia).
  pose proof (pow2_gt0 e ltac:(lia)) as Pe. pose proof (pow2_gt0 (37 - e) ltac:(lia)) as Pe'. set (A := s * 2 ^ e) in *.
  assert (R1 : 2 * Z.abs (y0 * 2 ^ 37 * s - r * v * A) <= 2 ^ 37 * s).
  { replace (y0 * 2 ^ 37 * s - r * v * A) with ((y0 * 2 ^ (37 - e) - r * v) * A) by (unfold A; rewrite <- P; ring).
    assert (0 <= A) by (unfold A; nia). rewrite Z.abs_mul, (Z.abs_eq A) by lia.
    replace (2 ^ 37 * s) with (2 ^ (37 - e) * A) by (unfold A; rewrite <- P; ring). nia. }
  assert (R2 : Z.abs (r * v * A - 2 ^ 45 * v) <= 2 ^ 32 * v).
  { replace (r * v * A - 2 ^ 45 * v) with ((r * A - 2 ^ 45) * v) by ring. rewrite Z.abs_mul, (Z.abs_eq v) by lia. nia. }
  change (2 ^ 45) with (256 * 2 ^ 37) in R2. change (2 ^ 37) with (32 * 2 ^ 32) in R1, R2. change (2 ^ 8) with 256 in *.
  assert (R3 : 2 * Z.abs (y0 * s - 256 * v) <= s + 2 * v) by (change (2 ^ 32) with 4294967296 in *; nia).
  assert (Y0 : 0 <= y0).
  { replace 0 with (rnd rm (0 * 2 ^ (37 - e)) (37 - e)) by (rewrite rnd_exact by lia; reflexivity). apply rnd_mono; lia. }
  assert (Ey' : y = Z.min y0 255 - 128).
  { rewrite Ey. unfold sat, clamp. change (smin 8) with (-128). change (smax 8) with 127. lia. }
  clearbody y y0. split; [lia|]. destruct (Z_le_gt_dec y0 255) as [Hle|Hgt]; [now replace (y + 128) with y0 by lia|].
  replace (y + 128) with 255 by lia. clear - R3 Hgt Hvs Hs Hv.
  assert (256 * s <= y0 * s) by (apply Z.mul_le_mono_nonneg_r; lia). lia.
Qed.

Lemma softmax_val8_mono rm s r e v w : 1 <= s <= 2 ^ 31 - 1 -> softmax_recip rm 16 s = Some (r, e) -> 0 <= v <= w -> w <= 32767 ->
  softmax_val8 rm r e v <= softmax_val8 rm r e w.
Proof.
  intros Hs E Hv Hw. destruct (softmax_recip_spec rm s Hs) as (r' & e' & E' & He & Hr & B). rewrite E in E'. injection E' as <- <-.
  rewrite !softmax_val8_eq by lia. apply sat_mono. pose proof (rnd_mono rm (r * v) (r * w) (37 - e) ltac:(lia) ltac:(nia)). lia.
Qed.

(** * One slice *)


Definition lmax (l : list Z) : Z := fold_left Z.max l (hd 0 l).

Definition is_max (x : Z) (l : list Z) : Prop := In x l /\ forall y, In y l -> y <= x.

Lemma lmax_is_max l : l <> [] -> is_max (lmax l) l.
Proof.
  assert (G : forall l a, a <= fold_left Z.max l a /\ (forall y, In y l -> y <= fold_left Z.max l a) /\ (fold_left Z.max l a = a \/ In (fold_left Z.max l a) l)).
  { clear. induction l as [|x l IH]; intros a; cbn [fold_left]; [split; [lia|split; [intros y []|now left]]|].
    destruct (IH (Z.max a x)) as (A & B & C). split; [lia|]. split.
    - intros y [<-|Hy]; [lia|auto].
    - destruct C as [C|C]; [|now right; right]. rewrite C. destruct (Z.max_spec a x) as [[_ ->]|[_ ->]]; [right; now left|now left]. }
  intros Hn. destruct l as [|x l]; [contradiction|]. unfold lmax. cbn [hd]. destruct (G (x :: l) x) as (A & B & C). split; [|exact B].
  destruct C as [->|C]; [now left|exact C].
Qed.

Lemma lsum_nonneg l : (forall y, In y l -> 0 <= y) -> 0 <= lsum l.
Proof. induction l as [|x l IH]; intros H; cbn [lsum fold_right]; [lia|]. pose proof (H x ltac:(now left)). specialize (IH ltac:(intros y Hy; apply H; now right)). fold (lsum l). lia. Qed.

Lemma lsum_in l : (forall y, In y l -> 0 <= y) -> forall x, In x l -> x <= lsum l.
Proof.
  induction l as [|y l IH]; intros H x Hx; [destruct Hx|]. cbn [lsum fold_right]. fold (lsum l).
  assert (H' : forall z, In z l -> 0 <= z) by (intros z Hz; apply H; now right). pose proof (lsum_nonneg l H'). destruct Hx as [Hx|Hx].
  - subst. lia.
  - specialize (IH H' x Hx). pose proof (H y ltac:(now left)). lia.
Qed.

Lemma lsum_bound l b : (forall y, In y l -> y <= b) -> lsum l <= b * Z.of_nat (length l).
Proof. induction l as [|x l IH]; intros H; cbn [lsum fold_right length]; [lia|]. fold (lsum l). pose proof (H x ltac:(now left)). specialize (IH ltac:(intros y Hy; apply H; now right)). lia. Qed.

(** The addresses of a slice: pairs of an input and an output address. *)
Definition pairs (pi po : Z) (sh sti sto : list Z) : list (Z * Z) := map (fun c => (pi + addr sti c, po + addr sto c)) (coords sh).
Definition vals (m : mem) (P : list (Z * Z)) : list Z := map (fun p => rd m (fst p)) P.

Definition slice_ok (P : list (Z * Z)) (m : mem) : Prop :=
  P <> [] /\ NoDup P /\ (forall p, In p P -> allocated m (fst p) /\ allocated m (snd p))
  /\ (forall p q, In p P -> In q P -> fst p = snd q \/ snd p = snd q -> p = q).

Lemma squash2_pairs pi po sh sti sto : sh <> [] -> (length sh <= 4)%nat -> Forall (fun d => 0 <= d) sh ->
  length sti = length sh -> length sto = length sh -> last sti 0 = 1 -> last sto 0 = 1 ->
  let ds := squash_generic 2 (dims_of sh [sti; sto]) in
  pairs pi po (d_shape ds) (d_stride 0 ds) (d_stride 1 ds) = pairs pi po sh sti sto.
Proof.
  intros Hn Hr Hp L1 L2 E1 E2 ds. unfold ds. clear ds. set (sts := [sti; sto]). pose proof (dims_wf sh sts Hp) as W. destruct (dims_snoc sh sts Hn) as (l & inner & El).
  assert (HL : forall k, (k < 2)%nat -> d_stride k (dims_of sh sts) = nth k sts [] /\ last (nth k sts []) 0 = 1).
  { intros k Hk. split; [apply dims_stride|]; destruct k as [|[|k]]; cbn [nth sts length]; auto; lia. }
  assert (Hin : forall k, (k < 2)%nat -> nth k (snd inner) 0 = 1).
  { intros k Hk. destruct (HL k Hk) as [A B]. rewrite <- A, El in B. unfold d_stride in B. rewrite map_app in B. cbn [map] in B. now rewrite last_last in B. }
  assert (Hll : (length l < 4)%nat).
  { pose proof (f_equal (@length Z) (dims_shape sh sts)) as E. unfold d_shape in E. rewrite map_length, El, app_length in E. cbn in E. lia. }
  assert (V : forall k, (k < 2)%nat -> map (addr (d_stride k (squash_generic 2 (dims_of sh sts)))) (coords (d_shape (squash_generic 2 (dims_of sh sts))))
    = map (addr (nth k sts [])) (coords sh)).
  { intros k Hk. destruct (squash_generic_correct 2 k l inner Hk ltac:(now rewrite <- El) Hll (Hin k Hk)) as [V _].
    unfold visited in V. rewrite <- El, dims_shape, (proj1 (HL k Hk)) in V. exact V. }
  assert (G : forall (f f' g g' : list Z -> Z) l1 l2, map f l1 = map f' l2 -> map g l1 = map g' l2 ->
    map (fun c => (pi + f c, po + g c)) l1 = map (fun c => (pi + f' c, po + g' c)) l2).
  { clear. intros f f' g g'. induction l1 as [|x l1 IH]; intros [|y l2] A B; cbn [map] in *; try discriminate; [reflexivity|].
    injection A as A1 A2. injection B as B1 B2. rewrite A1, B1. f_equal. auto. }
  unfold pairs. apply G; [apply (V 0%nat); lia|apply (V 1%nat); lia].
Qed.

Lemma max_pairs m P : forall x0, (forall p, In p P -> allocated m (fst p)) ->
  foldM (fun p mx => do x <- load m (fst p); Some (max_fx mx x)) P x0 = Some (fold_left Z.max (vals m P) x0).
Proof.
  induction P as [|p P IH]; intros x0 HA; cbn [foldM vals map fold_left]; [reflexivity|]. rewrite rd_load by (apply HA; now left). cbn [bind].
  rewrite max_fx_max. apply IH. intros q Hq. apply HA. now right.
Qed.

Lemma sum_pairs {A} (g : A -> option Z) (h : A -> Z) P : forall s, (forall p, In p P -> g p = Some (h p) /\ 0 <= h p) -> 0 <= s -> s + lsum (map h P) <= 2 ^ 31 - 1 ->
  foldM (fun p s => do v <- g p; Some (mac_fx 32 s v 1)) P s = Some (s + lsum (map h P)).
Proof.
  induction P as [|p P IH]; intros s H Hs Hb; cbn [foldM map lsum fold_right] in *; [f_equal; lia|]. fold (lsum (map h P)) in *.
  destruct (H p ltac:(now left)) as [Ep Pp]. rewrite Ep. cbn [bind].
  assert (N : 0 <= lsum (map h P)). { apply lsum_nonneg. intros y Hy. apply in_map_iff in Hy. destruct Hy as (q & <- & Hq). apply H. now right. }
  assert (Em : mac_fx 32 s (h p) 1 = s + h p) by (unfold mac_fx; rewrite Z.mul_1_r; apply wrap_id; [lia|rewrite ib32; lia]).
  rewrite Em, IH; [f_equal; lia|intros q Hq; apply H; now right|lia|lia].
Qed.

(** The loops that store: the second argument of a pair is written after the first was read. *)
Lemma map_pairs (g : Z -> option Z) (gv : Z -> Z) P m : slice_ok P m -> (forall p, In p P -> g (rd m (fst p)) = Some (gv (rd m (fst p)))) ->
  exists m', foldM (fun p m => do x <- load m (fst p); do y <- g x; store m (snd p) y) P m = Some m'
    /\ (forall p, In p P -> m' (snd p) = Some (gv (rd m (fst p))))
    /\ (forall a, (forall p, In p P -> snd p <> a) -> m' a = m a).
Proof.
  intros (Hn & ND & HA & HI) Hg. apply (foldM_inplace snd (fun p => gv (rd m (fst p))) (fun p a => a = fst p)); [exact ND| | |intros p q Hp Hq E; apply HI; auto|].
  - intros p m' Hp Hr. rewrite (load_eq m m') by (try apply HA; auto). cbn [bind]. now rewrite Hg.
  - intros p Hp. now apply HA.
  - intros p q Hp Hq Hne E. apply Hne. apply HI; auto.
Qed.

Lemma wb_pairs (g : Z -> Z) P m : slice_ok P m ->
  exists m', foldM (fun p m => do v <- load m (snd p); store m (snd p) (g v)) P m = Some m'
    /\ (forall p, In p P -> m' (snd p) = Some (g (rd m (snd p))))
    /\ (forall a, (forall p, In p P -> snd p <> a) -> m' a = m a).
Proof.
  intros (Hn & ND & HA & HI). apply (foldM_inplace snd (fun p => g (rd m (snd p))) (fun p a => a = snd p)); [exact ND| | |intros p q Hp Hq E; apply HI; auto|].
  - intros p m' Hp Hr. rewrite (load_eq m m') by (try apply HA; auto). reflexivity.
  - intros p Hp. now apply HA.
  - intros p q Hp Hq Hne E. apply Hne. apply HI; auto.
Qed.

(** A table that approximates exp: increasing, not negative, flat at its ends, positive at 0. *)
Definition exp_lut (l : lut) : Prop :=
  lut_ok l /\ lut_smooth l /\ lut_mono l /\ l_fo l = 15 /\ 0 <= tab l 0 /\ tab l 0 = tab l 1 /\ tab l (l_len l - 2) = tab l (l_len l - 1)
  /\ 0 <= l_off l <= l_len l - 2 /\ 1 <= tab l (l_off l).

Lemma exp_nonneg rm l d x : exp_lut l -> 0 <= fx_core rm l d x <= 32767.
Proof.
  intros (Hl & Hsm & Hm & Hf & H0 & _). pose proof (fx_core_bits rm l d x Hl) as B. rewrite ib16 in B. split; [|lia].
  assert (T : forall i, 0 <= i < l_len l -> 0 <= tab l i) by (intros i Hi; pose proof (tab_mono_le l 0 i Hm ltac:(lia) ltac:(lia) ltac:(lia)); lia).
  unfold fx_core. destruct (Z.ltb_spec 0 d).
  - pose proof (interp_between rm l (Z.min d 15) (x / 2 ^ pre_of d) Hl ltac:(lia)) as I. cbv zeta in I.
    destruct (idx_of_range l (Z.min d 15) (x / 2 ^ pre_of d) Hl) as [I1 I2].
    pose proof (T (idx_of l (Z.min d 15) (x / 2 ^ pre_of d)) ltac:(lia)). pose proof (T (idx_of l (Z.min d 15) (x / 2 ^ pre_of d) + 1) ltac:(lia)). lia.
  - apply T. destruct Hl; lia.
Qed.

Lemma exp_zero rm l d : exp_lut l -> 1 <= fx_core rm l d 0.
Proof.
  intros (Hl & Hsm & Hm & Hf & H0 & _ & _ & Ho & H1). unfold fx_core. destruct (Z.ltb_spec 0 d).
  - rewrite Z.div_0_l by (pose proof (pow2_gt0 (pre_of d) ltac:(unfold pre_of; lia)); lia).
    pose proof (interp_between rm l (Z.min d 15) 0 Hl ltac:(lia)) as I. cbv zeta in I.
    assert (E : idx_of l (Z.min d 15) 0 = l_off l).
    { unfold idx_of. rewrite Z.div_0_l by (pose proof (pow2_gt0 (Z.min d 15) ltac:(lia)); lia). lia. }
    rewrite E in I. pose proof (Hm (l_off l) ltac:(lia) ltac:(lia)). lia.
  - replace (Z.max 0 (Z.min (0 * 2 ^ (- d) + l_off l) (l_len l - 1))) with (l_off l) by lia. exact H1.
Qed.

Lemma exp_mono rm l d x y : exp_lut l -> x <= y -> fx_core rm l d x <= fx_core rm l d y.
Proof.
  intros (Hl & Hsm & Hm & Hf & H0 & H1 & H2 & _) Hxy. apply (fx_core_mono rm l d x y (fun a => a)); auto.
Qed.

(** The result of a slice with the inputs [X] for the input [x], given the exponents and the last step. *)
Definition sm_out (rm : rmode) (val : Z -> Z -> Z -> Z) (E : Z -> Z) (X : list Z) (x : Z) : Z :=
  match softmax_recip rm 16 (lsum (map E X)) with Some (r, e) => val r e (E x) | None => 0 end.

Definition exp_fx (rm : rmode) (l : lut) (fin : Z) (X : list Z) (x : Z) : Z := fx_core rm l (fin - l_fi l) (x - lmax X).
Definition exp_sa (rm : rmode) (l : lut) (q : qpar) (X : list Z) (x : Z) : Z :=
  fx_core rm l 8 (sa_to_fx rm (mkQ (q_scale q) (q_frac q) (lmax X)) (l_fi l + 8) x).

Definition exps_ok (E : Z -> Z) (X : list Z) : Prop := (forall x, 0 <= E x <= 32767) /\ 1 <= E (lmax X) /\ forall x y, x <= y -> E x <= E y.

Lemma exp_fx_ok rm l fin X : exp_lut l -> exps_ok (exp_fx rm l fin X) X.
Proof.
  intros Hl. split; [intros x; now apply exp_nonneg|]. split; [unfold exp_fx; rewrite Z.sub_diag; now apply exp_zero|].
  intros x y Hxy. apply exp_mono; [exact Hl|lia].
Qed.

Lemma exp_sa_ok rm l q X : exp_lut l -> 0 <= q_scale q -> exps_ok (exp_sa rm l q X) X.
Proof.
  intros Hl Hq. split; [intros x; now apply exp_nonneg|]. split.
  - unfold exp_sa, sa_to_fx. cbn [q_zp q_scale q_frac]. rewrite Z.sub_diag, Z.mul_0_l. unfold scale_rnd.
    assert (Z0 : forall k, 0 <= k -> rnd rm 0 k = 0) by (intros k Hk; pose proof (rnd_exact rm 0 k Hk) as R; rewrite Z.mul_0_l in R; exact R).
    destruct (Z.leb_spec 0 (q_frac q - (l_fi l + 8))); [rewrite Z0 by lia|rewrite Z.mul_0_l]; now apply exp_zero.
  - intros x y Hxy. apply exp_mono; [exact Hl|]. now apply sa_to_fx_mono.
Qed.

Lemma exps_sum E X : X <> [] -> exps_ok E X -> Z.of_nat (length X) <= 65538 ->
  1 <= lsum (map E X) <= 2 ^ 31 - 1 /\ forall x, In x X -> E x <= lsum (map E X).
Proof.
  intros Hn (B & P & _) Hl. assert (N : forall y, In y (map E X) -> 0 <= y <= 32767) by (intros y Hy; apply in_map_iff in Hy; destruct Hy as (x & <- & _); apply B).
  assert (I : forall x, In x X -> E x <= lsum (map E X)) by (intros x Hx; apply lsum_in; [intros y Hy; now apply N|now apply in_map]).
  split; [|exact I]. destruct (lmax_is_max X Hn) as [M _]. specialize (I _ M). pose proof (lsum_bound (map E X) 32767 ltac:(intros y Hy; now apply N)) as U.
  rewrite map_length in U. change (2 ^ 31 - 1) with 2147483647. lia.
Qed.

Lemma load_hd m pi P : slice_ok P m -> fst (hd (0, 0) P) = pi -> load m pi = Some (hd 0 (vals m P)).
Proof.
  intros (Hn & _ & HA & _) E. destruct P as [|p P]; [contradiction|]. cbn [hd vals map] in *. subst pi. apply rd_load, HA. now left.
Qed.

Lemma slice_ok_frame P m m' : slice_ok P m -> (forall p, In p P -> allocated m' (snd p)) ->
  (forall a, (forall p, In p P -> snd p <> a) -> m' a = m a) -> slice_ok P m'.
Proof.
  intros (Hn & ND & HA & HI) Ho Hf. split; [exact Hn|]. split; [exact ND|]. split; [|exact HI]. intros p Hp. split; [|now apply Ho].
  destruct (in_dec Z.eq_dec (fst p) (map snd P)) as [H|H].
  - apply in_map_iff in H. destruct H as (q & E & Hq). rewrite <- E. now apply Ho.
  - unfold allocated. rewrite Hf; [now apply HA|]. intros q Hq E. apply H. rewrite <- E. now apply in_map.
Qed.

Lemma fx_slice_correct rm fin l pi po sh sti sto m :
  sh <> [] -> (length sh <= 4)%nat -> Forall (fun d => 0 <= d) sh ->
  length sti = length sh -> length sto = length sh -> last sti 0 = 1 -> last sto 0 = 1 ->
  let P := pairs pi po sh sti sto in
  slice_ok P m -> fst (hd (0, 0) P) = pi -> (forall p, In p P -> in_bits 16 (rd m (fst p))) -> Z.of_nat (length P) <= 65538 -> exp_lut l -> in_bits 8 fin ->
  exists m', softmax_fx_slice rm 16 fin 15 l pi po (squash_generic 2 (dims_of sh [sti; sto])) m = Some m'
    /\ (forall p, In p P -> m' (snd p) = Some (sm_out rm (softmax_val16 rm) (exp_fx rm l fin (vals m P)) (vals m P) (rd m (fst p))))
    /\ (forall a, (forall p, In p P -> snd p <> a) -> m' a = m a).
Proof.
  intros Hn Hr Hp L1 L2 E1 E2 P OK Hhd HB Hlen Hl Hf. pose proof (squash2_pairs pi po sh sti sto Hn Hr Hp L1 L2 E1 E2) as EP. cbv zeta in EP. fold P in EP.
  set (ds := squash_generic 2 (dims_of sh [sti; sto])) in *. set (X := vals m P).
  assert (EX : X <> []) by (destruct OK as [A _]; destruct P; [contradiction|discriminate]).
  assert (Hmx : softmax_max pi ds m = Some (lmax X)).
  { unfold softmax_max. rewrite (load_hd m pi P OK Hhd). cbn [bind]. unfold lmax, X. rewrite <- (max_pairs m P (hd 0 (vals m P))) by (intros p Hp'; now apply OK).
    rewrite <- EP. unfold pairs. now rewrite foldM_map. }
  assert (Bmx : in_bits 16 (lmax X)).
  { destruct (lmax_is_max X EX) as [A _]. apply in_map_iff in A. destruct A as (p & <- & Hp'). now apply HB. }
  unfold softmax_fx_slice. rewrite Hmx. cbn [bind].
  set (E := exp_fx rm l fin X).
  destruct (map_pairs (lut_elem rm (LIN_OFFSET (lmax X)) (LOUT_FX 16) l fin) E P m OK) as (m1 & R1 & V1 & F1).
  { intros p Hp'. destruct Hl as (Hl & Hsm & _). rewrite lut_core_eq; auto; [|right; now exists (lmax X)]. f_equal.
    rewrite lut_output_fx; [|now right|now apply fx_core_bits]. change (16 - 16) with 0. rewrite rnd_0, sat_id by (now apply fx_core_bits).
    unfold E, exp_fx. f_equal. cbn [lut_input]. specialize (HB p Hp'). rewrite ib16 in *.
    rewrite sub_fx_spec by (try lia; rewrite ib32; lia). apply sat_id. rewrite ib32. lia. }
  assert (R1' : map_all (lut_elem rm (LIN_OFFSET (lmax X)) (LOUT_FX 16) l fin) pi po ds m = Some m1).
  { unfold map_all. rewrite <- R1, <- EP. unfold pairs. now rewrite foldM_map. }
  rewrite R1'. cbn [bind]. assert (OK1 : slice_ok P m1).
  { apply (slice_ok_frame P m); auto. intros p Hp'. unfold allocated. rewrite V1 by exact Hp'. discriminate. }
  destruct (exps_sum E X EX (exp_fx_ok rm l fin X Hl) ltac:(unfold X, vals; now rewrite map_length)) as [S1 S2].
  assert (EXP : map E X = map (fun p => E (rd m (fst p))) P) by (unfold X, vals; now rewrite map_map).
  assert (Hs : foldM (fun c s => do v <- load m1 (po + addr (d_stride 1 ds) c); Some (mac_fx 32 s v 1)) (coords (d_shape ds)) 0 = Some (lsum (map E X))).
  { pose proof (sum_pairs (fun p => load m1 (snd p)) (fun p => E (rd m (fst p))) P 0) as SP. rewrite <- EXP, Z.add_0_l in SP. rewrite <- SP.
    - rewrite <- EP. unfold pairs. now rewrite foldM_map.
    - intros p Hp'. unfold load. rewrite V1 by exact Hp'. split; [reflexivity|]. apply (exp_fx_ok rm l fin X Hl).
    - lia.
    - lia. }
  rewrite Hs. cbn [bind]. destruct (softmax_recip_spec rm (lsum (map E X)) S1) as (r & e & Er & _). rewrite Er. cbn [bind fst snd].
  destruct (wb_pairs (softmax_val16 rm r e) P m1 OK1) as (m2 & R2 & V2 & F2). exists m2. split; [|split].
  - rewrite <- R2, <- EP. unfold pairs. rewrite foldM_map. unfold softmax_val16. destruct Hl as (_ & _ & _ & -> & _). reflexivity.
  - intros p Hp'. rewrite V2 by exact Hp'. unfold sm_out. rewrite Er. do 2 f_equal. unfold rd at 1. now rewrite V1.
  - intros a Ha. now rewrite F2, F1.
Qed.

Lemma sa8_slice_correct rm q l pi po sh sti sto m :
  sh <> [] -> (length sh <= 4)%nat -> Forall (fun d => 0 <= d) sh ->
  length sti = length sh -> length sto = length sh -> last sti 0 = 1 -> last sto 0 = 1 ->
  let P := pairs pi po sh sti sto in
  slice_ok P m -> fst (hd (0, 0) P) = pi -> (forall p, In p P -> in_bits 8 (rd m (fst p))) -> Z.of_nat (length P) <= 65538 -> exp_lut l ->
  0 < q_scale q -> in_bits 16 (q_scale q) ->
  exists m', softmax_sa8_slice rm q l pi po (squash_generic 2 (dims_of sh [sti; sto])) m = Some m'
    /\ (forall p, In p P -> m' (snd p) = Some (sm_out rm (softmax_val8 rm) (exp_sa rm l q (vals m P)) (vals m P) (rd m (fst p))))
    /\ (forall a, (forall p, In p P -> snd p <> a) -> m' a = m a).
Proof.
  intros Hn Hr Hp L1 L2 E1 E2 P OK Hhd HB Hlen Hl Hq Bq. pose proof (squash2_pairs pi po sh sti sto Hn Hr Hp L1 L2 E1 E2) as EP. cbv zeta in EP. fold P in EP.
  set (ds := squash_generic 2 (dims_of sh [sti; sto])) in *. set (X := vals m P).
  assert (EX : X <> []) by (destruct OK as [A _]; destruct P; [contradiction|discriminate]).
  assert (Hmx : softmax_max pi ds m = Some (lmax X)).
  { unfold softmax_max. rewrite (load_hd m pi P OK Hhd). cbn [bind]. unfold lmax, X. rewrite <- (max_pairs m P (hd 0 (vals m P))) by (intros p Hp'; now apply OK).
    rewrite <- EP. unfold pairs. now rewrite foldM_map. }
  assert (Bmx : in_bits 8 (lmax X)).
  { destruct (lmax_is_max X EX) as [A _]. apply in_map_iff in A. destruct A as (p & <- & Hp'). now apply HB. }
  unfold softmax_sa8_slice. rewrite Hmx. cbn [bind]. set (q' := mkQ (q_scale q) (q_frac q) (lmax X)).
  set (E := exp_sa rm l q X).
  assert (HE : forall p, In p P -> lut_elem_interp rm (LIN_SA q') (LOUT_FX 16) l 0 (rd m (fst p)) = Some (E (rd m (fst p)))).
  { intros p Hp'. destruct Hl as (Hl & Hsm & _). rewrite (proj2 (sa_core_eq rm (LOUT_FX 16) l q' 0 (rd m (fst p)) Hl Hsm (HB p Hp') Bmx Bq)). f_equal.
    rewrite lut_output_fx; [|now right|now apply fx_core_bits]. change (16 - 16) with 0. rewrite rnd_0, sat_id by (now apply fx_core_bits). reflexivity. }
  assert (HOK : exps_ok E X) by (apply exp_sa_ok; auto; lia).
  destruct (exps_sum E X EX HOK ltac:(unfold X, vals; now rewrite map_length)) as [S1 S2].
  assert (EXP : map E X = map (fun p => E (rd m (fst p))) P) by (unfold X, vals; now rewrite map_map).
  assert (Hs : foldM (fun c s => do x <- load m (pi + addr (d_stride 0 ds) c); do v <- lut_elem_interp rm (LIN_SA q') (LOUT_FX 16) l 0 x; Some (mac_fx 32 s v 1)) (coords (d_shape ds)) 0
    = Some (lsum (map E X))).
  { pose proof (sum_pairs (fun p => do x <- load m (fst p); lut_elem_interp rm (LIN_SA q') (LOUT_FX 16) l 0 x) (fun p => E (rd m (fst p))) P 0) as SP.
    rewrite <- EXP, Z.add_0_l in SP. rewrite <- SP.
    - rewrite <- EP. unfold pairs. rewrite foldM_map. apply foldM_ext. intros c s _. cbn [fst]. destruct (load m (pi + addr (d_stride 0 ds) c)); reflexivity.
    - intros p Hp'. rewrite rd_load by (now apply OK). cbn [bind]. rewrite HE by exact Hp'. split; [reflexivity|]. apply HOK.
    - lia.
    - lia. }
  rewrite Hs. cbn [bind]. destruct (softmax_recip_spec rm (lsum (map E X)) S1) as (r & e & Er & _). rewrite Er. cbn [bind fst snd].
  destruct (map_pairs (fun x => do v <- lut_elem_interp rm (LIN_SA q') (LOUT_FX 16) l 0 x;
    Some (convert_fx16_sa8 rm (r * v) (q_zp softmax_out) (min_fx (l_fo l * 2 + (15 - e) - q_frac softmax_out) 31))) (fun x => softmax_val8 rm r e (E x)) P m OK)
    as (m2 & R2 & V2 & F2).
  { intros p Hp'. rewrite HE by exact Hp'. cbn [bind]. unfold softmax_val8. destruct Hl as (_ & _ & _ & -> & _). reflexivity. }
  exists m2. split; [|split].
  - unfold map_all. rewrite <- R2, <- EP. unfold pairs. now rewrite foldM_map.
  - intros p Hp'. rewrite V2 by exact Hp'. unfold sm_out. now rewrite Er.
  - exact F2.
Qed.

(** * All slices *)

Lemma foldM_blocks {A} (P : A -> list (Z * Z)) (V : A -> Z * Z -> Z) (F : A -> mem -> option mem) (L : list A) (m : mem) :
  NoDup L ->
  (forall i, In i L -> slice_ok (P i) m) ->
  (forall i j p q, In i L -> In j L -> i <> j -> In p (P i) -> In q (P j) -> fst p <> snd q /\ snd p <> snd q) ->
  (forall i m1, In i L -> slice_ok (P i) m1 -> vals m1 (P i) = vals m (P i) -> exists m2, F i m1 = Some m2
     /\ (forall p, In p (P i) -> m2 (snd p) = Some (V i p)) /\ (forall a, (forall p, In p (P i) -> snd p <> a) -> m2 a = m1 a)) ->
  exists m', foldM F L m = Some m'
    /\ (forall i p, In i L -> In p (P i) -> m' (snd p) = Some (V i p))
    /\ (forall a, (forall i p, In i L -> In p (P i) -> snd p <> a) -> m' a = m a).
Proof.
  intros ND HS HD HF.
  assert (G : forall L2 L1 m1, L = L1 ++ L2 ->
    (forall a, (forall i p, In i L1 -> In p (P i) -> snd p <> a) -> m1 a = m a) -> (forall i p, In i L1 -> In p (P i) -> m1 (snd p) = Some (V i p)) ->
    exists m', foldM F L2 m1 = Some m'
      /\ (forall i p, In i L -> In p (P i) -> m' (snd p) = Some (V i p)) /\ (forall a, (forall i p, In i L -> In p (P i) -> snd p <> a) -> m' a = m a)).
  { induction L2 as [|i L2 IH]; intros L1 m1 EL H1 H2; cbn [foldM].
    - rewrite app_nil_r in EL. subst L1. eauto.
    - assert (Hi : In i L) by (rewrite EL; apply in_elt). assert (Hni : forall j, In j L1 -> In j L /\ j <> i).
      { intros j Hj. split; [rewrite EL; apply in_or_app; now left|]. intros ->. rewrite EL in ND. apply NoDup_remove_2 in ND. apply ND, in_or_app. now left. }
      assert (HA : forall a, allocated m a -> allocated m1 a).
      { intros a Ha. destruct (in_dec Z.eq_dec a (flat_map (fun j => map snd (P j)) L1)) as [H|H].
        - apply in_flat_map in H. destruct H as (j & Hj & H). apply in_map_iff in H. destruct H as (p & <- & Hp). unfold allocated. rewrite (H2 j p) by auto. discriminate.
        - unfold allocated. rewrite H1; [exact Ha|]. intros j p Hj Hp <-. apply H. apply in_flat_map. exists j. split; [exact Hj|now apply in_map]. }
      assert (Hv : forall p, In p (P i) -> m1 (fst p) = m (fst p)).
      { intros p Hp. apply H1. intros j q Hj Hq E. destruct (Hni j Hj) as [Hj' Hne]. destruct (HD i j p q Hi Hj' ltac:(congruence) Hp Hq). congruence. }
      destruct (HF i m1 Hi) as (m2 & E2 & V2 & F2).
      { destruct (HS i Hi) as (S1 & S2 & S3 & S4). split; [exact S1|]. split; [exact S2|]. split; [|exact S4]. intros p Hp. split; apply HA; now apply S3. }
      { apply map_ext_in. intros p Hp. unfold rd. now rewrite Hv. }
      rewrite E2. destruct (IH (L1 ++ [i]) m2) as (m' & E' & V' & F').
      + rewrite <- app_assoc. exact EL.
      + intros a Ha. rewrite F2 by (intros p Hp; apply (Ha i p); auto; apply in_elt). apply H1. intros j p Hj Hp. apply (Ha j p); auto. apply in_or_app. now left.
      + intros j p Hj Hp. apply in_app_or in Hj. destruct Hj as [Hj|[<-|[]]]; [|now apply V2]. rewrite F2; [now apply H2|].
        intros q Hq E. destruct (Hni j Hj) as [Hj' Hne]. destruct (HD j i p q Hj' Hi Hne Hp Hq) as [_ X]. congruence.
      + exists m'. auto. }
  apply (G L []); auto. intros i p [].
Qed.

(** The coordinates that differ from [c] along the axis only; all coordinates for a negative axis. *)
Definition slice_at (axis : Z) (sh d : list Z) : list (list Z) :=
  if axis <? 0 then coords sh else map (fun i => ins_at (Z.to_nat axis) i d) (zrange 0 (nth (Z.to_nat axis) sh 0)).
Definition axis_slice (axis : Z) (sh c : list Z) : list (list Z) := slice_at axis sh (non_axis axis c).

Lemma axis_shape_eq axis sh : 0 <= axis < Z.of_nat (length sh) ->
  axis_shape axis sh = repeat 1 (Z.to_nat axis) ++ nth (Z.to_nat axis) sh 0 :: repeat 1 (length sh - S (Z.to_nat axis)).
Proof.
  intros Ha. unfold axis_shape. destruct (Z.ltb_spec axis 0); [lia|]. set (a := Z.to_nat axis). assert (Ea : axis = Z.of_nat a) by lia.
  assert (Hlt : (a < length sh)%nat) by lia. rewrite Ea. clearbody a. clear Ea Ha H axis.
  set (f := fun k => if Z.of_nat k =? Z.of_nat a then nth k sh 0 else 1).
  replace (length sh) with (a + S (length sh - S a))%nat at 1 by lia. rewrite seq_app, map_app. cbn [seq map]. f_equal; [|f_equal].
  - assert (G : forall s n, (s + n <= a)%nat -> map f (seq s n) = repeat 1 n).
    { intros s n. revert s. induction n as [|n IH]; intros s Hs; cbn [seq map repeat]; [reflexivity|]. f_equal; [|apply IH; lia].
      unfold f. destruct (Z.eqb_spec (Z.of_nat s) (Z.of_nat a)); [lia|reflexivity]. }
    apply G. lia.
  - unfold f. cbn [Nat.add]. now rewrite Z.eqb_refl.
  - assert (G : forall n s, (a < s)%nat -> map f (seq s n) = repeat 1 n).
    { induction n as [|n IH]; intros s Hs; cbn [seq map repeat]; [reflexivity|]. f_equal; [|apply IH; lia].
      unfold f. destruct (Z.eqb_spec (Z.of_nat s) (Z.of_nat a)); [lia|reflexivity]. }
    apply G. lia.
Qed.

Lemma addr_zeros k : forall st, addr st (repeat 0 k) = 0.
Proof. induction k as [|k IH]; intros [|s st]; cbn [repeat addr]; auto. rewrite IH. lia. Qed.

Lemma drop_unit a i b : drop_at a (repeat 0 a ++ i :: repeat 0 b) = repeat 0 (a + b).
Proof.
  unfold drop_at. rewrite firstn_app, repeat_length, Nat.sub_diag. cbn [firstn]. rewrite app_nil_r, firstn_all2 by (rewrite repeat_length; lia).
  rewrite skipn_app, repeat_length, skipn_all2 by (rewrite repeat_length; lia). replace (S a - a)%nat with 1%nat by lia. cbn [skipn app].
  symmetry. apply repeat_app.
Qed.

Lemma axis_pairs pi po axis sh sti sto d : axis < Z.of_nat (length sh) -> length sti = length sh -> length sto = length sh ->
  valid (non_axis axis sh) d ->
  pairs (pi + addr (non_axis axis sti) d) (po + addr (non_axis axis sto) d) (axis_shape axis sh) sti sto
  = map (fun x => (pi + addr sti x, po + addr sto x)) (slice_at axis sh d).
Proof.
  intros Ha L1 L2 Hd. unfold pairs, slice_at. destruct (Z.ltb_spec axis 0) as [Hlt|Hge].
  - unfold axis_shape, non_axis in *. destruct (Z.ltb_spec axis 0); [|lia]. destruct d; [|contradiction]. cbn [addr]. rewrite !Z.add_0_r. reflexivity.
  - rewrite axis_shape_eq by lia. unfold non_axis in *. destruct (Z.ltb_spec axis 0); [lia|]. set (a := Z.to_nat axis) in *. set (b := (length sh - S a)%nat).
    rewrite coords_pad, map_map. cbn [coords]. assert (Eb : coords (repeat 1 b) = [repeat 0 b]).
    { pose proof (coords_pad b []) as C. rewrite app_nil_r in C. rewrite C. cbn [coords map]. now rewrite app_nil_r. }
    rewrite Eb. cbn [map]. rewrite flat_map_concat_map, map_map.
    assert (G : forall l, map (fun x => (pi + addr (drop_at a sti) d + addr sti (repeat 0 a ++ x), po + addr (drop_at a sto) d + addr sto (repeat 0 a ++ x)))
      (concat (map (fun i => [i :: repeat 0 b]) l))
      = map (fun i => (pi + addr (drop_at a sti) d + addr sti (repeat 0 a ++ i :: repeat 0 b), po + addr (drop_at a sto) d + addr sto (repeat 0 a ++ i :: repeat 0 b))) l).
    { induction l as [|x l IH]; cbn [map concat app]; [reflexivity|]. now rewrite IH. }
    rewrite G. apply map_ext_in. intros i Hi. apply in_zrange in Hi.
    assert (A : forall st, length st = length sh -> addr (drop_at a st) d + addr st (repeat 0 a ++ i :: repeat 0 b) = addr st (ins_at a i d)).
    { intros st L. destruct (valid_ins a sh i d Hd Hi ltac:(lia)) as (V & N & D). pose proof (valid_length _ _ V) as VL.
      rewrite (addr_split a st (ins_at a i d)) by lia. rewrite N, D.
      rewrite (addr_split a st (repeat 0 a ++ i :: repeat 0 b)) by (rewrite app_length; cbn [length]; rewrite !repeat_length; lia).
      rewrite drop_unit, addr_zeros. rewrite app_nth2 by (rewrite repeat_length; lia). rewrite repeat_length, Nat.sub_diag. cbn [nth]. lia. }
    rewrite <- !Z.add_assoc, !A by lia. reflexivity.
Qed.

Lemma slice_at_in axis sh d x : axis < Z.of_nat (length sh) -> valid (non_axis axis sh) d ->
  In x (slice_at axis sh d) <-> valid sh x /\ non_axis axis x = d.
Proof.
  intros Ha Hd. unfold slice_at, non_axis in *. destruct (Z.ltb_spec axis 0) as [Hlt|Hge].
  - destruct d; [|contradiction]. rewrite in_coords. tauto.
  - set (a := Z.to_nat axis) in *. rewrite in_map_iff. split.
    + intros (i & <- & Hi). apply in_zrange in Hi. destruct (valid_ins a sh i d Hd Hi ltac:(lia)) as (V & _ & D). auto.
    + intros (V & <-). destruct (valid_split a sh x V ltac:(lia)) as [A B]. exists (nth a x 0). split; [|now apply in_zrange].
      destruct (valid_ins a sh (nth a x 0) (drop_at a x) B A ltac:(lia)) as (V' & N & D). apply (drop_at_inj a sh); auto; lia.
Qed.

Lemma non_axis_valid axis sh x : axis < Z.of_nat (length sh) -> valid sh x -> valid (non_axis axis sh) (non_axis axis x).
Proof.
  intros Ha V. unfold non_axis. destruct (Z.ltb_spec axis 0); [exact I|]. apply valid_split; [exact V|lia].
Qed.

Lemma NoDup_map_in {A B} (f : A -> B) l : (forall x y, In x l -> In y l -> f x = f y -> x = y) -> NoDup l -> NoDup (map f l).
Proof.
  intros Hi ND. induction ND as [|x l Hx ND IH]; cbn [map]; constructor.
  - intros H. apply in_map_iff in H. destruct H as (y & E & Hy). apply Hi in E; [subst; contradiction|now right|now left].
  - apply IH. intros a b Ha Hb. apply Hi; now right.
Qed.

Lemma slice_at_NoDup axis sh d : axis < Z.of_nat (length sh) -> valid (non_axis axis sh) d -> NoDup (slice_at axis sh d).
Proof.
  intros Ha Hd. unfold slice_at, non_axis in *. destruct (Z.ltb_spec axis 0) as [Hlt|Hge]; [apply coords_NoDup|]. set (a := Z.to_nat axis) in *.
  apply NoDup_map_in; [|apply zrange_NoDup]. intros i j Hi Hj E. apply in_zrange in Hi. apply in_zrange in Hj.
  destruct (valid_ins a sh i d Hd Hi ltac:(lia)) as (_ & N & _). destruct (valid_ins a sh j d Hd Hj ltac:(lia)) as (_ & N' & _). congruence.
Qed.

Lemma coords_hd sh : Forall (fun d => 0 < d) sh -> exists tl, coords sh = repeat 0 (length sh) :: tl.
Proof.
  induction sh as [|d sh IH]; intros F; [now exists []|]. inversion F; subst. destruct (IH H2) as (tl & E). cbn [coords length repeat].
  assert (Ez : exists l, zrange 0 d = 0 :: l).
  { unfold zrange. replace (Z.to_nat (d - 0)) with (S (Z.to_nat (d - 1))) by lia. cbn [seq map]. eexists. reflexivity. }
  destruct Ez as (l & ->). cbn [flat_map]. rewrite E. cbn [map app]. eexists. reflexivity.
Qed.

Lemma axis_shape_pos axis sh : Forall (fun d => 0 < d) sh -> Forall (fun d => 0 < d) (axis_shape axis sh) /\ length (axis_shape axis sh) = length sh.
Proof.
  intros F. unfold axis_shape. destruct (axis <? 0); [auto|]. rewrite map_length, seq_length. split; [|reflexivity].
  apply Forall_forall. intros x Hx. apply in_map_iff in Hx. destruct Hx as (k & <- & Hk). apply in_seq in Hk. destruct (_ =? _); [|lia].
  rewrite Forall_forall in F. apply F, nth_In. lia.
Qed.

(** Any kernel that treats each slice on its own: [F] handles the slice at the coordinate [d] of the other dimensions. [V X x] is the
    result for the input [x] in a slice with the inputs [X]. *)
Lemma axis_blocks F (V : list Z -> Z -> Z) n axis tin tout m : 1 <= n ->
  chk_basic_activation tin tout = ST_OK -> axis < t_rank tin -> t_rank tin <> 0 -> fits32 tin -> fits32 tout -> backed tin m -> backed tout m -> unary_ok tin tout -> mem_bits n m ->
  (forall d m1, valid (non_axis axis (t_shape tin)) d ->
    let P := map (fun x => (t_data tin + addr (t_stride tin) x, t_data tout + addr (t_stride tout) x)) (slice_at axis (t_shape tin) d) in
    slice_ok P m1 -> fst (hd (0, 0) P) = t_data tin + addr (non_axis axis (t_stride tin)) d -> (forall p, In p P -> in_bits n (rd m1 (fst p))) ->
    (exists c, valid (t_shape tin) c /\ slice_at axis (t_shape tin) d = axis_slice axis (t_shape tin) c) ->
    exists m2, F d m1 = Some m2
      /\ (forall p, In p P -> m2 (snd p) = Some (V (vals m1 P) (rd m1 (fst p))))
      /\ (forall a, (forall p, In p P -> snd p <> a) -> m2 a = m1 a)) ->
  exists m', foldM F (coords (non_axis axis (t_shape tin))) m = Some m'
    /\ (forall c, valid (t_shape tin) c -> m' (t_data tout + addr (t_stride tout) c)
        = Some (V (map (fun c' => rd m (t_data tin + addr (t_stride tin) c')) (axis_slice axis (t_shape tin) c)) (rd m (t_data tin + addr (t_stride tin) c))))
    /\ frame_ok tout m m'.
Proof.
  intros Hn Hb Hax R FI FO BI BO U MB HS. destruct (chk_relu_facts tin tout Hb R) as (CI & CO & Es & L1 & L2).
  pose proof FI as (LI & _). pose proof FO as (LO & _). destruct (chk_tensor_pos tin CI LI) as (R4 & P & _).
  destruct (chk_tensor_nested tout FO CO) as (Nst & _).
  unfold t_rank in *. set (sh := t_shape tin) in *. set (sti := t_stride tin) in *. set (sto := t_stride tout) in *.
  set (ia := fun x => t_data tin + addr sti x). set (oa := fun x => t_data tout + addr sto x).
  set (Pd := fun d => map (fun x => (ia x, oa x)) (slice_at axis sh d)).
  assert (EP : forall d, valid (non_axis axis sh) d -> pairs (t_data tin + addr (non_axis axis sti) d) (t_data tout + addr (non_axis axis sto) d) (axis_shape axis sh) sti sto = Pd d).
  { intros d Hd. apply axis_pairs; auto; lia || congruence. }
  assert (PI : forall d p, valid (non_axis axis sh) d -> In p (Pd d) <-> exists x, p = (ia x, oa x) /\ valid sh x /\ non_axis axis x = d).
  { intros d p Hd. unfold Pd. rewrite in_map_iff. split; intros (x & Hx).
    - destruct Hx as [<- Hx]. apply slice_at_in in Hx; auto. exists x. tauto.
    - exists x. split; [symmetry; apply Hx|]. apply slice_at_in; auto. tauto. }
  assert (Oi : forall x y, valid sh x -> valid sh y -> oa x = oa y -> x = y).
  { intros x y Vx Vy E. apply (nested_inj (t_shape tout) sto); auto; try (now rewrite <- Es). unfold oa in E. lia. }
  assert (Ui : forall x y, valid sh x -> valid sh y -> ia x = oa y -> x = y).
  { intros x y Vx Vy E. destruct (list_eq_dec Z.eq_dec x y) as [->|Hne]; [reflexivity|]. exfalso. rewrite Es in Vx, Vy. exact (U x y Vx Vy Hne E). }
  destruct (axis_shape_pos axis sh P) as [AP AL].
  assert (Hok : forall d, valid (non_axis axis sh) d -> slice_ok (Pd d) m).
  { intros d Hd. split; [|split; [|split]].
    - rewrite <- EP by exact Hd. unfold pairs. destruct (coords_hd _ AP) as (tl & ->). discriminate.
    - apply NoDup_map_in; [|now apply slice_at_NoDup]. intros x y Hx Hy E. apply slice_at_in in Hx; auto. apply slice_at_in in Hy; auto.
      injection E as _ E. apply Oi; tauto.
    - intros p Hp. apply PI in Hp; auto. destruct Hp as (x & -> & Vx & _). cbn [fst snd]. split; [now apply (chk_backed tin)|apply (chk_backed tout); auto; now rewrite <- Es].
    - intros p q Hp Hq E. apply PI in Hp; auto. apply PI in Hq; auto. destruct Hp as (x & -> & Vx & _). destruct Hq as (y & -> & Vy & _). cbn [fst snd] in E.
      destruct E as [E|E]; [apply Ui in E|apply Oi in E]; auto; now subst. }
  destruct (foldM_blocks Pd (fun d p => V (vals m (Pd d)) (rd m (fst p))) F (coords (non_axis axis sh)) m) as (m' & E & V' & F').
  - apply coords_NoDup.
  - intros d Hd. apply in_coords in Hd. now apply Hok.
  - intros d e p q Hd He Hne Hp Hq. apply in_coords in Hd. apply in_coords in He. apply PI in Hp; auto. apply PI in Hq; auto.
    destruct Hp as (x & -> & Vx & Dx). destruct Hq as (y & -> & Vy & Dy). cbn [fst snd].
    split; intros E; apply Hne; [apply Ui in E|apply Oi in E]; auto; congruence.
  - intros d m1 Hd OK1 Ev. apply in_coords in Hd.
    assert (BP : forall p, In p (Pd d) -> rd m1 (fst p) = rd m (fst p)).
    { intros p Hp. unfold vals in Ev. rewrite map_ext_in_iff in Ev. now apply Ev. }
    destruct (HS d m1 Hd OK1) as (m2 & E2 & V2 & F2).
    + change (fst (hd (0, 0) (Pd d)) = t_data tin + addr (non_axis axis sti) d). rewrite <- EP by exact Hd. destruct (coords_hd _ AP) as (tl & Etl).
      unfold pairs. rewrite Etl. cbn [map hd fst]. rewrite addr_zeros. lia.
    + intros p Hp. rewrite BP by exact Hp. now apply rd_bits.
    + destruct (PI d (hd (0, 0) (Pd d)) Hd) as [PI1 _]. destruct PI1 as (x & _ & Vx & Dx).
      { destruct (Hok d Hd) as [Hne _]. destruct (Pd d); [contradiction|now left]. }
      exists x. split; [exact Vx|]. unfold axis_slice. now rewrite Dx.
    + exists m2. split; [exact E2|]. split; [|exact F2].
      intros p Hp. rewrite V2 by exact Hp. change (map (fun x => (t_data tin + addr sti x, t_data tout + addr sto x)) (slice_at axis sh d)) with (Pd d).
      rewrite Ev, BP by exact Hp. reflexivity.
  - exists m'. split; [exact E|]. split.
    + intros c Vc. pose proof (non_axis_valid axis sh c Hax Vc) as Vd. specialize (V' (non_axis axis c) (ia c, oa c)). cbn [fst snd] in V'.
      change (m' (oa c) = Some (V (map (fun c' => rd m (ia c')) (axis_slice axis sh c)) (rd m (ia c)))).
      rewrite V'; [|now apply in_coords|apply PI; auto; now exists c]. do 2 f_equal. unfold vals, Pd, axis_slice. rewrite map_map. reflexivity.
    + intros a Ha. apply F'. intros d p Hd Hp. apply in_coords in Hd. apply PI in Hp; auto. destruct Hp as (x & -> & Vx & _). cbn [snd].
      intros E'. apply (Ha x); [now rewrite <- Es|]. now rewrite <- E'.
Qed.

Lemma chk_softmax_facts tin tout axis : chk_softmax tin tout axis = ST_OK -> chk_basic_activation tin tout = ST_OK /\ axis < t_rank tin.
Proof. unfold chk_softmax. destruct (chk_basic_activation tin tout); try discriminate. destruct (Z.ltb_spec axis (t_rank tin)); [auto|discriminate]. Qed.

Lemma softmax_run_correct slice (V : list Z -> Z -> Z) n axis tin tout m : 1 <= n ->
  chk_softmax tin tout axis = ST_OK -> t_rank tin <> 0 -> fits32 tin -> fits32 tout -> backed tin m -> backed tout m -> unary_ok tin tout -> mem_bits n m ->
  (forall c, valid (t_shape tin) c -> Z.of_nat (length (axis_slice axis (t_shape tin) c)) <= 65538) ->
  (forall pi po m, let sh := axis_shape axis (t_shape tin) in let sti := t_stride tin in let sto := t_stride tout in
    sh <> [] -> (length sh <= 4)%nat -> Forall (fun d => 0 <= d) sh ->
    length sti = length sh -> length sto = length sh -> last sti 0 = 1 -> last sto 0 = 1 ->
    let P := pairs pi po sh sti sto in
    slice_ok P m -> fst (hd (0, 0) P) = pi -> (forall p, In p P -> in_bits n (rd m (fst p))) -> Z.of_nat (length P) <= 65538 ->
    exists m', slice pi po (squash_generic 2 (dims_of sh [sti; sto])) m = Some m'
      /\ (forall p, In p P -> m' (snd p) = Some (V (vals m P) (rd m (fst p))))
      /\ (forall a, (forall p, In p P -> snd p <> a) -> m' a = m a)) ->
  exists m', softmax_run slice axis tin tout m = Some m'
    /\ (forall c, valid (t_shape tin) c -> m' (t_data tout + addr (t_stride tout) c)
        = Some (V (map (fun c' => rd m (t_data tin + addr (t_stride tin) c')) (axis_slice axis (t_shape tin) c)) (rd m (t_data tin + addr (t_stride tin) c))))
    /\ frame_ok tout m m'.
Proof.
  intros Hn Hc R FI FO BI BO U MB Hlen HS. destruct (chk_softmax_facts _ _ _ Hc) as [Hb Hax]. destruct (chk_relu_facts tin tout Hb R) as (CI & CO & Es & L1 & L2).
  pose proof FI as (LI & _). pose proof FO as (LO & _). destruct (chk_tensor_pos tin CI LI) as (R4 & P & _).
  unfold t_rank in *. destruct (axis_shape_pos axis (t_shape tin) P) as [AP AL].
  unfold softmax_run. apply (axis_blocks _ V n); auto. intros d m1 Hd P' OK Hhd HB (c & Vc & Ec).
  assert (EP : pairs (t_data tin + addr (non_axis axis (t_stride tin)) d) (t_data tout + addr (non_axis axis (t_stride tout)) d) (axis_shape axis (t_shape tin)) (t_stride tin) (t_stride tout) = P').
  { apply axis_pairs; auto; lia || congruence. }
  destruct (HS (t_data tin + addr (non_axis axis (t_stride tin)) d) (t_data tout + addr (non_axis axis (t_stride tout)) d) m1) as (m2 & E2 & V2 & F2); rewrite ?EP; auto.
  - intros E0. rewrite E0 in AL. cbn in AL. destruct (t_shape tin); [|discriminate]. now apply R.
  - lia.
  - now apply last_pos_shape.
  - rewrite AL. now symmetry.
  - rewrite AL, Es. now symmetry.
  - unfold P'. rewrite map_length, Ec. now apply Hlen.
  - rewrite EP in V2, F2. exists m2. auto.
Qed.

(** * Theorems *)

(** [Y] is the softmax of the slice [sl] with the exponentials [E], in units of 1/[unit]: each result is the exponential divided by
    the sum of all of them, within half a unit and [k]/2 * 2^-15 of the result. *)
Definition is_softmax (unit k : Z) (sl : list (list Z)) (E Y : list Z -> Z) : Prop :=
  let total := lsum (map E sl) in
  0 < total /\ forall c, In c sl -> 0 <= Y c < unit /\ 2 * Z.abs (Y c * total - unit * E c) <= total + k * E c.

(** Hence the results add up to one. *)
Lemma is_softmax_total unit k sl E Y : 0 <= k -> is_softmax unit k sl E Y ->
  2 * Z.abs (lsum (map Y sl) - unit) <= Z.of_nat (length sl) + k.
Proof.
  intros Hk (Ht & H). set (t := lsum (map E sl)) in *.
  assert (G : forall l, (forall c, In c l -> 2 * Z.abs (Y c * t - unit * E c) <= t + k * E c) ->
    2 * Z.abs (lsum (map Y l) * t - unit * lsum (map E l)) <= t * Z.of_nat (length l) + k * lsum (map E l)).
  { induction l as [|c l IH]; intros Hc; cbn [map lsum fold_right length]; [lia|]. fold (lsum (map Y l)) (lsum (map E l)).
    specialize (IH ltac:(intros d Hd; apply Hc; now right)). specialize (Hc c ltac:(now left)).
    pose proof (Z.abs_triangle (Y c * t - unit * E c) (lsum (map Y l) * t - unit * lsum (map E l))) as Tr.
    replace ((Y c + lsum (map Y l)) * t - unit * (E c + lsum (map E l))) with (Y c * t - unit * E c + (lsum (map Y l) * t - unit * lsum (map E l))) by ring.
    rewrite Nat2Z.inj_succ. lia. }
  specialize (G sl ltac:(intros c Hc; now apply H)). fold t in G.
  replace (lsum (map Y sl) * t - unit * t) with ((lsum (map Y sl) - unit) * t) in G by ring. rewrite Z.abs_mul, (Z.abs_eq t) in G by lia. nia.
Qed.

Lemma sm_out_spec rm val unit k off E X x :
  (forall s r e v, 1 <= s <= 2 ^ 31 - 1 -> softmax_recip rm 16 s = Some (r, e) -> 0 <= v <= 32767 -> v <= s ->
    0 <= val r e v + off < unit /\ 2 * Z.abs ((val r e v + off) * s - unit * v) <= s + k * v) ->
  X <> [] -> exps_ok E X -> Z.of_nat (length X) <= 65538 -> In x X ->
  let total := lsum (map E X) in let y := sm_out rm val E X x + off in
  0 < total /\ 0 <= y < unit /\ 2 * Z.abs (y * total - unit * E x) <= total + k * E x.
Proof.
  intros HV Hn HE Hl Hx total y. destruct (exps_sum E X Hn HE Hl) as [S1 S2]. split; [unfold total; lia|].
  destruct (softmax_recip_spec rm (lsum (map E X)) S1) as (r & e & Er & _). unfold y, sm_out. rewrite Er.
  apply HV; auto. apply HE.
Qed.

Lemma lut_out16_inj rm l a b : Some (lut_output rm (LOUT_FX 16) l a) = Some (lut_output rm (LOUT_FX 16) l b) -> in_bits 16 a -> in_bits 16 b -> a = b.
Proof.
  intros E Ba Bb. assert (E' : lut_output rm (LOUT_FX 16) l a = lut_output rm (LOUT_FX 16) l b) by congruence.
  rewrite !lut_output_fx in E' by (auto; now right). change (16 - 16) with 0 in E'. now rewrite !rnd_0, !sat_id in E' by auto.
Qed.

(** C40: every result of the 16-bit softmax is the exponential of its element relative to the largest element of its slice, as given by
    the table, divided by the sum of those exponentials over the slice. *)
Theorem softmax_fx16_correct rm fin l axis tin tout m :
  chk_softmax tin tout axis = ST_OK -> t_rank tin <> 0 -> fits32 tin -> fits32 tout -> backed tin m -> backed tout m -> unary_ok tin tout ->
  mem_bits 16 m -> exp_lut l -> in_bits 8 fin ->
  (forall c, valid (t_shape tin) c -> Z.of_nat (length (axis_slice axis (t_shape tin) c)) <= 65538) ->
  exists m', softmax_fx rm 16 fin l axis tin tout m = Some m' /\ frame_ok tout m m'
    /\ forall c, valid (t_shape tin) c ->
       let X := fun c => rd m (t_data tin + addr (t_stride tin) c) in
       let Y := fun c => rd m' (t_data tout + addr (t_stride tout) c) in
       let sl := axis_slice axis (t_shape tin) c in
       exists mx E, is_max mx (map X sl)
         /\ (forall c', In c' sl -> 0 <= E c' /\ table_spec l (fin - l_fi l) (X c' - mx) (E c'))
         /\ is_softmax (2 ^ 15) 8 sl E Y
         /\ (forall c1 c2, In c1 sl -> In c2 sl -> X c1 <= X c2 -> Y c1 <= Y c2).
Proof.
  intros Hc R FI FO BI BO U MB Hl Hf Hlen.
  destruct (softmax_run_correct (softmax_fx_slice rm 16 fin (16 - 1) l) (fun X x => sm_out rm (softmax_val16 rm) (exp_fx rm l fin X) X x) 16 axis tin tout m) as (m' & E & V & F); auto; [lia| |].
  { intros pi po m0 sh sti sto. intros. apply fx_slice_correct; auto. }
  exists m'. split; [exact E|]. split; [exact F|]. intros c Vc X Y sl.
  assert (Hax : axis < Z.of_nat (length (t_shape tin))).
  { apply (chk_softmax_facts _ _ _ Hc). }
  pose proof (non_axis_valid axis _ c Hax Vc) as Vd.
  assert (Hsl : forall c', In c' sl <-> valid (t_shape tin) c' /\ non_axis axis c' = non_axis axis c) by (intros c'; now apply slice_at_in).
  assert (Esl : forall c', In c' sl -> axis_slice axis (t_shape tin) c' = sl) by (intros c' Hc'; apply Hsl in Hc'; unfold sl, axis_slice; now rewrite (proj2 Hc')).
  set (XS := map X sl). assert (XN : XS <> []).
  { assert (In c sl) by (apply Hsl; auto). unfold XS. destruct sl; [contradiction|discriminate]. }
  set (Ef := exp_fx rm l fin XS). pose proof (exp_fx_ok rm l fin XS Hl) as HE. fold Ef in HE.
  assert (HY : forall c', In c' sl -> Y c' = sm_out rm (softmax_val16 rm) Ef XS (X c')).
  { intros c' Hc'. unfold Y, rd at 1. rewrite V by (now apply Hsl). rewrite (Esl c' Hc'). reflexivity. }
  assert (LX : Z.of_nat (length XS) <= 65538) by (unfold XS; rewrite map_length; now apply Hlen).
  exists (lmax XS), (fun c' => Ef (X c')). split; [now apply lmax_is_max|]. split; [|split].
  - intros c' Hc'. split; [apply HE|]. unfold Ef, exp_fx. destruct Hl as (Hl & Hsm & _).
    assert (BX : forall c, in_bits 16 (X c)) by (intros; unfold X; apply rd_bits; auto; lia).
    assert (BM : in_bits 16 (lmax XS)).
    { destruct (lmax_is_max XS XN) as [A _]. apply in_map_iff in A. destruct A as (p & <- & _). apply BX. }
    destruct (lut_core rm (LOUT_FX 16) l fin (X c') (LIN_OFFSET (lmax XS)) Hl Hsm Hf ltac:(right; eauto) (BX c')) as (r & Br & T & Er).
    rewrite lut_core_eq in Er by (auto; right; eauto). apply lut_out16_inj in Er; [|now apply fx_core_bits|exact Br].
    assert (EI : lut_input rm (LIN_OFFSET (lmax XS)) fin (X c') = X c' - lmax XS).
    { cbn [lut_input]. pose proof (BX c') as B'. rewrite ib16 in B', BM. rewrite sub_fx_spec by (try lia; rewrite ib32; lia). apply sat_id. rewrite ib32. lia. }
    rewrite EI in Er, T. now rewrite Er.
  - unfold is_softmax. cbv zeta. replace (map (fun c' => Ef (X c')) sl) with (map Ef XS) by (unfold XS; now rewrite map_map).
    assert (G : forall c', In c' sl -> 0 < lsum (map Ef XS) /\ 0 <= Y c' < 2 ^ 15 /\ 2 * Z.abs (Y c' * lsum (map Ef XS) - 2 ^ 15 * Ef (X c')) <= lsum (map Ef XS) + 8 * Ef (X c')).
    { intros c' Hc'. pose proof (sm_out_spec rm (softmax_val16 rm) (2 ^ 15) 8 0 Ef XS (X c')) as SP. cbv zeta in SP. rewrite Z.add_0_r in SP. rewrite (HY c' Hc').
      apply SP; auto; [|now apply in_map]. intros s r e v Hs Er Hv Hvs. rewrite Z.add_0_r. pose proof (softmax_val16_spec rm s r e v Hs Er Hv Hvs) as W. cbv zeta in W.
      change (2 ^ 15) with 32768 in *. lia. }
    split; [apply (G c); apply Hsl; auto|]. intros c' Hc'. apply (G c' Hc').
  - intros c1 c2 H1 H2 Hle. rewrite (HY c1 H1), (HY c2 H2). unfold sm_out. destruct (exps_sum Ef XS XN HE LX) as [S1 _].
    destruct (softmax_recip_spec rm (lsum (map Ef XS)) S1) as (r & e & Er & _). rewrite Er. destruct HE as (B & _ & M).
    apply (softmax_val16_mono rm (lsum (map Ef XS))); auto; [|apply B]. split; [apply B|now apply M].
Qed.

Theorem softmax_sa8_correct rm q l axis tin tout m :
  chk_softmax tin tout axis = ST_OK -> t_rank tin <> 0 -> fits32 tin -> fits32 tout -> backed tin m -> backed tout m -> unary_ok tin tout ->
  mem_bits 8 m -> exp_lut l -> qpar_typed q -> chk_act_quant q = true ->
  (forall c, valid (t_shape tin) c -> Z.of_nat (length (axis_slice axis (t_shape tin) c)) <= 65538) ->
  exists m', softmax_sa8 rm q l axis tin tout m = Some m' /\ frame_ok tout m m'
    /\ forall c, valid (t_shape tin) c ->
       let X := fun c => rd m (t_data tin + addr (t_stride tin) c) in
       let Y := fun c => rd m' (t_data tout + addr (t_stride tout) c) - q_zp softmax_out in
       let sl := axis_slice axis (t_shape tin) c in
       exists mx E, is_max mx (map X sl)
         /\ (forall c', In c' sl -> 0 <= E c' /\ table_value l 8 (sa_to_fx rm (mkQ (q_scale q) (q_frac q) mx) (l_fi l + 8) (X c')) (E c'))
         /\ is_softmax (2 ^ q_frac softmax_out) 2 sl E Y
         /\ (forall c1 c2, In c1 sl -> In c2 sl -> X c1 <= X c2 -> Y c1 <= Y c2).
Proof.
  intros Hc R FI FO BI BO U MB Hl Hq Hqc Hlen. destruct Hq as [Bs Bf]. unfold chk_act_quant in Hqc.
  destruct (softmax_run_correct (softmax_sa8_slice rm q l) (fun X x => sm_out rm (softmax_val8 rm) (exp_sa rm l q X) X x) 8 axis tin tout m) as (m' & E & V & F); auto; [lia| |].
  { intros pi po m0 sh sti sto. intros. apply sa8_slice_correct; auto. lia. }
  exists m'. split; [exact E|]. split; [exact F|]. intros c Vc X Y sl.
  assert (Hax : axis < Z.of_nat (length (t_shape tin))).
  { apply (chk_softmax_facts _ _ _ Hc). }
  pose proof (non_axis_valid axis _ c Hax Vc) as Vd.
  assert (Hsl : forall c', In c' sl <-> valid (t_shape tin) c' /\ non_axis axis c' = non_axis axis c) by (intros c'; now apply slice_at_in).
  assert (Esl : forall c', In c' sl -> axis_slice axis (t_shape tin) c' = sl) by (intros c' Hc'; apply Hsl in Hc'; unfold sl, axis_slice; now rewrite (proj2 Hc')).
  set (XS := map X sl). assert (XN : XS <> []).
  { assert (In c sl) by (apply Hsl; auto). unfold XS. destruct sl; [contradiction|discriminate]. }
  set (Ef := exp_sa rm l q XS). assert (HE : exps_ok Ef XS) by (apply exp_sa_ok; auto; lia).
  assert (HY : forall c', In c' sl -> Y c' = sm_out rm (softmax_val8 rm) Ef XS (X c') + 128).
  { intros c' Hc'. unfold Y, rd at 1. rewrite V by (now apply Hsl). rewrite (Esl c' Hc'). reflexivity. }
  assert (LX : Z.of_nat (length XS) <= 65538) by (unfold XS; rewrite map_length; now apply Hlen).
  exists (lmax XS), (fun c' => Ef (X c')). split; [now apply lmax_is_max|]. split; [|split].
  - intros c' Hc'. split; [apply HE|]. unfold Ef, exp_sa. destruct Hl as (Hl & Hsm & _).
    assert (BX : forall c, in_bits 8 (X c)) by (intros; unfold X; apply rd_bits; auto; lia).
    assert (BM : in_bits 8 (lmax XS)).
    { destruct (lmax_is_max XS XN) as [A _]. apply in_map_iff in A. destruct A as (p & <- & _). apply BX. }
    destruct (lut_core_sa rm (LOUT_FX 16) l (mkQ (q_scale q) (q_frac q) (lmax XS)) 0 (X c') Hl Hsm (BX c') BM Bs) as (r & Br & T & _ & Er).
    rewrite (proj2 (sa_core_eq rm (LOUT_FX 16) l (mkQ (q_scale q) (q_frac q) (lmax XS)) 0 (X c') Hl Hsm (BX c') BM Bs)) in Er.
    apply lut_out16_inj in Er; [|now apply fx_core_bits|exact Br]. now rewrite Er.
  - unfold is_softmax. cbv zeta. replace (map (fun c' => Ef (X c')) sl) with (map Ef XS) by (unfold XS; now rewrite map_map).
    change (2 ^ q_frac softmax_out) with (2 ^ 8).
    assert (G : forall c', In c' sl -> 0 < lsum (map Ef XS) /\ 0 <= Y c' < 2 ^ 8 /\ 2 * Z.abs (Y c' * lsum (map Ef XS) - 2 ^ 8 * Ef (X c')) <= lsum (map Ef XS) + 2 * Ef (X c')).
    { intros c' Hc'. pose proof (sm_out_spec rm (softmax_val8 rm) (2 ^ 8) 2 128 Ef XS (X c')) as SP. cbv zeta in SP. rewrite (HY c' Hc').
      apply SP; auto; [|now apply in_map]. intros s r e v Hs Er Hv Hvs. pose proof (softmax_val8_spec rm s r e v Hs Er Hv Hvs) as W. cbv zeta in W.
      change (2 ^ 8) with 256 in *. lia. }
    split; [apply (G c); apply Hsl; auto|]. intros c' Hc'. apply (G c' Hc').
  - intros c1 c2 H1 H2 Hle. rewrite (HY c1 H1), (HY c2 H2). unfold sm_out. destruct (exps_sum Ef XS XN HE LX) as [S1 _].
    destruct (softmax_recip_spec rm (lsum (map Ef XS)) S1) as (r & e & Er & _). rewrite Er. destruct HE as (B & _ & M).
    apply Z.add_le_mono_r. apply (softmax_val8_mono rm (lsum (map Ef XS))); auto; [|apply B]. split; [apply B|now apply M].
Qed.

(** Corollaries in terms of the outputs only: no output is negative and the outputs of a slice of [N] elements add up to one, within
    ([N] + 8) / 2 units of 2^-15, respectively ([N] + 2) / 2 units of 2^-8. *)
Theorem softmax_fx16_total rm fin l axis tin tout m m' :
  chk_softmax tin tout axis = ST_OK -> t_rank tin <> 0 -> fits32 tin -> fits32 tout -> backed tin m -> backed tout m -> unary_ok tin tout ->
  mem_bits 16 m -> exp_lut l -> in_bits 8 fin ->
  (forall c, valid (t_shape tin) c -> Z.of_nat (length (axis_slice axis (t_shape tin) c)) <= 65538) ->
  softmax_fx rm 16 fin l axis tin tout m = Some m' ->
  forall c, valid (t_shape tin) c ->
    let Y := fun c => rd m' (t_data tout + addr (t_stride tout) c) in
    let sl := axis_slice axis (t_shape tin) c in
    0 <= Y c < 2 ^ 15 /\ 2 * Z.abs (lsum (map Y sl) - 2 ^ 15) <= Z.of_nat (length sl) + 8.
Proof.
  intros Hc R FI FO BI BO U MB Hl Hf Hlen E c Vc Y sl.
  destruct (softmax_fx16_correct rm fin l axis tin tout m Hc R FI FO BI BO U MB Hl Hf Hlen) as (m1 & E1 & _ & H).
  rewrite E in E1. injection E1 as <-. destruct (H c Vc) as (mx & Ex & _ & _ & S & _). split; [|apply (is_softmax_total _ _ _ Ex); [lia|exact S]].
  apply S. apply slice_at_in; auto; [|apply non_axis_valid; auto].
  all: apply (chk_softmax_facts _ _ _ Hc).
Qed.

Theorem softmax_sa8_total rm q l axis tin tout m m' :
  chk_softmax tin tout axis = ST_OK -> t_rank tin <> 0 -> fits32 tin -> fits32 tout -> backed tin m -> backed tout m -> unary_ok tin tout ->
  mem_bits 8 m -> exp_lut l -> qpar_typed q -> chk_act_quant q = true ->
  (forall c, valid (t_shape tin) c -> Z.of_nat (length (axis_slice axis (t_shape tin) c)) <= 65538) ->
  softmax_sa8 rm q l axis tin tout m = Some m' ->
  forall c, valid (t_shape tin) c ->
    let Y := fun c => rd m' (t_data tout + addr (t_stride tout) c) + 128 in
    let sl := axis_slice axis (t_shape tin) c in
    0 <= Y c < 2 ^ 8 /\ 2 * Z.abs (lsum (map Y sl) - 2 ^ 8) <= Z.of_nat (length sl) + 2.
Proof.
  intros Hc R FI FO BI BO U MB Hl Hq Hqc Hlen E c Vc Y sl.
  destruct (softmax_sa8_correct rm q l axis tin tout m Hc R FI FO BI BO U MB Hl Hq Hqc Hlen) as (m1 & E1 & _ & H).
  rewrite E in E1. injection E1 as <-. destruct (H c Vc) as (mx & Ex & _ & _ & S & _). split; [|apply (is_softmax_total _ _ _ Ex); [lia|exact S]].
  apply S. apply slice_at_in; auto; [|apply non_axis_valid; auto].
  all: apply (chk_softmax_facts _ _ _ Hc).
Qed.

(** The table of the library meets the hypotheses. *)
Theorem expneg_exp_lut : exp_lut expneg_lut.
Proof.
  destruct library_tables_ok as (_ & _ & (A & B & C) & _). split; [exact A|]. split; [exact B|]. split; [exact C|].
  unfold tab, rd. vm_compute. repeat split; congruence.
Qed.

(** The deprecated 8-bit fixed-point variant fails for every input: the scaled sum does not fit 8 bits and its reciprocal becomes
    -1. *)
Theorem softmax_recip_fx8 rm s : 1 <= s <= 2 ^ 31 - 1 -> exists e, softmax_recip rm 8 s = Some (-1, e).
Proof.
  intros Hs. assert (Bs : in_bits 32 s) by (rewrite ib32; lia). destruct (norm_fx_pos 32 s ltac:(lia) Bs ltac:(lia)) as [N1 N2].
  pose proof (norm_fx_range 32 s ltac:(lia) Bs) as N3. unfold softmax_recip. set (e := norm_fx 32 s) in *. change (32 - 2) with 30 in *. change (32 - 1) with 31 in *.
  unfold acc_cast_n. cbn [Z.eqb Pos.eqb]. rewrite acc_cast_8_spec by exact Bs.
  assert (E : sat 8 (asr_rnd_fx rm 32 s (16 - e)) = 127).
  { rewrite <- (cast_narrow_spec rm 32 8 s (16 - e)) by (auto; lia). rewrite cast_narrow_exact; [|lia|lia|exact Bs|right; lia].
    change (sat 8 (scale_rnd rm s (16 - e)) = 127). assert (B : 128 <= scale_rnd rm s (16 - e)).
    { unfold scale_rnd. destruct (Z.leb_spec 0 (16 - e)).
      - replace 128 with (rnd rm (128 * 2 ^ (16 - e)) (16 - e)) by (apply rnd_exact; lia). apply rnd_mono; [lia|].
        assert (P : 2 ^ (16 - e) * 2 ^ e = 65536) by (rewrite <- Z.pow_add_r by lia; replace (16 - e + e) with 16 by lia; reflexivity).
        change (2 ^ 30) with 1073741824 in N1. pose proof (pow2_gt0 e ltac:(lia)). nia.
      - replace (s * 2 ^ (- (16 - e))) with (s * 2 ^ e / 65536).
        + apply Z.div_le_lower_bound; [lia|]. change (2 ^ 30) with 1073741824 in N1. lia.
        + symmetry. apply Z.div_unique_exact; [lia|]. replace e with (16 + (- (16 - e))) at 1 by lia. rewrite Z.pow_add_r by lia. change (2 ^ 16) with 65536. ring. }
    unfold sat, clamp. change (smin 8) with (-128). change (smax 8) with 127. lia. }
  rewrite E. exists e. reflexivity.
Qed.

Definition sx_t8 : tensor := mkTensor 0 4 1 [4] [1] false (-1) 0.
Theorem softmax_fx8_refuted : exists tin m m',
  chk_softmax tin tin 0 = ST_OK /\ mem_bits 8 m /\ softmax_fx RM_UP 8 4 expneg_lut 0 tin tin m = Some m'
  /\ map (rd m') (zrange 0 4) = [0; 0; 0; 0].
Proof.
  exists sx_t8, (list_mem [16; 0; -16; 16]). eexists. split; [reflexivity|]. split; [apply list_bits; reflexivity|].
  split; [vm_compute; reflexivity|]. vm_compute. reflexivity.
Qed.

(** * Examples *)

(** In place along axis 0 of a 3 x 2 tensor with a row stride of 3. *)
Definition sx_t : tensor := mkTensor 0 18 2 [3; 2] [3; 1] false (-1) 0.
Definition sx_mem : mem := list_mem [2048; 0; 99; 0; 0; 98; -2048; 32767; 97].
Example sx_hyps : chk_softmax sx_t sx_t 0 = ST_OK /\ t_rank sx_t <> 0 /\ fits32 sx_t /\ backed sx_t sx_mem /\ unary_ok sx_t sx_t /\ mem_bits 16 sx_mem
  /\ exp_lut expneg_lut /\ in_bits 8 11 /\ (forall c, valid (t_shape sx_t) c -> Z.of_nat (length (axis_slice 0 (t_shape sx_t) c)) <= 65538)
  /\ axis_slice 0 (t_shape sx_t) [1; 1] = [[0; 1]; [1; 1]; [2; 1]].
Proof.
  split; [reflexivity|]. split; [vm_compute; discriminate|]. split; [fits32_tac|]. split; [apply list_backed_esz; cbn; lia|].
  split; [apply unary_inplace; [reflexivity|fits32_tac|reflexivity|reflexivity]|]. split; [apply list_bits; reflexivity|].
  split; [apply expneg_exp_lut|]. split; [rewrite ib8; lia|]. split; [|reflexivity]. intros c V. vm_compute. discriminate.
Qed.
(** e^0, e^-1, e^-2 divided by their sum: 0.665, 0.245, 0.090 *)
Example sx_run : (do m <- softmax_fx RM_UP 16 11 expneg_lut 0 sx_t sx_t sx_mem; Some (map (rd m) (zrange 0 9)))
  = Some [21797; 0; 99; 8019; 0; 98; 2950; 32767; 97].
Proof. vm_compute. reflexivity. Qed.
(** The whole tensor. *)
Example sx_run_all : (do m <- softmax_fx RM_UP 16 11 expneg_lut (-1) sx_t sx_t sx_mem; Some (map (rd m) (zrange 0 9)))
  = Some [0; 0; 99; 0; 0; 98; 0; 32767; 97].
Proof. vm_compute. reflexivity. Qed.
Definition sx_q : qpar := mkQ 1 4 3.
Definition sx_mem8 : mem := list_mem [3; 19; -13; 19].
Example sx_hyps8 : chk_softmax sx_t8 sx_t8 0 = ST_OK /\ t_rank sx_t8 <> 0 /\ fits32 sx_t8 /\ backed sx_t8 sx_mem8 /\ unary_ok sx_t8 sx_t8 /\ mem_bits 8 sx_mem8
  /\ qpar_typed sx_q /\ chk_act_quant sx_q = true /\ (forall c, valid (t_shape sx_t8) c -> Z.of_nat (length (axis_slice 0 (t_shape sx_t8) c)) <= 65538).
Proof.
  split; [reflexivity|]. split; [vm_compute; discriminate|]. split; [fits32_tac|]. split; [apply list_backed_esz; cbn; lia|].
  split; [apply unary_inplace; [reflexivity|fits32_tac|reflexivity|reflexivity]|]. split; [apply list_bits; reflexivity|].
  split; [split; [rewrite ib16|rewrite ib8]; cbn; lia|]. split; [reflexivity|]. intros c V. vm_compute. discriminate.
Qed.
Example sx_run8 : (do m <- softmax_sa8 RM_UP sx_q expneg_lut 0 sx_t8 sx_t8 sx_mem8; Some (map (rd m) (zrange 0 4)))
  = Some [-90; -26; -114; -26].
Proof. vm_compute. reflexivity. Qed.
