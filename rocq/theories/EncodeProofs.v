(** Encoded parameters: what the compile time objects write is what the runtime objects read. *)
From Coq Require Import ZArith List Lia Bool.
From Verif Require Import Base FxMath FxMathProofs Tensor TensorProofs MovProofs Quant QuantProofs DotProdProofs ArgMax Permute PermuteProofs PoolKernels Eltwise EltwiseProofs Relu ReluProofs
  Prelu3Proofs Ops3 Ops3Proofs Iter IterProofs IterTheorems TileRun TileProofs TileConv TileDw TileElt TilePoint TileOps TileStep Encode.
Import ListNotations.
Open Scope Z_scope.

(** * Specification *)

(** The list as a function of the index. *)
Definition val_at (l : list Z) (k : Z) : Z := nth (Z.to_nat k) l 0.

(** All bytes of [a], ..., [a + len - 1] may be accessed. *)
Definition bytes_ok (m : mem) (a len : Z) : Prop := forall b, a <= b < a + len -> allocated m b.

(** [dst] in [md] holds a copy of the [cnt] objects of [sz] bytes that follow the first [off] ones at [src] in [ms]. *)
Definition section_copied (sz off cnt src dst : Z) (ms md : mem) : Prop := forall b, 0 <= b < sz * cnt -> md (dst + b) = ms (src + sz * off + b).

(** All sections of element sizes [szs], at the offsets [from] and [to_], copied so. *)
Definition sections_copied (szs from to_ : list Z) (off cnt a la : Z) (ms md : mem) : Prop :=
  forall k, (k < length szs)%nat -> section_copied (nth k szs 0) off cnt (a + nth k from 0) (la + nth k to_ 0) ms md.

(** * Objects in bytes *)

Lemma store_alloc m a v m' b : store m a v = Some m' -> allocated m b -> allocated m' b.
Proof.
  unfold store, allocated. destruct (m a); [|discriminate]. intros E H. injection E as E. subst m'. destruct (Z.eqb_spec b a); [discriminate|exact H].
Qed.

Lemma put_obj_correct sz : forall a v m, bytes_ok m a (Z.of_nat sz) ->
  exists m', put_obj sz a v m = Some m' /\ get_raw sz a m' = Some (v mod 256 ^ Z.of_nat sz)
    /\ (forall b, b < a \/ a + Z.of_nat sz <= b -> m' b = m b) /\ (forall b, allocated m b -> allocated m' b).
Proof.
  induction sz as [|k IH]; intros a v m H.
  - exists m. cbn [put_obj get_raw]. split; [reflexivity|]. split; [|split; auto]. change (256 ^ Z.of_nat 0) with 1. now rewrite Z.mod_1_r.
  - cbn [put_obj]. assert (Ha : allocated m a) by (apply H; lia).
    rewrite (store_ok m a (v mod 256) Ha). set (m1 := fun b => if b =? a then Some (v mod 256) else m b).
    assert (A1 : forall b, allocated m b -> allocated m1 b).
    { intros b Hb. unfold allocated, m1 in *. destruct (b =? a); [discriminate|exact Hb]. }
    destruct (IH (a + 1) (v / 256) m1) as (m' & E & G & F & A).
    { intros b Hb. apply A1, H. lia. }
    exists m'. split; [exact E|]. split; [|split].
    + cbn [get_raw]. unfold load. rewrite F by lia. unfold m1 at 1. rewrite Z.eqb_refl. rewrite G. f_equal.
      rewrite Nat2Z.inj_succ, Z.pow_succ_r by lia. rewrite Z.rem_mul_r by (try apply Z.pow_pos_nonneg; lia). reflexivity.
    + intros b Hb. rewrite F by lia. unfold m1. destruct (Z.eqb_spec b a); [lia|reflexivity].
    + intros b Hb. apply A, A1, Hb.
Qed.

Lemma get_raw_ext sz : forall a a' m m', (forall k, 0 <= k < Z.of_nat sz -> m (a + k) = m' (a' + k)) -> get_raw sz a m = get_raw sz a' m'.
Proof.
  induction sz as [|k IH]; intros a a' m m' H; [reflexivity|]. cbn [get_raw]. unfold load.
  replace (m a) with (m' a') by (specialize (H 0 ltac:(lia)); rewrite !Z.add_0_r in H; congruence).
  rewrite (IH (a + 1) (a' + 1) m m'); [reflexivity|]. intros j Hj. rewrite <- !Z.add_assoc. apply H. lia.
Qed.

Lemma get_obj_ext sz a a' m m' : (forall k, 0 <= k < Z.of_nat sz -> m (a + k) = m' (a' + k)) -> get_obj sz a m = get_obj sz a' m'.
Proof. intros H. unfold get_obj. now rewrite (get_raw_ext sz a a' m m' H). Qed.

Lemma wrap_mod n v : 1 <= n -> in_bits n v -> wrap n (v mod 2 ^ n) = v.
Proof.
  intros Hn H. rewrite <- (wrap_id n v Hn H) at 2. unfold wrap. f_equal. rewrite Zplus_mod_idemp_l. reflexivity.
Qed.

Lemma pow256 sz : 256 ^ Z.of_nat sz = 2 ^ (8 * Z.of_nat sz).
Proof. rewrite Z.pow_mul_r by lia. reflexivity. Qed.

Lemma put_obj_get sz a v m : (1 <= sz)%nat -> bytes_ok m a (Z.of_nat sz) -> in_bits (8 * Z.of_nat sz) v ->
  exists m', put_obj sz a v m = Some m' /\ get_obj sz a m' = Some v
    /\ (forall b, b < a \/ a + Z.of_nat sz <= b -> m' b = m b) /\ (forall b, allocated m b -> allocated m' b).
Proof.
  intros Hs H Hv. destruct (put_obj_correct sz a v m H) as (m' & E & G & F & A). exists m'. split; [exact E|]. split; [|split; assumption].
  unfold get_obj. rewrite G. cbn [bind]. rewrite pow256. now rewrite wrap_mod by (try lia; exact Hv).
Qed.

Lemma put_all_correct sz (Hs : (1 <= sz)%nat) vals : forall off m, bytes_ok m off (Z.of_nat sz * Z.of_nat (length vals)) -> Forall (in_bits (8 * Z.of_nat sz)) vals ->
  exists m', put_all sz vals (off, m) = Some (off + Z.of_nat sz * Z.of_nat (length vals), m')
    /\ (forall k, 0 <= k < Z.of_nat (length vals) -> get_obj sz (off + Z.of_nat sz * k) m' = Some (val_at vals k))
    /\ (forall b, b < off \/ off + Z.of_nat sz * Z.of_nat (length vals) <= b -> m' b = m b) /\ (forall b, allocated m b -> allocated m' b).
Proof.
  induction vals as [|v tl IH]; intros off m H HF.
  - exists m. cbn [put_all length]. split; [do 2 f_equal; lia|]. split; [intros k Hk; cbn in Hk; lia|]. split; auto.
  - cbn [length] in H. rewrite Nat2Z.inj_succ in H. inversion HF as [|? ? Hv Ht]; subst.
    set (s := Z.of_nat sz) in *. assert (Hs' : 1 <= s) by (unfold s; lia). set (L := Z.of_nat (length tl)) in *. assert (HL : 0 <= L) by (unfold L; lia).
    assert (HQ : s * Z.succ L = s + s * L) by lia. assert (HQ0 : 0 <= s * L) by nia. rewrite HQ in H.
    destruct (put_obj_get sz off v m Hs) as (m1 & E1 & G1 & F1 & A1); [intros b Hb; apply H; fold s in Hb; lia|exact Hv|].
    destruct (IH (off + s) m1) as (m' & E & G & F & A); [intros b Hb; apply A1, H; fold L in Hb; lia|exact Ht|].
    exists m'. cbn [put_all fst snd length]. rewrite E1. cbn [bind]. fold s. rewrite E. rewrite Nat2Z.inj_succ. fold L. rewrite HQ.
    split; [do 2 f_equal; lia|]. split; [|split].
    + intros k Hk. destruct (Z.eq_dec k 0) as [-> | Hk0].
      * rewrite Z.mul_0_r, Z.add_0_r. rewrite (get_obj_ext sz off off m' m1); [exact G1|]. intros j Hj. apply F. fold s in Hj. lia.
      * replace (off + s * k) with (off + s + s * (k - 1)) by lia. rewrite G by lia. unfold val_at. replace (Z.to_nat k) with (S (Z.to_nat (k - 1))) by lia. reflexivity.
    + intros b Hb. rewrite F by (fold L; lia). apply F1. fold s. lia.
    + intros b Hb. apply A, A1, Hb.
Qed.

Lemma array_bits sz p m : (1 <= sz)%nat -> mem_bits (8 * Z.of_nat sz) (array_at sz p m).
Proof.
  intros Hs k v E. unfold array_at, get_obj in E. destruct (get_raw sz _ m); [|discriminate]. cbn [bind] in E. assert (Ev : v = wrap (8 * Z.of_nat sz) z) by congruence. rewrite Ev. apply wrap_in_bits. lia.
Qed.

Lemma array_copied sz off cnt src dst ms md vals : 0 <= off -> off + cnt <= Z.of_nat (length vals) ->
  (forall k, 0 <= k < Z.of_nat (length vals) -> get_obj sz (src + Z.of_nat sz * k) ms = Some (val_at vals k)) ->
  section_copied (Z.of_nat sz) off cnt src dst ms md -> part_of (array_at sz dst md) off cnt (val_at vals).
Proof.
  intros Ho Hc G C k Hk. unfold array_at. rewrite <- (G (off + k)) by lia. apply get_obj_ext. intros j Hj.
  set (s := Z.of_nat sz) in *. replace (dst + s * k + j) with (dst + (s * k + j)) by lia. rewrite C by nia. f_equal. lia.
Qed.

(** * Rescale *)

Definition rescale_szs (isz osz : nat) : list Z := [Z.of_nat isz; 2; 1; Z.of_nat osz].

(** The parameters are given for [n] channels, in the ranges of their types. *)
Definition rescale_given (n isz osz : nat) (bi sc sh bo : list Z) : Prop :=
  (isz = 1 \/ isz = 4)%nat /\ (osz = 1 \/ osz = 4)%nat /\ length bi = n /\ length sc = n /\ length sh = n /\ length bo = n
  /\ Forall (in_bits (8 * Z.of_nat isz)) bi /\ Forall (in_bits 16) sc /\ Forall (in_bits 8) sh /\ Forall (in_bits (8 * Z.of_nat osz)) bo.

Lemma rescale_encode_sections n isz osz bi sc sh bo a m : rescale_given n isz osz bi sc sh bo -> bytes_ok m a (rescale_enc_size (Z.of_nat n) (Z.of_nat isz) (Z.of_nat osz)) ->
  exists m', rescale_encode n isz osz bi sc sh bo a m = Some m'
    /\ (forall b, b < a \/ a + rescale_enc_size (Z.of_nat n) (Z.of_nat isz) (Z.of_nat osz) <= b -> m' b = m b)
    /\ let l := rescale_layout (Z.of_nat isz) (Z.of_nat n) in
       (forall k, 0 <= k < Z.of_nat n -> get_obj isz (a + nth 0 l 0 + Z.of_nat isz * k) m' = Some (val_at bi k))
    /\ (forall k, 0 <= k < Z.of_nat n -> get_obj 2 (a + nth 1 l 0 + Z.of_nat 2 * k) m' = Some (val_at sc k))
    /\ (forall k, 0 <= k < Z.of_nat n -> get_obj 1 (a + nth 2 l 0 + Z.of_nat 1 * k) m' = Some (val_at sh k))
    /\ (forall k, 0 <= k < Z.of_nat n -> get_obj osz (a + nth 3 l 0 + Z.of_nat osz * k) m' = Some (val_at bo k)).
Proof.
  intros (Hi & Ho & Lb & Lc & Ls & Lo & Fb & Fc & Fs & Fo) H. unfold rescale_enc_size in *.
  unfold rescale_encode. rewrite Lb, Lc, Ls, Lo, Nat.eqb_refl. cbn [andb negb].
  assert (Bi : Nat.eqb isz 1 || Nat.eqb isz 4 = true) by (destruct Hi as [-> | ->]; reflexivity).
  assert (Bo : Nat.eqb osz 1 || Nat.eqb osz 4 = true) by (destruct Ho as [-> | ->]; reflexivity).
  rewrite Bi, Bo. cbn [andb negb]. clear Bi Bo.
  set (N := Z.of_nat n) in *. assert (HN : 0 <= N) by (unfold N; lia).
  assert (Hi1 : (1 <= isz)%nat) by lia. assert (Ho1 : (1 <= osz)%nat) by lia.
  set (I := Z.of_nat isz) in *. set (O := Z.of_nat osz) in *.
  assert (HI : 1 <= I) by (unfold I; lia). assert (HO : 1 <= O) by (unfold O; lia).
  assert (P : 0 <= N * I /\ 0 <= N * O) by nia. replace (N * (I + 2 + 1 + O)) with (N * I + 2 * N + N + N * O) in * by lia.
  destruct (put_all_correct isz Hi1 bi a m) as (m1 & E1 & G1 & F1 & A1); [intros b Hb; apply H; rewrite Lb in Hb; fold N I in Hb; lia|exact Fb|].
  rewrite E1. cbn [bind]. rewrite Lb in *. fold N I in E1, G1, F1 |- *.
  destruct (put_all_correct 2 ltac:(lia) sc (a + I * N) m1) as (m2 & E2 & G2 & F2 & A2); [intros b Hb; apply A1, H; rewrite Lc in Hb; fold N in Hb; lia|exact Fc|].
  rewrite E2. cbn [bind]. rewrite Lc in *. fold N in E2, G2, F2 |- *. change (Z.of_nat 2) with 2 in *.
  destruct (put_all_correct 1 ltac:(lia) sh (a + I * N + 2 * N) m2) as (m3 & E3 & G3 & F3 & A3); [intros b Hb; apply A2, A1, H; rewrite Ls in Hb; fold N in Hb; lia|exact Fs|].
  rewrite E3. cbn [bind]. rewrite Ls in *. fold N in E3, G3, F3 |- *. change (Z.of_nat 1) with 1 in *.
  destruct (put_all_correct osz Ho1 bo (a + I * N + 2 * N + 1 * N) m3) as (m4 & E4 & G4 & F4 & A4); [intros b Hb; apply A3, A2, A1, H; rewrite Lo in Hb; fold N O in Hb; lia|exact Fo|].
  rewrite E4. cbn [bind snd]. rewrite Lo in *. fold N O in E4, G4, F4 |- *.
  exists m4. split; [reflexivity|]. split.
  { intros b Hb. rewrite F4, F3, F2, F1 by lia. reflexivity. }
  unfold rescale_layout. cbv zeta. cbn [nth].
  split; [|split; [|split]]; intros k Hk.
  - rewrite <- (G1 k Hk). rewrite Z.add_0_r. apply get_obj_ext. intros j Hj. fold I in Hj. assert (I * k + j < I * N) by nia. rewrite F4, F3, F2 by lia. reflexivity.
  - rewrite <- (G2 k Hk). replace (a + (0 + I * N) + 2 * k) with (a + I * N + 2 * k) by lia. apply get_obj_ext. intros j Hj. rewrite F4, F3 by lia. reflexivity.
  - rewrite <- (G3 k Hk). replace (a + (0 + I * N + 2 * N) + 1 * k) with (a + I * N + 2 * N + 1 * k) by lia. apply get_obj_ext. intros j Hj. rewrite F4 by lia. reflexivity.
  - rewrite <- (G4 k Hk). f_equal. lia.
Qed.

(** C77: EncodeParams of Rescale succeeds for parameters in the ranges of their types and a buffer of the reported size, changes only bytes of the buffer, and the runtime object over the
    whole buffer (parameters for all channels in one tile) reads for every channel the four parameters that were given. *)
Theorem rescale_params_whole n isz osz bi sc sh bo a m : rescale_given n isz osz bi sc sh bo -> bytes_ok m a (rescale_enc_size (Z.of_nat n) (Z.of_nat isz) (Z.of_nat osz)) ->
  exists m', rescale_encode n isz osz bi sc sh bo a m = Some m'
    /\ (forall b, b < a \/ a + rescale_enc_size (Z.of_nat n) (Z.of_nat isz) (Z.of_nat osz) <= b -> m' b = m b)
    /\ forall k, 0 <= k < Z.of_nat n -> let p := rescale_decode isz osz (Z.of_nat n) a m' in
       rs_bias_in p k = Some (val_at bi k) /\ rs_scale p k = Some (val_at sc k) /\ rs_shift p k = Some (val_at sh k) /\ rs_bias_out p k = Some (val_at bo k).
Proof.
  intros Hg Hs. destruct (rescale_encode_sections n isz osz bi sc sh bo a m Hg Hs) as (m' & E & F & G1 & G2 & G3 & G4). exists m'. split; [exact E|]. split; [exact F|].
  intros k Hk p. unfold p, rescale_decode. cbv zeta. cbn [rs_bias_in rs_scale rs_shift rs_bias_out]. unfold array_at. auto.
Qed.

(** C77: for a tile, with the sections' pieces for channels [off], ..., [off + cnt - 1] copied to the offsets that GetIOSizesAndOffsets reports, the runtime object reads the given
    parameters of these channels, in the ranges of their types; [T], the largest number of channels of a tile, may be any. *)
Theorem rescale_params_tile n isz osz bi sc sh bo a m me T off cnt la ml : rescale_given n isz osz bi sc sh bo ->
  bytes_ok m a (rescale_enc_size (Z.of_nat n) (Z.of_nat isz) (Z.of_nat osz)) -> rescale_encode n isz osz bi sc sh bo a m = Some me ->
  0 <= off -> off + cnt <= Z.of_nat n ->
  sections_copied (rescale_szs isz osz) (rescale_layout (Z.of_nat isz) (Z.of_nat n)) (rescale_reported (Z.of_nat isz) T) off cnt a la me ml ->
  let p := rescale_decode isz osz T la ml in
  part_of (rs_bias_in p) off cnt (val_at bi) /\ part_of (rs_scale p) off cnt (val_at sc) /\ part_of (rs_shift p) off cnt (val_at sh) /\ part_of (rs_bias_out p) off cnt (val_at bo)
  /\ mem_bits (8 * Z.of_nat isz) (rs_bias_in p) /\ mem_bits 16 (rs_scale p) /\ mem_bits 8 (rs_shift p) /\ mem_bits (8 * Z.of_nat osz) (rs_bias_out p).
Proof.
  intros Hg Hs E Ho Hc C. destruct (rescale_encode_sections n isz osz bi sc sh bo a m Hg Hs) as (m' & E' & _ & G1 & G2 & G3 & G4).
  assert (m' = me) by congruence. subst m'. destruct Hg as (Hi & Hos & Lb & Lc & Ls & Lo & _).
  rewrite <- (proj1 (param_layout_ok (Z.of_nat isz) T)) in C. intros p. unfold p, rescale_decode. cbv zeta. cbn [rs_bias_in rs_scale rs_shift rs_bias_out].
  set (l := rescale_layout (Z.of_nat isz) T) in *. set (l' := rescale_layout (Z.of_nat isz) (Z.of_nat n)) in *.
  split; [|split; [|split; [|split; [|split; [|split; [|split]]]]]].
  - apply (array_copied isz off cnt (a + nth 0 l' 0) _ me); [exact Ho|lia|rewrite Lb; exact G1|exact (C 0%nat ltac:(cbn; lia))].
  - apply (array_copied 2 off cnt (a + nth 1 l' 0) _ me); [exact Ho|lia|rewrite Lc; exact G2|exact (C 1%nat ltac:(cbn; lia))].
  - apply (array_copied 1 off cnt (a + nth 2 l' 0) _ me); [exact Ho|lia|rewrite Ls; exact G3|exact (C 2%nat ltac:(cbn; lia))].
  - apply (array_copied osz off cnt (a + nth 3 l' 0) _ me); [exact Ho|lia|rewrite Lo; exact G4|exact (C 3%nat ltac:(cbn; lia))].
  - apply array_bits. lia.
  - apply (array_bits 2). lia.
  - apply (array_bits 1). lia.
  - apply array_bits. lia.
Qed.

(** Along each axis a tile lies inside the tensor. *)
Lemma tile_inside shape tile stride n a : tiling shape tile -> (a < length shape)%nat -> let i := ti_run (tiles_iter shape tile stride) n in
  0 <= nth a (ti_pos i) 0 /\ nth a (ti_pos i) 0 + nth a (ti_size i) 0 <= nth a shape 0.
Proof.
  intros H Ha i. unfold i. destruct (tiles_iter_tile shape tile stride n H) as (_ & _ & _ & _ & -> & ->).
  pose proof (idx_at_ok _ n (axes_counts _ _ H 0)) as Hok. revert Hok. generalize (idx_at (axes 0 shape tile) n). clear i n stride. generalize 0%nat.
  revert a Ha. induction H as [|D T shape tile [HT HD] H IH]; intros a Ha k [|j idx] Hok; cbn [axes idx_ok sizes_at starts length] in *; try contradiction; try lia.
  destruct Hok as [Hj Hok]. destruct a as [|a]; cbn [nth]; [|apply (IH a ltac:(lia) (S k) idx Hok)].
  destruct (tile_dim_cuts (Z.of_nat k) D T 0 HT ltac:(lia) ltac:(lia)) as (N1 & Cu & _). pose proof (cuts_inside _ _ _ _ N1 Cu j Hj) as I. lia.
Qed.

(** Number of channels that have parameters: one if the parameters are those of the whole tensor. *)
Definition channels (axis : Z) (shape : list Z) : Z := if axis <? 0 then 1 else nth (Z.to_nat axis) shape 0.

Lemma part_inside shape tile axis stride n : tiling shape tile -> axis < Z.of_nat (length shape) -> let i := ti_run (tiles_iter shape tile stride) n in
  0 <= part_off axis (ti_pos i) /\ part_off axis (ti_pos i) + part_cnt axis (ti_size i) <= channels axis shape.
Proof.
  intros H Ha i. unfold part_off, part_cnt, channels. destruct (Z.ltb_spec axis 0); [lia|]. apply (tile_inside shape tile stride n (Z.to_nat axis) H). lia.
Qed.

(** C77: encoding, copying and all tiles together. The compile time object encodes the parameters of all channels into a buffer; before each Issue (before the runtime object is made, if
    the parameters are those of the whole tensor) the user copies the pieces of the tile to the offsets that the runtime object reports; the result of all Issues is the rescaled tensor, each
    element with the parameters of its own channel. *)
Theorem rescale_encoded_whole rm axis shape tile si so bi bo ne osz BI SC SH BO a me0 me la ml0 X (ml mi m : nat -> mem) :
  tiling shape tile -> axis < Z.of_nat (length shape) -> lb_esz bi = 4 \/ lb_esz bi = 1 -> lb_esz bo = 1 ->
  let isz := Z.to_nat (lb_esz bi) in let ni := 8 * lb_esz bi in
  osz = 1%nat -> Z.of_nat ne = channels axis shape -> rescale_given ne isz osz BI SC SH BO ->
  bytes_ok me0 a (rescale_enc_size (Z.of_nat ne) (Z.of_nat isz) (Z.of_nat osz)) -> rescale_encode ne isz osz BI SC SH BO a me0 = Some me ->
  let it := tiles_iter shape tile so in let ob n := un_updates n (un_create (tiles_iter shape tile si) it bi bo) in
  let T := enc_max axis (enc_iter shape tile (Z.to_nat axis)) in
  (forall n, Z.of_nat n < total_count (ti_cfg it) ->
     usable (uo_tin (ob n)) (mi n) /\ usable (uo_tout (ob n)) (m n) /\ mem_bits ni (mi n)
     /\ holds (mi n) (uo_tin (ob n)) X (ti_pos (uo_in (ob n)))
     /\ let off := part_off axis (ti_pos (uo_in (ob n))) in let cnt := part_cnt axis (t_shape (uo_tin (ob n))) in
        sections_copied (rescale_szs isz osz) (rescale_layout (Z.of_nat isz) (Z.of_nat ne)) (rescale_reported (Z.of_nat isz) T) off cnt a la me (if axis <? 0 then ml0 else ml n)) ->
  whole_result (fun n => rescale_run rm axis (rescale_decode isz osz T la ml0) (rescale_decode isz osz T la (ml n)) (ob n) (mi n) (m n)) it bo m
    (fun c => let k := prelu3_index axis c in rescale_exact rm ni 8 (X c) (val_at BI k) (val_at BO k) (val_at SC k) (val_at SH k)).
Proof.
  intros H Ha Hni Hno isz ni Eo En Hg Hs He it ob T Hr. subst osz. assert (Ei : Z.of_nat isz = lb_esz bi) by (unfold isz; lia).
  apply (rescale_tiles_whole rm axis shape tile si so bi bo (rescale_decode isz 1 T la ml0) (fun n => rescale_decode isz 1 T la (ml n)) (val_at BI) (val_at SC) (val_at SH) (val_at BO) X mi m H Ha Hni Hno).
  intros n Hn. specialize (Hr n Hn). fold it in Hr |- *. fold (ob n) in Hr |- *. destruct Hr as (U1 & U2 & Mb & Hx & C).
  assert (PI := part_inside shape tile axis si n H Ha). cbv zeta in C, PI.
  assert (E1 : ti_pos (uo_in (ob n)) = ti_pos (ti_run (tiles_iter shape tile si) n)) by (unfold ob; rewrite un_updates_val; reflexivity).
  assert (E2 : t_shape (uo_tin (ob n)) = ti_size (ti_run (tiles_iter shape tile si) n)) by (unfold ob; rewrite un_updates_val; reflexivity).
  rewrite <- E1, <- E2 in PI. set (off := part_off axis (ti_pos (uo_in (ob n)))) in *. set (cnt := part_cnt axis (t_shape (uo_tin (ob n)))) in *.
  destruct PI as (P1 & P3). rewrite <- En in P3.
  destruct (rescale_params_tile ne isz 1 BI SC SH BO a me0 me T off cnt la _ Hg Hs He P1 P3 C) as (Q1 & Q2 & Q3 & Q4 & M1 & M2 & _ & M4).
  rewrite Ei in M1. fold ni in M1. change (8 * Z.of_nat 1) with 8 in M4.
  split; [exact U1|]. split; [exact U2|]. split; [exact Mb|]. split; [exact Hx|]. destruct (axis <? 0); cbv zeta; repeat (split; [assumption|]); assumption.
Qed.

(** * Prelu *)

Definition prelu_szs : list Z := [4; 2; 2; 1; 1; 1].

Definition prelu_given (n : nat) (bi ps ns pk nk bo : list Z) : Prop :=
  length bi = n /\ length ps = n /\ length ns = n /\ length pk = n /\ length nk = n /\ length bo = n
  /\ Forall (in_bits 32) bi /\ Forall (in_bits 16) ps /\ Forall (in_bits 16) ns /\ Forall (in_bits 8) pk /\ Forall (in_bits 8) nk /\ Forall (in_bits 8) bo.

Lemma prelu_encode_sections n bi ps ns pk nk bo a m : prelu_given n bi ps ns pk nk bo -> bytes_ok m a (11 * Z.of_nat n) ->
  exists m', prelu_encode bi ps ns pk nk bo a m = Some m' /\ (forall b, b < a \/ a + 11 * Z.of_nat n <= b -> m' b = m b)
    /\ let l := prelu_layout (Z.of_nat n) in
       (forall k, 0 <= k < Z.of_nat n -> get_obj 4 (a + nth 0 l 0 + Z.of_nat 4 * k) m' = Some (val_at bi k))
    /\ (forall k, 0 <= k < Z.of_nat n -> get_obj 2 (a + nth 1 l 0 + Z.of_nat 2 * k) m' = Some (val_at ps k))
    /\ (forall k, 0 <= k < Z.of_nat n -> get_obj 2 (a + nth 2 l 0 + Z.of_nat 2 * k) m' = Some (val_at ns k))
    /\ (forall k, 0 <= k < Z.of_nat n -> get_obj 1 (a + nth 3 l 0 + Z.of_nat 1 * k) m' = Some (val_at pk k))
    /\ (forall k, 0 <= k < Z.of_nat n -> get_obj 1 (a + nth 4 l 0 + Z.of_nat 1 * k) m' = Some (val_at nk k))
    /\ (forall k, 0 <= k < Z.of_nat n -> get_obj 1 (a + nth 5 l 0 + Z.of_nat 1 * k) m' = Some (val_at bo k)).
Proof.
  intros (L1 & L2 & L3 & L4 & L5 & L6 & F1 & F2 & F3 & F4 & F5 & F6) H. unfold prelu_encode.
  set (N := Z.of_nat n) in *. assert (HN : 0 <= N) by (unfold N; lia).
  destruct (put_all_correct 4 ltac:(lia) bi a m) as (m1 & E1 & G1 & R1 & A1); [intros b Hb; apply H; rewrite L1 in Hb; fold N in Hb; lia|exact F1|].
  rewrite E1. cbn [bind]. rewrite L1 in *. fold N in E1, G1, R1 |- *. change (Z.of_nat 4) with 4 in *.
  destruct (put_all_correct 2 ltac:(lia) ps (a + 4 * N) m1) as (m2 & E2 & G2 & R2 & A2); [intros b Hb; apply A1, H; rewrite L2 in Hb; fold N in Hb; lia|exact F2|].
  rewrite E2. cbn [bind]. rewrite L2 in *. fold N in E2, G2, R2 |- *. change (Z.of_nat 2) with 2 in *.
  destruct (put_all_correct 2 ltac:(lia) ns (a + 4 * N + 2 * N) m2) as (m3 & E3 & G3 & R3 & A3); [intros b Hb; apply A2, A1, H; rewrite L3 in Hb; fold N in Hb; lia|exact F3|].
  change (Z.of_nat 2) with 2 in *. rewrite E3. cbn [bind]. rewrite L3 in *. fold N in E3, G3, R3 |- *.
  destruct (put_all_correct 1 ltac:(lia) pk (a + 4 * N + 2 * N + 2 * N) m3) as (m4 & E4 & G4 & R4 & A4); [intros b Hb; apply A3, A2, A1, H; rewrite L4 in Hb; fold N in Hb; lia|exact F4|].
  rewrite E4. cbn [bind]. rewrite L4 in *. fold N in E4, G4, R4 |- *. change (Z.of_nat 1) with 1 in *.
  destruct (put_all_correct 1 ltac:(lia) nk (a + 4 * N + 2 * N + 2 * N + 1 * N) m4) as (m5 & E5 & G5 & R5 & A5); [intros b Hb; apply A4, A3, A2, A1, H; rewrite L5 in Hb; fold N in Hb; lia|exact F5|].
  change (Z.of_nat 1) with 1 in *. rewrite E5. cbn [bind]. rewrite L5 in *. fold N in E5, G5, R5 |- *.
  destruct (put_all_correct 1 ltac:(lia) bo (a + 4 * N + 2 * N + 2 * N + 1 * N + 1 * N) m5) as (m6 & E6 & G6 & R6 & A6); [intros b Hb; apply A5, A4, A3, A2, A1, H; rewrite L6 in Hb; fold N in Hb; lia|exact F6|].
  change (Z.of_nat 1) with 1 in *. rewrite E6. cbn [bind snd]. rewrite L6 in *. fold N in E6, G6, R6 |- *.
  exists m6. split; [reflexivity|]. split.
  { intros b Hb. rewrite R6, R5, R4, R3, R2, R1 by lia. reflexivity. }
  clear E1 E2 E3 E4 E5 E6 A1 A2 A3 A4 A5 A6 F1 F2 F3 F4 F5 F6 H. unfold prelu_layout. cbv zeta. cbn [nth].
  split; [|split; [|split; [|split; [|split]]]]; intros k Hk.
  - rewrite <- (G1 k Hk). rewrite Z.add_0_r. apply get_obj_ext. intros j Hj. rewrite R6, R5, R4, R3, R2 by lia. reflexivity.
  - rewrite <- (G2 k Hk). replace (a + (0 + 4 * N) + 2 * k) with (a + 4 * N + 2 * k) by lia. apply get_obj_ext. intros j Hj. rewrite R6, R5, R4, R3 by lia. reflexivity.
  - rewrite <- (G3 k Hk). replace (a + (0 + 4 * N + 2 * N) + 2 * k) with (a + 4 * N + 2 * N + 2 * k) by lia. apply get_obj_ext. intros j Hj. rewrite R6, R5, R4 by lia. reflexivity.
  - rewrite <- (G4 k Hk). replace (a + (0 + 4 * N + 2 * N + 2 * N) + 1 * k) with (a + 4 * N + 2 * N + 2 * N + 1 * k) by lia. apply get_obj_ext. intros j Hj. rewrite R6, R5 by lia. reflexivity.
  - rewrite <- (G5 k Hk). replace (a + (0 + 4 * N + 2 * N + 2 * N + 1 * N) + 1 * k) with (a + 4 * N + 2 * N + 2 * N + 1 * N + 1 * k) by lia. apply get_obj_ext. intros j Hj. rewrite R6 by lia. reflexivity.
  - rewrite <- (G6 k Hk). f_equal. lia.
Qed.

(** C77: the same for Prelu, whose buffer has 11 bytes per channel. *)
Theorem prelu_params_whole n bi ps ns pk nk bo a m : prelu_given n bi ps ns pk nk bo -> bytes_ok m a (11 * Z.of_nat n) ->
  exists m', prelu_encode bi ps ns pk nk bo a m = Some m' /\ (forall b, b < a \/ a + 11 * Z.of_nat n <= b -> m' b = m b)
    /\ forall k, 0 <= k < Z.of_nat n -> let p := prelu_decode (Z.of_nat n) a m' in
       p3_bias_in p k = Some (val_at bi k) /\ p3_posscale p k = Some (val_at ps k) /\ p3_negscale p k = Some (val_at ns k)
       /\ p3_posshift p k = Some (val_at pk k) /\ p3_negshift p k = Some (val_at nk k) /\ p3_bias_out p k = Some (val_at bo k).
Proof.
  intros Hg Hs. destruct (prelu_encode_sections n bi ps ns pk nk bo a m Hg Hs) as (m' & E & F & G1 & G2 & G3 & G4 & G5 & G6). exists m'. split; [exact E|]. split; [exact F|].
  intros k Hk p. unfold p, prelu_decode. cbv zeta. cbn [p3_bias_in p3_bias_out p3_posscale p3_negscale p3_posshift p3_negshift]. unfold array_at. auto 10.
Qed.

Theorem prelu_params_tile n bi ps ns pk nk bo a m me T off cnt la ml : prelu_given n bi ps ns pk nk bo -> bytes_ok m a (11 * Z.of_nat n) ->
  prelu_encode bi ps ns pk nk bo a m = Some me -> 0 <= off -> off + cnt <= Z.of_nat n ->
  sections_copied prelu_szs (prelu_layout (Z.of_nat n)) (prelu_reported T) off cnt a la me ml ->
  let p := prelu_decode T la ml in
  (part_of (p3_bias_in p) off cnt (val_at bi) /\ part_of (p3_posscale p) off cnt (val_at ps) /\ part_of (p3_negscale p) off cnt (val_at ns)
   /\ part_of (p3_posshift p) off cnt (val_at pk) /\ part_of (p3_negshift p) off cnt (val_at nk) /\ part_of (p3_bias_out p) off cnt (val_at bo))
  /\ mem_bits 32 (p3_bias_in p) /\ mem_bits 16 (p3_posscale p) /\ mem_bits 16 (p3_negscale p) /\ mem_bits 8 (p3_posshift p) /\ mem_bits 8 (p3_negshift p) /\ mem_bits 8 (p3_bias_out p).
Proof.
  intros Hg Hs E Ho Hc C. destruct (prelu_encode_sections n bi ps ns pk nk bo a m Hg Hs) as (m' & E' & _ & G1 & G2 & G3 & G4 & G5 & G6).
  assert (m' = me) by congruence. subst m'. destruct Hg as (L1 & L2 & L3 & L4 & L5 & L6 & _).
  rewrite <- (proj2 (param_layout_ok 1 T)) in C. intros p. unfold p, prelu_decode. cbv zeta. cbn [p3_bias_in p3_bias_out p3_posscale p3_negscale p3_posshift p3_negshift].
  set (l := prelu_layout T) in *. set (l' := prelu_layout (Z.of_nat n)) in *.
  split; [split; [|split; [|split; [|split; [|split]]]]|split; [|split; [|split; [|split; [|split]]]]].
  - apply (array_copied 4 off cnt (a + nth 0 l' 0) _ me); [exact Ho|lia|rewrite L1; exact G1|exact (C 0%nat ltac:(cbn; lia))].
  - apply (array_copied 2 off cnt (a + nth 1 l' 0) _ me); [exact Ho|lia|rewrite L2; exact G2|exact (C 1%nat ltac:(cbn; lia))].
  - apply (array_copied 2 off cnt (a + nth 2 l' 0) _ me); [exact Ho|lia|rewrite L3; exact G3|exact (C 2%nat ltac:(cbn; lia))].
  - apply (array_copied 1 off cnt (a + nth 3 l' 0) _ me); [exact Ho|lia|rewrite L4; exact G4|exact (C 3%nat ltac:(cbn; lia))].
  - apply (array_copied 1 off cnt (a + nth 4 l' 0) _ me); [exact Ho|lia|rewrite L5; exact G5|exact (C 4%nat ltac:(cbn; lia))].
  - apply (array_copied 1 off cnt (a + nth 5 l' 0) _ me); [exact Ho|lia|rewrite L6; exact G6|exact (C 5%nat ltac:(cbn; lia))].
  - apply (array_bits 4); lia.
  - apply (array_bits 2); lia.
  - apply (array_bits 2); lia.
  - apply (array_bits 1); lia.
  - apply (array_bits 1); lia.
  - apply (array_bits 1); lia.
Qed.

Lemma axes_last shape tile : tiling shape tile -> forall k a, (a < length shape)%nat ->
  exists D, it_first_inc (nth a (axes k shape tile) (mkIdim 0 0 0 0 0 0 0 0)) = nth a tile 0 /\ it_inc (nth a (axes k shape tile) (mkIdim 0 0 0 0 0 0 0 0)) = nth a tile 0
    /\ D = nth a shape 0 /\ 1 <= nth a tile 0.
Proof.
  intros H. induction H as [|D T shape tile [HT HD] H IH]; intros k a Ha; cbn [length axes] in *; [lia|]. destruct a as [|a]; cbn [nth].
  - exists D. destruct (tile_dim_val (Z.of_nat k) D T 0 HT ltac:(lia) ltac:(lia)) as (-> & _). cbn [it_first_inc it_inc]. lia.
  - apply IH. lia.
Qed.

(** C77: the room that the runtime object of Prelu leaves for each parameter is the tile's size along the last axis. *)
Theorem prelu_cnt_last shape tile stride : tiling shape tile -> shape <> [] -> prelu_cnt (tiles_iter shape tile stride) = nth (length shape - 1) tile 0.
Proof.
  intros H Hne. assert (L : (length shape - 1 < length shape)%nat) by (destruct shape; [congruence|cbn; lia]).
  unfold prelu_cnt, tiles_iter, ti_new. cbn [ti_cfg ti_shape]. rewrite tile_cfg_axes by (apply tiling_length; exact H).
  destruct (axes_last shape tile H 0%nat _ L) as (D & -> & -> & _ & HT). rewrite Z.max_id. cbv zeta. destruct (Z.eqb_spec (nth (length shape - 1) tile 0) 0); lia.
Qed.

(** C77: encoding, copying and all tiles of Prelu together, for parameters along the last axis. *)
Theorem prelu_encoded_whole rm shape tile si so bi bo ne BI PS NS PK NK BO a me0 me la X (ml mi m : nat -> mem) :
  let axis := Z.of_nat (length shape) - 1 in tiling shape tile -> 0 <= axis ->
  (forall c, valid shape c -> in_bits 32 (X c - val_at BI (prelu3_index axis c))) ->
  Z.of_nat ne = channels axis shape -> prelu_given ne BI PS NS PK NK BO ->
  bytes_ok me0 a (prelu_enc_size shape) -> prelu_encode BI PS NS PK NK BO a me0 = Some me ->
  let it := tiles_iter shape tile so in let ob n := un_updates n (un_create (tiles_iter shape tile si) it bi bo) in
  let T := prelu_cnt (tiles_iter shape tile si) in
  (forall n, Z.of_nat n < total_count (ti_cfg it) ->
     usable (uo_tin (ob n)) (mi n) /\ usable (uo_tout (ob n)) (m n) /\ mem_bits 32 (mi n)
     /\ holds (mi n) (uo_tin (ob n)) X (ti_pos (uo_in (ob n)))
     /\ let off := part_off axis (ti_pos (uo_in (ob n))) in let cnt := part_cnt axis (t_shape (uo_tin (ob n))) in
        sections_copied prelu_szs (prelu_layout (Z.of_nat ne)) (prelu_reported T) off cnt a la me (ml n)) ->
  whole_result (fun n => prelu_run rm axis (prelu_decode T la (ml n)) (ob n) (mi n) (m n)) it bo m
    (fun c => let k := prelu3_index axis c in prelu3_exact rm 8 (X c - val_at BI k) (val_at BO k) (val_at PS k) (val_at PK k) (val_at NS k) (val_at NK k)).
Proof.
  intros axis H Ha0 Hd En Hg Hs He it ob T Hr. assert (Ha : axis < Z.of_nat (length shape)) by (unfold axis; lia).
  assert (Hs' : bytes_ok me0 a (11 * Z.of_nat ne)).
  { intros b Hb. apply Hs. unfold prelu_enc_size. unfold channels, axis in En. destruct (Z.ltb_spec (Z.of_nat (length shape) - 1) 0); [lia|].
    replace (length shape - 1)%nat with (Z.to_nat (Z.of_nat (length shape) - 1)) by lia. rewrite <- En. lia. }
  apply (prelu_tiles_whole rm axis shape tile si so bi bo (fun n => prelu_decode T la (ml n)) (val_at BI) (val_at PS) (val_at NS) (val_at PK) (val_at NK) (val_at BO) X mi m H Ha Hd).
  intros n Hn. specialize (Hr n Hn). fold it in Hr |- *. fold (ob n) in Hr |- *. destruct Hr as (U1 & U2 & Mb & Hx & C).
  assert (PI := part_inside shape tile axis si n H Ha). cbv zeta in C, PI.
  assert (E1 : ti_pos (uo_in (ob n)) = ti_pos (ti_run (tiles_iter shape tile si) n)) by (unfold ob; rewrite un_updates_val; reflexivity).
  assert (E2 : t_shape (uo_tin (ob n)) = ti_size (ti_run (tiles_iter shape tile si) n)) by (unfold ob; rewrite un_updates_val; reflexivity).
  rewrite <- E1, <- E2 in PI. set (off := part_off axis (ti_pos (uo_in (ob n)))) in *. set (cnt := part_cnt axis (t_shape (uo_tin (ob n)))) in *.
  destruct PI as (P1 & P3). rewrite <- En in P3.
  destruct (prelu_params_tile ne BI PS NS PK NK BO a me0 me T off cnt la _ Hg Hs' He P1 P3 C) as ((Q1 & Q2 & Q3 & Q4 & Q5 & Q6) & M1 & M2 & M3 & _ & _ & M6).
  cbv zeta. repeat (split; [assumption|]); assumption.
Qed.

(** * The copies can be made *)

(** C77: if a tile has at most [T] channels then the sections reported for [T] do not overlap, and the copies that [rescale_params_tile] and [prelu_params_tile] ask for can be made: the local
    buffer needs no bytes beyond those for [T] channels. *)
Theorem rescale_copies_fit isz osz n T off cnt a la ms md : 1 <= Z.of_nat isz -> 1 <= Z.of_nat osz -> 0 <= cnt <= T ->
  exists ml, sections_copied (rescale_szs isz osz) (rescale_layout (Z.of_nat isz) n) (rescale_reported (Z.of_nat isz) T) off cnt a la ms ml
    /\ forall b, b < la \/ la + rescale_enc_size T (Z.of_nat isz) (Z.of_nat osz) <= b -> ml b = md b.
Proof.
  intros Hi Ho Hc. unfold rescale_enc_size. set (I := Z.of_nat isz) in *. set (O := Z.of_nat osz) in *.
  assert (P : 0 <= I * cnt <= I * T /\ 0 <= O * cnt <= O * T) by nia.
  exists (fun x => let b := x - la in if (b <? 0) || (T * (I + 2 + 1 + O) <=? b) then md x else
    if b <? T * I then ms (a + nth 0 (rescale_layout I n) 0 + I * off + b) else if b <? T * (I + 2) then ms (a + nth 1 (rescale_layout I n) 0 + 2 * off + (b - T * I))
    else if b <? T * (I + 2 + 1) then ms (a + nth 2 (rescale_layout I n) 0 + 1 * off + (b - T * (I + 2))) else ms (a + nth 3 (rescale_layout I n) 0 + O * off + (b - T * (I + 2 + 1)))).
  assert (D0 : T * (I + 2 + 1 + O) = I * T + 2 * T + T + O * T) by lia. assert (D1 : T * (I + 2) = I * T + 2 * T) by lia. assert (D2 : T * (I + 2 + 1) = I * T + 2 * T + T) by lia. assert (D3 : T * I = I * T) by lia.
  split.
  - intros k Hk b Hb. set (lay := rescale_layout I n). unfold rescale_szs, rescale_reported in *. cbv zeta.
    destruct k as [|[|[|[|k]]]]; cbn [nth length] in *; try lia.
    + fold I in Hb |- *. destruct (Z.ltb_spec (la + 0 + b - la) 0); [lia|]. destruct (Z.leb_spec (T * (I + 2 + 1 + O)) (la + 0 + b - la)); [lia|]. cbn [orb].
      destruct (Z.ltb_spec (la + 0 + b - la) (T * I)); [|lia]. f_equal. lia.
    + destruct (Z.ltb_spec (la + T * I + b - la) 0); [lia|]. destruct (Z.leb_spec (T * (I + 2 + 1 + O)) (la + T * I + b - la)); [lia|]. cbn [orb].
      destruct (Z.ltb_spec (la + T * I + b - la) (T * I)); [lia|]. destruct (Z.ltb_spec (la + T * I + b - la) (T * (I + 2))); [|lia]. f_equal. lia.
    + destruct (Z.ltb_spec (la + T * (I + 2) + b - la) 0); [lia|]. destruct (Z.leb_spec (T * (I + 2 + 1 + O)) (la + T * (I + 2) + b - la)); [lia|]. cbn [orb].
      destruct (Z.ltb_spec (la + T * (I + 2) + b - la) (T * I)); [lia|]. destruct (Z.ltb_spec (la + T * (I + 2) + b - la) (T * (I + 2))); [lia|].
      destruct (Z.ltb_spec (la + T * (I + 2) + b - la) (T * (I + 2 + 1))); [|lia]. f_equal. lia.
    + fold O in Hb |- *. destruct (Z.ltb_spec (la + T * (I + 2 + 1) + b - la) 0); [lia|]. destruct (Z.leb_spec (T * (I + 2 + 1 + O)) (la + T * (I + 2 + 1) + b - la)); [lia|]. cbn [orb].
      destruct (Z.ltb_spec (la + T * (I + 2 + 1) + b - la) (T * I)); [lia|]. destruct (Z.ltb_spec (la + T * (I + 2 + 1) + b - la) (T * (I + 2))); [lia|].
      destruct (Z.ltb_spec (la + T * (I + 2 + 1) + b - la) (T * (I + 2 + 1))); [lia|]. f_equal. lia.
  - intros b Hb. cbv zeta. destruct (Z.ltb_spec (b - la) 0); [reflexivity|]. destruct (Z.leb_spec (T * (I + 2 + 1 + O)) (b - la)); [reflexivity|lia].
Qed.

Theorem prelu_copies_fit n T off cnt a la ms md : 0 <= cnt <= T ->
  exists ml, sections_copied prelu_szs (prelu_layout n) (prelu_reported T) off cnt a la ms ml /\ forall b, b < la \/ la + 11 * T <= b -> ml b = md b.
Proof.
  intros Hc. set (src k := a + nth k (prelu_layout n) 0 + nth k prelu_szs 0 * off).
  exists (fun x => let b := x - la in if (b <? 0) || (11 * T <=? b) then md x else if b <? 4 * T then ms (src 0%nat + b) else if b <? 6 * T then ms (src 1%nat + (b - 4 * T))
    else if b <? 8 * T then ms (src 2%nat + (b - 6 * T)) else if b <? 9 * T then ms (src 3%nat + (b - 8 * T)) else if b <? 10 * T then ms (src 4%nat + (b - 9 * T)) else ms (src 5%nat + (b - 10 * T))).
  split.
  - intros k Hk b Hb. fold (src k). unfold prelu_reported. cbv zeta. generalize dependent src. intros src. unfold prelu_szs in *.
    destruct k as [|[|[|[|[|[|k]]]]]]; cbn [nth length] in *; try lia;
    repeat match goal with |- context [if ?c then _ else _] => match c with (?x <? ?y) || _ => destruct (Z.ltb_spec x y); cbn [orb] | (?x <? ?y) => destruct (Z.ltb_spec x y) | (?x <=? ?y) => destruct (Z.leb_spec x y) end; try lia end; f_equal; lia.
  - intros b Hb. cbv zeta. destruct (Z.ltb_spec (b - la) 0); [reflexivity|]. destruct (Z.leb_spec (11 * T) (b - la)); [reflexivity|lia].
Qed.

(** * Alignment *)

(** C77: with the local buffer at a multiple of four, all arrays of Prelu are aligned; those of Rescale are if the input elements have 32 bits and the output elements 8 bits. *)
Theorem params_aligned T a : aligned 4 a ->
  (aligned 4 (a + nth 0 (prelu_layout T) 0) /\ aligned 2 (a + nth 1 (prelu_layout T) 0) /\ aligned 2 (a + nth 2 (prelu_layout T) 0))
  /\ (aligned 4 (a + nth 0 (rescale_layout 4 T) 0) /\ aligned 2 (a + nth 1 (rescale_layout 4 T) 0)).
Proof. unfold aligned, prelu_layout, rescale_layout. cbv zeta. cbn [nth]. change (Z.of_nat 4) with 4. change (Z.of_nat 2) with 2. intros H. repeat split; lia. Qed.

(** With 8-bit input elements and an odd number of channels the 16-bit scales of Rescale lie at odd addresses, and with 32-bit output elements and an odd number of channels the output biases
    are not aligned, wherever the buffer is. *)
Theorem rescale_misaligned_refuted T a : T mod 2 = 1 -> aligned 4 a ->
  ~ aligned 2 (a + nth 1 (rescale_layout 1 T) 0) /\ ~ aligned 4 (a + nth 3 (rescale_layout 4 T) 0).
Proof. unfold aligned, rescale_layout. cbv zeta. cbn [nth]. change (Z.of_nat 4) with 4. change (Z.of_nat 2) with 2. intros HT H. split; lia. Qed.

(** * Weights and zero points *)

(** C77: weights and zero points are written one after the other: the weights from the first byte of the destination on, the zero points directly behind them; nothing else is changed. *)
Theorem weights_zp_encoded w z a m : Forall (in_bits 8) w -> Forall (in_bits 8) z -> let nw := Z.of_nat (length w) in let nz := Z.of_nat (length z) in
  bytes_ok m a (nw + nz) -> exists m', encode_weights_zp 1 1 1 (nw + nz) w z a m = Some (ENC_OK, m')
    /\ (forall k, 0 <= k < nw -> get_obj 1 (a + k) m' = Some (val_at w k)) /\ (forall k, 0 <= k < nz -> get_obj 1 (a + nw + k) m' = Some (val_at z k))
    /\ forall b, b < a \/ a + nw + nz <= b -> m' b = m b.
Proof.
  intros Fw Fz nw nz H. unfold encode_weights_zp. fold nw nz. replace (1 * nw + 1 * nz) with (nw + nz) by lia. rewrite Z.eqb_refl. cbn [negb andb Z.eqb Pos.eqb].
  destruct (put_all_correct 1 ltac:(lia) w a m) as (m1 & E1 & G1 & R1 & A1); [intros b Hb; fold nw in Hb; apply H; lia|exact Fw|]. rewrite E1. cbn [bind]. fold nw in E1, G1, R1 |- *. change (Z.of_nat 1) with 1 in *.
  destruct (put_all_correct 1 ltac:(lia) z (a + 1 * nw) m1) as (m2 & E2 & G2 & R2 & A2); [intros b Hb; fold nz in Hb; apply A1, H; lia|exact Fz|]. rewrite E2. cbn [bind snd]. fold nz in E2, G2, R2. change (Z.of_nat 1) with 1 in *.
  exists m2. split; [reflexivity|]. split; [|split].
  - intros k Hk. rewrite <- (G1 k Hk). replace (a + 1 * k) with (a + k) by lia. apply get_obj_ext. intros j Hj. apply R2. lia.
  - intros k Hk. rewrite <- (G2 k Hk). f_equal. lia.
  - intros b Hb. rewrite R2, R1 by lia. reflexivity.
Qed.

(** C77: zero points are accepted if there is one for the tensor or one per channel; the quantization axis is set accordingly (-1 for the tensor) and the values are copied. Any other number
    of zero points is refused and nothing is changed. *)
Theorem zp_encoded axis len axis0 z a m : Forall (in_bits 8) z -> let n := Z.of_nat (length z) in bytes_ok m a n ->
  (n = 1 \/ n = len -> exists m', encode_zp axis len axis0 1 1 n z a m = Some (ENC_OK, if n =? 1 then -1 else axis, m')
     /\ (forall k, 0 <= k < n -> get_obj 1 (a + k) m' = Some (val_at z k)) /\ forall b, b < a \/ a + n <= b -> m' b = m b)
  /\ (n <> 1 -> n <> len -> encode_zp axis len axis0 1 1 n z a m = Some (ENC_SHAPE_MISMATCH, axis0, m)).
Proof.
  intros F n H. unfold encode_zp. fold n. rewrite Z.mul_1_l, Z.div_1_r, !Z.eqb_refl. cbn [negb andb Z.eqb Pos.eqb]. cbv zeta. split.
  - intros Hn. assert (E : (n =? 1) || (n =? len) = true) by (destruct (Z.eqb_spec n 1), (Z.eqb_spec n len); cbn; lia). rewrite E.
    destruct (put_all_correct 1 ltac:(lia) z a m) as (m1 & E1 & G1 & R1 & A1); [intros b Hb; fold n in Hb; apply H; lia|exact F|]. rewrite E1. cbn [bind snd]. fold n in E1, G1, R1. change (Z.of_nat 1) with 1 in *.
    exists m1. split; [reflexivity|]. split; [intros k Hk; rewrite <- (G1 k Hk); f_equal; lia|]. intros b Hb. apply R1. lia.
  - intros H1 H2. destruct (Z.eqb_spec n 1); [lia|]. destruct (Z.eqb_spec n len); [lia|]. reflexivity.
Qed.

(** * Where it fails *)

(** A buffer of the size that GetEncodedWeightsSize reports (mli_krn_conv2d_compiler.cc:233-235: that of the weights alone) is refused by the assertion of EncodeWeightsAndZeroPts, whatever the
    weights and zero points. *)
Theorem weights_size_refuted w z a m : z <> [] -> encode_weights_zp 1 1 1 (Z.of_nat (length w)) w z a m = None.
Proof.
  intros Hz. unfold encode_weights_zp. destruct z as [|x z]; [congruence|]. cbn [length]. rewrite Nat2Z.inj_succ.
  destruct (Z.eqb_spec (1 * Z.of_nat (length w) + 1 * Z.succ (Z.of_nat (length z))) (Z.of_nat (length w))); [lia|reflexivity].
Qed.

Definition at_mem (o : option mem) : mem := match o with Some m => m | None => fun _ => None end.

(** The encoded buffer itself is no local buffer for tiles that are smaller than the tensor: of two channels, processed one at a time, the scale of the first is read from the input bias of
    the second (5 instead of 7). *)
Theorem rescale_direct_refuted : exists me, rescale_encode 2 4 1 [0; 5] [7; 9] [1; 2] [3; 4] 0 (list_mem (repeat 0 16)) = Some me
  /\ rs_scale (rescale_decode 4 1 2 0 me) 0 = Some 7 /\ rs_scale (rescale_decode 4 1 1 0 me) 0 = Some 5.
Proof.
  set (o := rescale_encode 2 4 1 [0; 5] [7; 9] [1; 2] [3; 4] 0 (list_mem (repeat 0 16))).
  assert (A : rs_scale (rescale_decode 4 1 2 0 (at_mem o)) 0 = Some 7) by (vm_compute; reflexivity).
  assert (B : rs_scale (rescale_decode 4 1 1 0 (at_mem o)) 0 = Some 5) by (vm_compute; reflexivity).
  destruct o as [me|]; [exists me; auto|discriminate].
Qed.

(** Prelu with parameters for the whole tensor (axis -1): the room for each parameter is still that of the last axis, so the encoded buffer itself is read wrongly even if nothing is tiled:
    the tensor has 3 channels, the positive scale (7) is read from behind the parameters. *)
Theorem prelu_per_tensor_refuted : exists me, prelu_encode [0] [7] [9] [1] [2] [3] 0 (list_mem (repeat 0 33)) = Some me
  /\ prelu_enc_size [1; 1; 1; 1; 3] = 33 /\ let T := prelu_cnt (tiles_iter [1; 1; 1; 1; 3] [1; 1; 1; 1; 3] [3; 3; 3; 3; 1]) in
  p3_posscale (prelu_decode 1 0 me) 0 = Some 7 /\ p3_posscale (prelu_decode T 0 me) 0 = Some 0.
Proof.
  set (o := prelu_encode [0] [7] [9] [1] [2] [3] 0 (list_mem (repeat 0 33))). cbv zeta.
  assert (ET : prelu_cnt (tiles_iter [1; 1; 1; 1; 3] [1; 1; 1; 1; 3] [3; 3; 3; 3; 1]) = 3) by (vm_compute; reflexivity). rewrite ET.
  assert (A : p3_posscale (prelu_decode 1 0 (at_mem o)) 0 = Some 7) by (vm_compute; reflexivity).
  assert (B : p3_posscale (prelu_decode 3 0 (at_mem o)) 0 = Some 0) by (vm_compute; reflexivity).
  destruct o as [me|]; [exists me; auto|discriminate].
Qed.

(** Prelu with parameters along the first axis: the room reported for each parameter is that of the last axis (1), so the sections of the three channels overlap and no local buffer can hold
    them: the second input bias and the first positive scale are in the same place. *)
Theorem prelu_first_axis_refuted : let shape := [3; 1] in let T := prelu_cnt (tiles_iter shape shape [1; 1]) in
  exists BI PS NS PK NK BO me, prelu_given 3 BI PS NS PK NK BO /\ prelu_encode BI PS NS PK NK BO 0 (list_mem (repeat 0 33)) = Some me
  /\ forall la ml, ~ sections_copied prelu_szs (prelu_layout 3) (prelu_reported T) (part_off 0 [0; 0]) (part_cnt 0 shape) 0 la me ml.
Proof.
  intros shape T. assert (ET : T = 1) by (vm_compute; reflexivity). rewrite ET.
  set (o := prelu_encode [1; 2; 3] [7; 7; 7] [0; 0; 0] [1; 1; 1] [2; 2; 2] [3; 3; 3] 0 (list_mem (repeat 0 33))).
  exists [1; 2; 3], [7; 7; 7], [0; 0; 0], [1; 1; 1], [2; 2; 2], [3; 3; 3], (at_mem o).
  assert (S0 : at_mem o 12 = Some 7) by (vm_compute; reflexivity). assert (S1 : at_mem o 4 = Some 2) by (vm_compute; reflexivity).
  split; [|split].
  - unfold prelu_given. cbn [length]. repeat (split; [reflexivity|]). repeat split; repeat (apply Forall_cons; [first [apply ib8|apply ib16|apply ib32]; lia|]); apply Forall_nil.
  - fold o. destruct o; [reflexivity|discriminate].
  - intros la ml C. assert (C0 := C 0%nat ltac:(cbn; lia) 4 ltac:(cbn; lia)). assert (C1 := C 1%nat ltac:(cbn; lia) 0 ltac:(cbn; lia)).
    change (0 + nth 0 (prelu_layout 3) 0 + nth 0 prelu_szs 0 * part_off 0 [0; 0] + 4) with 4 in C0. change (0 + nth 1 (prelu_layout 3) 0 + nth 1 prelu_szs 0 * part_off 0 [0; 0] + 0) with 12 in C1.
    change (la + nth 0 (prelu_reported 1) 0 + 4) with (la + 0 + 4) in C0. change (la + nth 1 (prelu_reported 1) 0 + 0) with (la + 4 + 0) in C1.
    replace (la + 4 + 0) with (la + 0 + 4) in C1 by lia. rewrite S0 in C1. rewrite S1 in C0. rewrite C0 in C1. discriminate.
Qed.

(** * Non-trivial cases *)

(** Three channels, rescaled two at a time: the hypotheses of [rescale_encoded_whole]. *)
Example rescale_encoded_case : exists me, let BI := [1; 2; 3] in let SC := [3; -5; 7] in let SH := [1; 2; -1] in let BO := [10; 20; 30] in
  rescale_given 3 4 1 BI SC SH BO /\ bytes_ok (list_mem (repeat 0 24)) 0 (rescale_enc_size 3 4 1) /\ rescale_encode 3 4 1 BI SC SH BO 0 (list_mem (repeat 0 24)) = Some me
  /\ channels 0 [3; 2] = 3 /\ let T := enc_max 0 (enc_iter [3; 2] [2; 2] 0) in exists ml : nat -> mem, forall n, Z.of_nat n < 2 ->
  let ob := un_updates n (un_create (tiles_iter [3; 2] [2; 2] [2; 1]) (tiles_iter [3; 2] [2; 2] [2; 1]) (mkLb 0 16 4) (mkLb 0 4 1)) in
  usable (uo_tin ob) (list_mem (px_vals n)) /\ usable (uo_tout ob) (list_mem [0; 0; 0; 0]) /\ mem_bits 32 (list_mem (px_vals n)) /\ holds (list_mem (px_vals n)) (uo_tin ob) px_X (ti_pos (uo_in ob))
  /\ sections_copied (rescale_szs 4 1) (rescale_layout 4 3) (rescale_reported 4 T) (part_off 0 (ti_pos (uo_in ob))) (part_cnt 0 (t_shape (uo_tin ob))) 0 0 me (ml n).
Proof.
  cbv zeta. assert (G : rescale_given 3 4 1 [1; 2; 3] [3; -5; 7] [1; 2; -1] [10; 20; 30]).
  { unfold rescale_given. cbn [length]. do 2 (split; [lia|]). repeat (split; [reflexivity|]). repeat split; repeat (apply Forall_cons; [first [apply ib8|apply ib16|apply ib32]; lia|]); apply Forall_nil. }
  assert (Sp : bytes_ok (list_mem (repeat 0 24)) 0 (rescale_enc_size 3 4 1)).
  { intros b Hb. change (rescale_enc_size 3 4 1) with 24 in Hb. unfold allocated, list_mem. destruct (Z.ltb_spec b 0); [lia|]. intros Ne. apply nth_error_None in Ne. cbn [length repeat] in Ne. lia. }
  destruct (rescale_params_whole 3 4 1 [1; 2; 3] [3; -5; 7] [1; 2; -1] [10; 20; 30] 0 (list_mem (repeat 0 24)) G Sp) as (me & E & _).
  exists me. split; [exact G|]. split; [exact Sp|]. split; [exact E|]. split; [reflexivity|].
  assert (ET : enc_max 0 (enc_iter [3; 2] [2; 2] 0) = 2) by (vm_compute; reflexivity). rewrite ET.
  destruct (rescale_copies_fit 4 1 3 2 0 2 0 0 me me ltac:(lia) ltac:(lia) ltac:(lia)) as (ml0 & C0 & _).
  destruct (rescale_copies_fit 4 1 3 2 2 1 0 0 me me ltac:(lia) ltac:(lia) ltac:(lia)) as (ml1 & C1 & _).
  exists (fun n => if Nat.eqb n 0 then ml0 else ml1). intros n Hn. destruct (px_rescale n Hn) as (U1 & U2 & Mb & Hx & _).
  split; [exact U1|]. split; [exact U2|]. split; [exact Mb|]. split; [exact Hx|].
  rewrite un_updates_val. unfold un_create. cbn [uo_in uo_out uo_tin uo_tout].
  destruct (px_tile n Hn) as [(En & Es & Et & Ep)|(En & Es & Et & Ep)]; unfold tile_of; cbn [t_shape]; rewrite Es, Ep, En; [exact C0|exact C1].
Qed.

(** Two channels of Prelu, in tiles of two rows: the hypotheses of [prelu_encoded_whole]. *)
Example prelu_encoded_case : exists me, let BI := [10; -20] in let PS := [3; 5] in let NS := [-2; 7] in let PK := [1; 0] in let NK := [2; 3] in let BO := [1; -1] in
  (forall c, valid [3; 2] c -> in_bits 32 (px_X c - val_at BI (prelu3_index 1 c)))
  /\ prelu_given 2 BI PS NS PK NK BO /\ bytes_ok (list_mem (repeat 0 22)) 0 (prelu_enc_size [3; 2]) /\ prelu_encode BI PS NS PK NK BO 0 (list_mem (repeat 0 22)) = Some me
  /\ channels 1 [3; 2] = 2 /\ let T := prelu_cnt (tiles_iter [3; 2] [2; 2] [2; 1]) in exists ml : nat -> mem, forall n, Z.of_nat n < 2 ->
  let ob := un_updates n (un_create (tiles_iter [3; 2] [2; 2] [2; 1]) (tiles_iter [3; 2] [2; 2] [2; 1]) (mkLb 0 16 4) (mkLb 0 4 1)) in
  usable (uo_tin ob) (list_mem (px_vals n)) /\ usable (uo_tout ob) (list_mem [0; 0; 0; 0]) /\ mem_bits 32 (list_mem (px_vals n)) /\ holds (list_mem (px_vals n)) (uo_tin ob) px_X (ti_pos (uo_in ob))
  /\ sections_copied prelu_szs (prelu_layout 2) (prelu_reported T) (part_off 1 (ti_pos (uo_in ob))) (part_cnt 1 (t_shape (uo_tin ob))) 0 0 me (ml n).
Proof.
  cbv zeta. assert (G : prelu_given 2 [10; -20] [3; 5] [-2; 7] [1; 0] [2; 3] [1; -1]).
  { unfold prelu_given. cbn [length]. repeat (split; [reflexivity|]). repeat split; repeat (apply Forall_cons; [first [apply ib8|apply ib16|apply ib32]; lia|]); apply Forall_nil. }
  assert (Sp : bytes_ok (list_mem (repeat 0 22)) 0 22).
  { intros b Hb. unfold allocated, list_mem. destruct (Z.ltb_spec b 0); [lia|]. intros Ne. apply nth_error_None in Ne. cbn [length repeat] in Ne. lia. }
  destruct (prelu_params_whole 2 [10; -20] [3; 5] [-2; 7] [1; 0] [2; 3] [1; -1] 0 (list_mem (repeat 0 22)) G Sp) as (me & E & _).
  exists me. split.
  { intros c Hc. destruct c as [|i [|j [|]]]; cbn [valid] in Hc; try tauto. change (prelu3_index 1 [i; j]) with j. change (px_X [i; j]) with (10 * i + j). apply ib32.
    assert (B : -20 <= val_at [10; -20] j <= 10) by (assert (Ej : j = 0 \/ j = 1) by lia; destruct Ej as [-> | ->]; vm_compute; split; discriminate). lia. }
  split; [exact G|]. split; [exact Sp|]. split; [exact E|]. split; [reflexivity|].
  assert (ET : prelu_cnt (tiles_iter [3; 2] [2; 2] [2; 1]) = 2) by (vm_compute; reflexivity). rewrite ET.
  destruct (prelu_copies_fit 2 2 0 2 0 0 me me ltac:(lia)) as (ml0 & C0 & _).
  exists (fun _ => ml0). intros n Hn. destruct (px_rescale n Hn) as (U1 & U2 & Mb & Hx & _).
  split; [exact U1|]. split; [exact U2|]. split; [exact Mb|]. split; [exact Hx|].
  rewrite un_updates_val. unfold un_create. cbn [uo_in uo_out uo_tin uo_tout].
  destruct (px_tile n Hn) as [(En & Es & Et & Ep)|(En & Es & Et & Ep)]; unfold tile_of; cbn [t_shape]; rewrite Es, Ep; exact C0.
Qed.
