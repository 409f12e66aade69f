(** Clip and MatMul compute with the parameters given to EncodeParams (C83). *)
From Coq Require Import ZArith List Lia Bool.
From Verif Require Import Base FxMath FxMathProofs Tensor TensorProofs MovProofs Quant QuantProofs DotProdProofs ArgMax Permute PermuteProofs PoolKernels Eltwise EltwiseProofs Relu ReluProofs
  Prelu3Proofs Ops3 Ops3Proofs Iter IterProofs IterTheorems TileRun TileProofs TileConv TileDw TileElt TilePoint TileOps TileStep Encode EncodeProofs EncodeOps.
Import ListNotations.
Open Scope Z_scope.

(** * Specification *)

(** The buffer [b] of [m] is a single int8 of value [v]. *)
Definition holds_int8 (b : pbuf) (m : mem) (v : Z) : Prop := pb_size b = 1 /\ pb_esz b = 1 /\ get_obj 1 (pb_ptr b) m = Some v.

(** The destination: bytes, of the size that the compile time object reports, all of which may be written. *)
Definition enc_ready (size : Z) (b : pbuf) (m : mem) : Prop := pb_size b = size /\ pb_esz b = 1 /\ bytes_ok m (pb_ptr b) size.

(** The runtime buffer [rb] in [md] is a copy of the encoded one in [ms]. *)
Definition bytes_copied (b rb : pbuf) (ms md : mem) : Prop :=
  pb_size rb = pb_size b /\ pb_esz rb = pb_esz b /\ forall k, 0 <= k < pb_size b -> md (pb_ptr rb + k) = ms (pb_ptr b + k).

(** * Proofs *)

Lemma get_byte_bits a m v : get_obj 1 a m = Some v -> in_bits 8 v.
Proof.
  unfold get_obj. destruct (get_raw 1 a m) as [u|]; cbn [bind]; [|discriminate]. intros E. injection E as <-. change (8 * Z.of_nat 1) with 8. apply wrap_in_bits. lia.
Qed.

Lemma get_byte_ext a a' m m' : m a = m' a' -> get_obj 1 a m = get_obj 1 a' m'.
Proof. intros E. unfold get_obj, get_raw, load. now rewrite E. Qed.

Lemma two_bytes enc m lo hi : enc_ready 2 enc m -> in_bits 8 lo -> in_bits 8 hi ->
  exists m1 m2, pb_write8 enc 0 lo m = Some m1 /\ pb_write8 enc 1 hi m1 = Some m2
    /\ (forall b, b <> pb_ptr enc -> m1 b = m b)
    /\ get_obj 1 (pb_ptr enc) m2 = Some lo /\ get_obj 1 (pb_ptr enc + 1) m2 = Some hi
    /\ (forall b, b < pb_ptr enc \/ pb_ptr enc + 2 <= b -> m2 b = m b).
Proof.
  intros (Hs & He & Hb) Hlo Hhi. unfold pb_write8. rewrite He. change (1 =? 1) with true. cbn iota. rewrite Z.add_0_r.
  destruct (put_obj_get 1 (pb_ptr enc) lo m) as (m1 & E1 & G1 & F1 & A1); [lia| |exact Hlo|].
  { intros b H. apply Hb. lia. }
  destruct (put_obj_get 1 (pb_ptr enc + 1) hi m1) as (m2 & E2 & G2 & F2 & A2); [lia| |exact Hhi|].
  { intros b H. apply A1, Hb. lia. }
  exists m1, m2. split; [exact E1|]. split; [exact E2|]. split; [intros b H; apply F1; lia|]. split.
  { rewrite <- G1. apply get_byte_ext. apply F2. lia. }
  split; [exact G2|]. intros b H. rewrite F2 by lia. apply F1. lia.
Qed.

(** C83: EncodeParams of Clip writes the two bytes it reports and nothing else, and a runtime object with 8-bit input finds minimum and maximum in every copy of them. *)
Theorem clip_params_whole bmin bmax enc m lo hi : enc_ready clip_enc_size enc m -> holds_int8 bmin m lo -> holds_int8 bmax m hi -> pb_ptr bmax <> pb_ptr enc ->
  exists m', clip_encode bmin bmax enc m = Some m' /\ (forall b, b < pb_ptr enc \/ pb_ptr enc + clip_enc_size <= b -> m' b = m b)
    /\ forall rb md, bytes_copied enc rb m' md -> exists pm, clip_params 1 rb md = Some pm /\ pm 0 = Some lo /\ pm 1 = Some hi.
Proof.
  intros He (S1 & Z1 & V1) (S2 & Z2 & V2) Hne. change clip_enc_size with 2 in *.
  destruct (two_bytes enc m lo hi He (get_byte_bits _ _ _ V1) (get_byte_bits _ _ _ V2)) as (m1 & m2 & E1 & E2 & F1 & G1 & G2 & F2).
  destruct He as (Hs & Hz & _). exists m2. split.
  { unfold clip_encode, pb_read8. rewrite S1, S2, Hs, Z1, Z2. cbn [Z.add Z.eqb Pos.eqb Pos.add Pos.succ negb]. rewrite !Z.add_0_r, V1. cbn [bind]. rewrite E1. cbn [bind].
    rewrite (get_byte_ext (pb_ptr bmax) (pb_ptr bmax) m1 m) by (apply F1; exact Hne). rewrite V2. cbn [bind]. exact E2. }
  split; [exact F2|]. intros rb md (R1 & R2 & R3). exists (array_at 1 (pb_ptr rb) md). split.
  { unfold clip_params. rewrite R1, Hs. reflexivity. }
  unfold array_at. change (Z.of_nat 1 * 0) with 0. change (Z.of_nat 1 * 1) with 1. split.
  - rewrite <- G1. apply get_byte_ext. rewrite (R3 0) by lia. f_equal. lia.
  - rewrite <- G2. apply get_byte_ext. apply R3. lia.
Qed.

(** C83: the same of MatMul and the two zero points. *)
Theorem mm_params_whole b1 b2 enc m zl zr : enc_ready mm_enc_size enc m -> holds_int8 b1 m zl -> holds_int8 b2 m zr -> pb_ptr b2 <> pb_ptr enc ->
  exists m', mm_encode b1 b2 enc m = Some m' /\ (forall b, b < pb_ptr enc \/ pb_ptr enc + mm_enc_size <= b -> m' b = m b)
    /\ forall rb md, bytes_copied enc rb m' md -> exists pm, mm_params rb md = Some pm /\ pm 0 = Some zl /\ pm 1 = Some zr.
Proof.
  intros He (S1 & Z1 & V1) (S2 & Z2 & V2) Hne. change mm_enc_size with 2 in *.
  destruct (two_bytes enc m zl zr He (get_byte_bits _ _ _ V1) (get_byte_bits _ _ _ V2)) as (m1 & m2 & E1 & E2 & F1 & G1 & G2 & F2).
  destruct He as (Hs & Hz & _). exists m2. split.
  { unfold mm_encode, pb_read8. rewrite S1, S2, Hs, Z1, Z2. cbn [Z.add Z.eqb Pos.eqb Pos.add Pos.succ negb]. rewrite !Z.add_0_r, V1. cbn [bind]. change mm_height_dim with 0. rewrite E1. cbn [bind].
    rewrite (get_byte_ext (pb_ptr b2) (pb_ptr b2) m1 m) by (apply F1; exact Hne). rewrite V2. cbn [bind]. exact E2. }
  split; [exact F2|]. intros rb md (R1 & R2 & R3). exists (array_at 1 (pb_ptr rb) md). split.
  { unfold mm_params. rewrite R2, Hz, R1, Hs. reflexivity. }
  unfold array_at. change (Z.of_nat 1 * 0) with 0. change (Z.of_nat 1 * 1) with 1. split.
  - rewrite <- G1. apply get_byte_ext. rewrite (R3 0) by lia. f_equal. lia.
  - rewrite <- G2. apply get_byte_ext. apply R3. lia.
Qed.

(** C83: Clip of 8-bit tensors, tile by tile, from parameters that went through EncodeParams. *)
Theorem clip_encoded_whole bmin bmax enc me0 me lo hi rb md shape tile si so bi bo X (m : nat -> mem) :
  enc_ready clip_enc_size enc me0 -> holds_int8 bmin me0 lo -> holds_int8 bmax me0 hi -> pb_ptr bmax <> pb_ptr enc ->
  clip_encode bmin bmax enc me0 = Some me -> bytes_copied enc rb me md -> lb_esz bi = 1 ->
  tiling shape tile ->
  let it := tiles_iter shape tile so in let ob n := un_updates n (un_create (tiles_iter shape tile si) it bi bo) in
  (forall n, Z.of_nat n < total_count (ti_cfg it) ->
     usable (uo_tin (ob n)) (m n) /\ usable (uo_tout (ob n)) (m n) /\ unary_ok (uo_tin (ob n)) (uo_tout (ob n))
     /\ holds (m n) (uo_tin (ob n)) X (ti_pos (uo_in (ob n)))) ->
  exists pm, clip_params (lb_esz bi) rb md = Some pm
    /\ whole_result (fun n => clip_issue pm 0 (ob n) (m n)) it bo m (fun c => Z.min (Z.max (X c) lo) hi).
Proof.
  intros He H1 H2 Hne E Hc Hb Ht it ob Hr. destruct (clip_params_whole bmin bmax enc me0 lo hi He H1 H2 Hne) as (m' & E' & _ & G).
  rewrite E in E'. injection E' as <-. destruct (G rb md Hc) as (pm & P & L & R). exists pm. rewrite Hb. split; [exact P|].
  apply clip_tiles_whole; [exact Ht|exact L|exact R|exact Hr].
Qed.

(** C83: MatMul in groups of rows, from zero points that went through EncodeParams. *)
Theorem matmul_encoded_whole b1 b2 enc me0 me zl zr rb md M K N T sl sr bl br bo A B (ml mr m : nat -> mem) :
  enc_ready mm_enc_size enc me0 -> holds_int8 b1 me0 zl -> holds_int8 b2 me0 zr -> pb_ptr b2 <> pb_ptr enc ->
  mm_encode b1 b2 enc me0 = Some me -> bytes_copied enc rb me md ->
  1 <= T <= M -> M + 2 * T < 2 ^ 31 -> 1 <= K -> 3 * K < 2 ^ 31 -> 1 <= N -> 3 * N < 2 ^ 31 ->
  (forall i k, 0 <= i < M -> 0 <= k < K -> in_bits 8 (A [i; k] - zl)) -> (forall k j, 0 <= k < K -> 0 <= j < N -> in_bits 8 (B [k; j] - zr)) ->
  (forall i j k, 0 <= i < M -> 0 <= j < N -> 0 <= k <= K -> in_bits 32 (zsum 0 k (fun x => (A [i; x] - zl) * (B [x; j] - zr)))) ->
  let it := tiles_iter [M; N] [T; N] [N; 1] in let ob n := mm_updates n (mm_create (tiles_iter [M; K] [T; K] [sl; 1]) (tiles_iter [K; N] [K; N] [sr; 1]) it bl br bo) in
  (forall n, Z.of_nat n < total_count (ti_cfg it) ->
     holds (ml n) (mm_tl (ob n)) A (ti_pos (mm_left (ob n))) /\ holds (mr n) (mm_tr (ob n)) B [0; 0] /\ usable (mm_to (ob n)) (m n)) ->
  exists pm, mm_params rb md = Some pm
    /\ whole_result (fun n => mm_issue pm 0 (ob n) (ml n) (mr n) (m n)) it bo m (fun c => zsum 0 K (fun k => (A [nth 0 c 0; k] - zl) * (B [k; nth 1 c 0] - zr))).
Proof.
  intros He H1 H2 Hne E Hc HT HM HK HK3 HN HN3 HA HB Hs it ob Hr. destruct (mm_params_whole b1 b2 enc me0 zl zr He H1 H2 Hne) as (m' & E' & _ & G).
  rewrite E in E'. injection E' as <-. destruct (G rb md Hc) as (pm & P & L & R). exists pm. split; [exact P|].
  apply matmul_tiles_whole; try assumption.
Qed.

(** C83, refuted for 32-bit tensors, which the runtime object of Clip accepts: with the reported size it is never created; with eight bytes EncodeParams still writes two
    single bytes, and minimum -5 and maximum 5 are read as 1531 and 0. *)
Theorem clip_params32_refuted :
  (forall b m, pb_size b = clip_enc_size -> clip_params 4 b m = None)
  /\ exists bmin bmax enc m m' pm, clip_encode bmin bmax enc m = Some m' /\ get_obj 1 (pb_ptr bmin) m = Some (-5) /\ get_obj 1 (pb_ptr bmax) m = Some 5
       /\ clip_params 4 enc m' = Some pm /\ pm 0 = Some 1531 /\ pm 1 = Some 0.
Proof.
  split.
  - intros b m E. unfold clip_params. rewrite E. reflexivity.
  - exists (mkPbuf 8 4 1), (mkPbuf 12 4 1), (mkPbuf 0 8 1), (list_mem [0; 0; 0; 0; 0; 0; 0; 0; 251; 0; 0; 0; 5; 0; 0; 0]). eexists. eexists.
    split; [reflexivity|]. split; [reflexivity|]. split; [reflexivity|]. split; [reflexivity|]. split; reflexivity.
Qed.

(** C83, refuted: EncodeParams of MatMul is meant to reject zero point buffers of more than one byte. It accepts them; MatMul then rejects the encoded buffer. *)
Theorem mm_params_size_refuted :
  exists b1 b2 enc m m', pb_size b1 = 2 /\ pb_size b2 = 2 /\ mm_encode b1 b2 enc m = Some m' /\ mm_params enc m' = None.
Proof. exists (mkPbuf 4 2 1), (mkPbuf 6 2 1), (mkPbuf 0 4 1), (list_mem [0; 0; 0; 0; 1; 2; 3; 4]). eexists. split; [reflexivity|]. split; [reflexivity|]. split; reflexivity. Qed.

(** C83, refuted without the condition on the addresses: when the second zero point lies in the first byte of the destination, it is overwritten before it is read. *)
Theorem mm_params_alias_refuted :
  exists b1 b2 enc m m', enc_ready mm_enc_size enc m /\ holds_int8 b1 m 3 /\ holds_int8 b2 m 4 /\ mm_encode b1 b2 enc m = Some m' /\ get_obj 1 (pb_ptr enc + 1) m' = Some 3.
Proof.
  exists (mkPbuf 2 1 1), (mkPbuf 0 1 1), (mkPbuf 0 2 1), (list_mem [4; 0; 3]). eexists. split; [|split; [|split; [|split; reflexivity]]].
  - split; [reflexivity|]. split; [reflexivity|]. intros b H. cbn [pb_ptr] in H. assert (C : b = 0 \/ b = 1) by (change mm_enc_size with 2 in H; lia). destruct C as [-> | ->]; discriminate.
  - repeat split.
  - repeat split.
Qed.

(** * Weights *)

Lemma get_byte_some a m : allocated m a -> exists v, get_obj 1 a m = Some v /\ in_bits 8 v.
Proof.
  intros H. unfold allocated in H. destruct (m a) as [b|] eqn:E; [|congruence]. exists (wrap 8 (b + 256 * 0)). split; [|apply wrap_in_bits; lia].
  unfold get_obj, get_raw, load. rewrite E. reflexivity.
Qed.

Lemma copy_weights_correct wb enc n : pb_esz wb = 1 -> pb_esz enc = 1 -> forall i m,
  bytes_ok m (pb_ptr wb + i) (Z.of_nat n) -> bytes_ok m (pb_ptr enc + i) (Z.of_nat n) ->
  pb_ptr wb + i + Z.of_nat n <= pb_ptr enc + i \/ pb_ptr enc + i + Z.of_nat n <= pb_ptr wb + i ->
  exists m', copy_weights wb enc 0 n i m = Some m'
    /\ (forall k, i <= k < i + Z.of_nat n -> get_obj 1 (pb_ptr enc + k) m' = get_obj 1 (pb_ptr wb + k) m)
    /\ (forall b, b < pb_ptr enc + i \/ pb_ptr enc + i + Z.of_nat n <= b -> m' b = m b).
Proof.
  intros E1 E2. induction n as [|n IH]; intros i m Hw He Hd.
  - exists m. split; [reflexivity|]. split; [intros k Hk; lia|auto].
  - cbn [copy_weights]. unfold pb_read8, pb_write8. rewrite E1, E2. change (1 =? 1) with true. cbn iota. rewrite Z.add_0_r.
    destruct (get_byte_some (pb_ptr wb + i) m) as (v & V & Hv); [apply Hw; lia|]. rewrite V. cbn [bind].
    destruct (put_obj_get 1 (pb_ptr enc + i) v m) as (m1 & P & G & F & A); [lia|intros b Hb; apply He; lia|exact Hv|]. rewrite P. cbn [bind].
    destruct (IH (i + 1) m1) as (m' & C & R & Fr).
    + intros b Hb. apply A, Hw. lia.
    + intros b Hb. apply A, He. lia.
    + lia.
    + exists m'. split; [exact C|]. split.
      * intros k Hk. destruct (Z.eq_dec k i) as [->|Hne].
        -- rewrite V, <- G. apply get_byte_ext. apply Fr. lia.
        -- rewrite R by lia. apply get_byte_ext. apply F. lia.
      * intros b Hb. rewrite Fr by lia. apply F. lia.
Qed.

(** C77: EncodeWeights, for a tensor at the start of its buffer and a destination that does not overlap it: every 8-bit weight is read in the destination at the place
    where it is in the source, and nothing else is changed. *)
Theorem weights_encoded wb enc m : 0 <= pb_size wb -> pb_size enc = pb_size wb -> pb_esz wb = 1 -> pb_esz enc = 1 ->
  bytes_ok m (pb_ptr wb) (pb_size wb) -> bytes_ok m (pb_ptr enc) (pb_size wb) -> pb_ptr wb + pb_size wb <= pb_ptr enc \/ pb_ptr enc + pb_size wb <= pb_ptr wb ->
  exists m', encode_weights wb enc 0 m = Some (ENC_OK, m')
    /\ (forall k, 0 <= k < pb_size wb -> exists w, get_obj 1 (pb_ptr wb + k) m = Some w /\ get_obj 1 (pb_ptr enc + k) m' = Some w)
    /\ (forall b, b < pb_ptr enc \/ pb_ptr enc + pb_size wb <= b -> m' b = m b).
Proof.
  intros Hn Hs E1 E2 Hw He Hd.
  destruct (copy_weights_correct wb enc (Z.to_nat (pb_size wb)) E1 E2 0 m) as (m' & C & R & F); rewrite ?Z.add_0_r, ?Z2Nat.id by lia; try assumption.
  rewrite ?Z.add_0_r, ?Z2Nat.id in R, F by lia.
  exists m'. split; [unfold encode_weights; rewrite Hs, E1, Z.eqb_refl; change (1 =? 1) with true; cbn [negb]; rewrite C; reflexivity|]. split; [|intros b Hb; apply F; lia].
  intros k Hk. destruct (get_byte_some (pb_ptr wb + k) m) as (w & W & _); [apply Hw; lia|]. exists w. split; [exact W|]. rewrite R by lia. exact W.
Qed.

(** C77: so a tensor of weights whose elements lie in the buffer holds, in the encoded bytes, the elements it held in the source, whatever its shape and strides: the form
    in which the theorems on convolutions take their weights. *)
Theorem weights_encoded_holds wb enc m m' t W off : 0 <= pb_size wb -> pb_size enc = pb_size wb -> pb_esz wb = 1 -> pb_esz enc = 1 ->
  bytes_ok m (pb_ptr wb) (pb_size wb) -> bytes_ok m (pb_ptr enc) (pb_size wb) -> pb_ptr wb + pb_size wb <= pb_ptr enc \/ pb_ptr enc + pb_size wb <= pb_ptr wb ->
  encode_weights wb enc 0 m = Some (ENC_OK, m') ->
  (forall c, valid (t_shape t) c -> 0 <= t_data t + addr (t_stride t) c < pb_size wb) ->
  holds (array_at 1 (pb_ptr wb) m) t W off -> holds (array_at 1 (pb_ptr enc) m') t W off.
Proof.
  intros Hn Hs E1 E2 Hw He Hd E Hin H c Hc. destruct (weights_encoded wb enc m Hn Hs E1 E2 Hw He Hd) as (m1 & E' & R & _). rewrite E in E'. injection E' as <-.
  rewrite <- (H c Hc). unfold array_at. rewrite Z.mul_1_l. destruct (R _ (Hin c Hc)) as (w & -> & ->). reflexivity.
Qed.

(** C77: the destination must have the size of the source, and weights of other element sizes are refused with nothing written. *)
Theorem weights_refused wb enc off m : (pb_size enc <> pb_size wb -> encode_weights wb enc off m = None)
  /\ (pb_size enc = pb_size wb -> pb_esz wb <> 1 -> encode_weights wb enc off m = Some (ENC_NOT_SUPPORTED, m)).
Proof.
  unfold encode_weights. split.
  - intros H. destruct (Z.eqb_spec (pb_size wb) (pb_size enc)); [congruence|reflexivity].
  - intros -> H. rewrite Z.eqb_refl. cbn [negb]. destruct (Z.eqb_spec (pb_esz wb) 1); [congruence|reflexivity].
Qed.

(** C77, refuted for a tensor that starts inside its buffer (a slice): as many bytes as the whole buffer are read from that place on, beyond its end. Here a buffer of two bytes
    and a tensor at the second: outside memory is read, or, if there is memory behind the buffer, its content is encoded. *)
Theorem weights_view_refuted :
  (exists wb enc m, bytes_ok m (pb_ptr wb) (pb_size wb) /\ bytes_ok m (pb_ptr enc) (pb_size wb) /\ pb_size enc = pb_size wb /\ pb_esz wb = 1 /\ pb_esz enc = 1
     /\ encode_weights wb enc 1 m = None)
  /\ exists wb enc m m', pb_size wb = 2 /\ pb_ptr wb = 2 /\ m 4 = Some 77 /\ encode_weights wb enc 1 m = Some (ENC_OK, m') /\ m' (pb_ptr enc + 1) = Some 77.
Proof.
  split.
  - exists (mkPbuf 2 2 1), (mkPbuf 0 2 1), (list_mem [0; 0; 5; 6]). cbn [pb_ptr pb_size pb_esz].
    split; [intros b H; assert (C : b = 2 \/ b = 3) by lia; destruct C as [-> | ->]; discriminate|].
    split; [intros b H; assert (C : b = 0 \/ b = 1) by lia; destruct C as [-> | ->]; discriminate|]. repeat split.
  - exists (mkPbuf 2 2 1), (mkPbuf 0 2 1), (list_mem [0; 0; 5; 6; 77]). eexists. split; [reflexivity|]. split; [reflexivity|]. split; [reflexivity|]. split; reflexivity.
Qed.

(** * Non-vacuity *)

(** Three weights at bytes 3 to 5, encoded at bytes 0 to 2. *)
Example weights_encoded_ex : let m := list_mem [9; 9; 9; 5; 251; 7] in bytes_ok m 3 3 /\ bytes_ok m 0 3
  /\ exists m', encode_weights (mkPbuf 3 3 1) (mkPbuf 0 3 1) 0 m = Some (ENC_OK, m') /\ map (rd m') [0; 1; 2; 3; 4; 5] = [5; 251; 7; 5; 251; 7].
Proof.
  cbv zeta. split; [intros b H; assert (C : b = 3 \/ b = 4 \/ b = 5) by lia; destruct C as [-> | [-> | ->]]; discriminate|].
  split; [intros b H; assert (C : b = 0 \/ b = 1 \/ b = 2) by lia; destruct C as [-> | [-> | ->]]; discriminate|]. eexists. split; reflexivity.
Qed.

(** Minimum -5 and maximum 7 at bytes 2 and 3, encoded at bytes 0 and 1, and read there. *)
Definition eox_mem : mem := list_mem [0; 0; 251; 7].

Example clip_params_ex : enc_ready clip_enc_size (mkPbuf 0 2 1) eox_mem /\ holds_int8 (mkPbuf 2 1 1) eox_mem (-5) /\ holds_int8 (mkPbuf 3 1 1) eox_mem 7
  /\ exists me, clip_encode (mkPbuf 2 1 1) (mkPbuf 3 1 1) (mkPbuf 0 2 1) eox_mem = Some me /\ map (rd me) [0; 1; 2; 3] = [251; 7; 251; 7] /\ bytes_copied (mkPbuf 0 2 1) (mkPbuf 0 2 1) me me.
Proof.
  split; [|split; [|split]].
  - split; [reflexivity|]. split; [reflexivity|]. intros b H. cbn [pb_ptr] in H. assert (C : b = 0 \/ b = 1) by (change clip_enc_size with 2 in H; lia). destruct C as [-> | ->]; discriminate.
  - repeat split.
  - repeat split.
  - eexists. split; [reflexivity|]. split; [reflexivity|]. split; [reflexivity|]. split; reflexivity.
Qed.

(** The zero points 1 and 2 encoded, and the product of [matmul_ex] with them. *)
Example mm_params_ex : let m0 := list_mem [0; 0; 1; 2] in let it := tiles_iter [3; 2] [2; 2] [2; 1] in
  let ob n := mm_updates n (mm_create (tiles_iter [3; 2] [2; 2] [2; 1]) (tiles_iter [2; 2] [2; 2] [2; 1]) it (mkLb 0 4 1) (mkLb 0 4 1) (mkLb 0 16 4)) in
  enc_ready mm_enc_size (mkPbuf 0 2 1) m0 /\ holds_int8 (mkPbuf 2 1 1) m0 1 /\ holds_int8 (mkPbuf 3 1 1) m0 2
  /\ exists me pm, mm_encode (mkPbuf 2 1 1) (mkPbuf 3 1 1) (mkPbuf 0 2 1) m0 = Some me /\ mm_params (mkPbuf 0 2 1) me = Some pm
    /\ map (fun n => do m' <- mm_issue pm 0 (ob n) (list_mem (px_vals n)) (list_mem [0; 1; 10; 11]) (list_mem [9; 9; 9; 9]); Some (map (rd m') [0; 1; 2; 3])) [0%nat; 1%nat]
       = [Some [2; 1; 62; 81]; Some [122; 161; 9; 9]].
Proof.
  cbv zeta. split; [|split; [|split]].
  - split; [reflexivity|]. split; [reflexivity|]. intros b H. cbn [pb_ptr] in H. assert (C : b = 0 \/ b = 1) by (change mm_enc_size with 2 in H; lia). destruct C as [-> | ->]; discriminate.
  - repeat split.
  - repeat split.
  - eexists. eexists. split; [reflexivity|]. split; [reflexivity|]. vm_compute. reflexivity.
Qed.

(** The same weights as a tensor of one row. *)
Example weights_holds_ex : let m := list_mem [9; 9; 9; 5; 251; 7] in let t := mkTensor 0 3 1 [1; 3] [3; 1] false (-1) 0 in
  (forall c, valid (t_shape t) c -> 0 <= t_data t + addr (t_stride t) c < 3) /\ holds (array_at 1 3 m) t (fun c => nth (Z.to_nat (nth 1 c 0)) [5; -5; 7] 0) [0; 0].
Proof.
  cbv zeta. split; intros [|x [|y [|]]] V; cbn [t_shape valid] in V; try tauto; destruct V as (Hx & Hy & _); assert (x = 0) as -> by lia;
    assert (C : y = 0 \/ y = 1 \/ y = 2) by lia; destruct C as [-> | [-> | ->]]; (reflexivity || (cbn; lia)).
Qed.
