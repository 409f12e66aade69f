(** The MLI 3.0 fully connected operator from encoding to the result, and the sizes of buffers. *)
From Coq Require Import ZArith List Lia Bool.
From Verif Require Import Base FxMath FxMathProofs Tensor TensorProofs Permute PermuteProofs Mov MovProofs ArgMax Quant QuantProofs DotProd DotProdProofs Layout Conv FullyConn FullyConnProofs
  Iter TileRun TileElt TilePoint Encode EncodeProofs FcRun PoolKernels.
Import ListNotations.
Open Scope Z_scope.

(** * Buffer sizes *)

(** Sum of stride * (size - 1) over all dimensions: the offset of the last element. *)
Fixpoint last_offset (shape stride : list Z) : Z := match shape, stride with d :: sh, s :: st => s * (d - 1) + last_offset sh st | _, _ => 0 end.

Lemma uwrap_small x : 0 <= x < 2 ^ 32 -> uwrap 32 x = x.
Proof. intros H. unfold uwrap. apply Z.mod_small. lia. Qed.

Lemma last_offset_nonneg shape : forall stride, Forall (fun d => 1 <= d) shape -> Forall (fun s => 0 <= s) stride -> 0 <= last_offset shape stride.
Proof.
  induction shape as [|d sh IH]; intros [|s st] Hd Hs; cbn [last_offset]; try lia. inversion Hd; inversion Hs; subst. specialize (IH st ltac:(assumption) ltac:(assumption)). nia.
Qed.

Lemma dims_pos shape : Forall (fun d => 1 <= d < 2 ^ 32) shape -> Forall (fun d => 1 <= d) shape.
Proof. apply Forall_impl. intros d H. lia. Qed.

Lemma buf_sum_val shape : forall stride, Forall (fun d => 1 <= d < 2 ^ 32) shape -> Forall (fun s => 0 <= s) stride -> last_offset shape stride < 2 ^ 32 ->
  buf_sum shape stride = last_offset shape stride.
Proof.
  induction shape as [|d sh IH]; intros [|s st] Hd Hs H; cbn [last_offset buf_sum] in *; try reflexivity. inversion Hd as [|? ? Q1 H2]; inversion Hs as [|? ? Q3 H4]; subst.
  assert (N := last_offset_nonneg sh st (dims_pos _ H2) H4). assert (P : 0 <= s * (d - 1)) by (apply Z.mul_nonneg_nonneg; lia).
  rewrite IH by (try assumption; lia). rewrite (uwrap_small (d - 1)) by lia. rewrite (uwrap_small (s * (d - 1))) by lia. rewrite uwrap_small by lia. lia.
Qed.

Lemma last_offset_bound shape : forall stride, length shape = length stride -> Forall (fun d => 1 <= d) shape -> Forall (fun s => 0 <= s) stride ->
  (forall c, valid shape c -> 0 <= addr stride c <= last_offset shape stride) /\ exists c, valid shape c /\ addr stride c = last_offset shape stride.
Proof.
  induction shape as [|d sh IH]; intros [|s st] L Hd Hs; cbn [length] in L; try discriminate.
  - split; [intros [|x c] V; cbn in V; [cbn; lia|contradiction]|]. exists []. split; [exact I|reflexivity].
  - inversion Hd; inversion Hs; subst. destruct (IH st ltac:(lia) ltac:(assumption) ltac:(assumption)) as (B & c & V & E). split.
    + intros [|x c'] V'; cbn [valid] in V'; [contradiction|]. destruct V' as [Hx V']. specialize (B c' V'). cbn [addr last_offset]. nia.
    + exists (d - 1 :: c). cbn [valid addr last_offset]. split; [split; [lia|exact V]|]. rewrite E. lia.
Qed.

(** C79: for strides that are not negative, GetBufferSize reports exactly the elements needed: every element of the tensor lies inside a buffer of this size, and the last one at its end. *)
Theorem buf_size_exact shape stride : length shape = length stride -> Forall (fun d => 1 <= d < 2 ^ 32) shape -> Forall (fun s => 0 <= s) stride ->
  last_offset shape stride + 1 < 2 ^ 32 ->
  (forall c, valid shape c -> 0 <= addr stride c < buf_size shape stride) /\ exists c, valid shape c /\ addr stride c = buf_size shape stride - 1.
Proof.
  intros L Hd Hs H. assert (Hd' : Forall (fun d => 1 <= d) shape) by exact (dims_pos _ Hd).
  assert (N := last_offset_nonneg shape stride Hd' Hs). unfold buf_size. rewrite buf_sum_val by (try assumption; lia). rewrite uwrap_small by lia.
  destruct (last_offset_bound shape stride L Hd' Hs) as (B & c & V & E). split; [intros c' V'; specialize (B c' V'); lia|]. exists c. split; [exact V|lia].
Qed.

Lemma uwrap_mod x : uwrap 32 x = x mod 2 ^ 32.
Proof. reflexivity. Qed.

Lemma prod_cons d sh : prod (d :: sh) = d * prod sh.
Proof. reflexivity. Qed.

Lemma buf_dense_val shape : Forall (fun d => 1 <= d < 2 ^ 32) shape ->
  fst (buf_dense_loop shape) = (prod shape - 1) mod 2 ^ 32 /\ (snd (buf_dense_loop shape) - prod shape) mod 2 ^ 32 = 0.
Proof.
  induction shape as [|d sh IH]; intros H; [split; reflexivity|]. inversion H as [|? ? H1 H2]; subst. destruct (IH H2) as [E1 E2]. cbn [buf_dense_loop].
  destruct (buf_dense_loop sh) as [r s]. cbn [fst snd] in *. rewrite prod_cons. set (P := prod sh) in *. rewrite (uwrap_small (d - 1)) by lia.
  assert (Es : exists k, s = P + 2 ^ 32 * k) by (exists ((s - P) / 2 ^ 32); pose proof (Z.div_mod (s - P) (2 ^ 32) ltac:(lia)); lia). destruct Es as (k & ->). split.
  - rewrite E1, !uwrap_mod. rewrite Zplus_mod_idemp_l, Zplus_mod_idemp_r.
    replace (P - 1 + (P + 2 ^ 32 * k) * (d - 1)) with (d * P - 1 + (k * (d - 1)) * 2 ^ 32) by ring. apply Z_mod_plus_full.
  - unfold wrap. change (2 ^ (32 - 1)) with (2 ^ 31). set (y := (P + 2 ^ 32 * k) * d + 2 ^ 31). pose proof (Z.div_mod y (2 ^ 32) ltac:(lia)) as Q.
    replace (y mod 2 ^ 32 - 2 ^ 31 - d * P) with ((k * d - y / 2 ^ 32) * 2 ^ 32) by (unfold y in *; lia). apply Z_mod_mult.
Qed.

(** C79: without strides it reports the number of elements. *)
Theorem buf_dense_exact shape : Forall (fun d => 1 <= d < 2 ^ 32) shape -> prod shape < 2 ^ 32 -> buf_dense shape = prod shape.
Proof.
  intros H HP. destruct (buf_dense_val shape H) as [E _]. unfold buf_dense. rewrite E.
  assert (P : 1 <= prod shape) by (clear E HP; induction shape as [|d sh IH]; [cbn; lia|rewrite prod_cons; inversion H; subst; specialize (IH ltac:(assumption)); nia]).
  rewrite Z.mod_small by lia. rewrite uwrap_small by lia. lia.
Qed.

(** With a negative stride (mirrored data) or more than 2^32 - 1 elements the reported size is too small: 0 in both cases. *)
Theorem buf_size_negative_refuted : buf_size [2] [-1] = 0 /\ buf_size [65536; 65536] [65536; 1] = 0 /\ buf_dense [65536; 65536] = 0.
Proof. vm_compute. auto. Qed.

Example buf_size_case : Forall (fun d => 1 <= d < 2 ^ 32) [3; 4; 5] /\ last_offset [3; 4; 5] [100; 10; 2] + 1 < 2 ^ 32 /\ buf_size [3; 4; 5] [100; 10; 2] = 239 /\ buf_dense [3; 4; 5] = 60.
Proof. split; [repeat (apply Forall_cons; [lia|]); apply Forall_nil|]. vm_compute. auto. Qed.

(** * Fully connected *)

(** The product of one row with the matrix of rows of length [s]: the weights minus their zero point. *)
Definition fc_exact (ic s : Z) (x : Z -> Z) (w : list Z) (z0 o : Z) : Z := zsum 0 ic (fun k => x k * (val_at w (s * k + o) - z0)).

(** The zero points for which the operator works: a single one that is not negative, with a zero byte behind it, or zeros for all channels. *)
Definition zp_works (z : list Z) (z0 oc : Z) (za : Z) (mw : mem) : Prop :=
  (z = [z0] /\ 0 <= z0 <= 127 /\ mw (za + 1) = Some 0) \/ (z0 = 0 /\ 2 <= oc /\ z = repeat 0 (Z.to_nat oc)).

Lemma get1 a m v : get_obj 1 a m = Some v -> in_bits 8 v -> exists u, m a = Some u /\ wrap 8 u = v.
Proof.
  unfold get_obj, get_raw, load. destruct (m a) as [u|]; [|discriminate]. cbn [bind]. intros E _. exists u. split; [reflexivity|].
  replace (u + 256 * 0) with u in E by lia. change (8 * Z.of_nat 1) with 8 in E. congruence.
Qed.

Lemma put_byte vals off m m' e : put_all 1 vals (off, m) = Some (e, m') -> forall k, 0 <= k < Z.of_nat (length vals) -> m' (off + k) = Some (val_at vals k mod 256).
Proof.
  revert off m. induction vals as [|v tl IH]; intros off m E k Hk; cbn [length] in Hk; [lia|].
  cbn [put_all put_obj fst snd] in E. unfold store in E. destruct (m off) as [u|]; [|discriminate]. cbn [bind] in E. change (Z.of_nat 1) with 1 in E.
  destruct (Z.eq_dec k 0) as [-> | Hk0].
  - rewrite Z.add_0_r. change (val_at (v :: tl) 0) with v.
    assert (G : forall l o M M' e', put_all 1 l (o, M) = Some (e', M') -> forall b, b < o -> M' b = M b).
    { clear. induction l as [|v l IH]; intros o M M' e' E b Hb; cbn [put_all put_obj fst snd] in E; [congruence|]. unfold store in E. destruct (M o) as [u|]; [|discriminate]. cbn [bind] in E. change (Z.of_nat 1) with 1 in E.
      rewrite (IH _ _ _ _ E b ltac:(lia)). destruct (Z.eqb_spec b o); [lia|reflexivity]. }
    rewrite (G _ _ _ _ _ E off ltac:(lia)). rewrite Z.eqb_refl. reflexivity.
  - replace (off + k) with (off + 1 + (k - 1)) by lia. rewrite (IH _ _ E (k - 1)) by lia. f_equal. f_equal. unfold val_at. replace (Z.to_nat k) with (S (Z.to_nat (k - 1))) by lia. reflexivity.
Qed.

(** C78: encoding weights and zero points, copying the encoded bytes to the local buffer (with two bytes of room per zero point), creating the runtime object and issuing it computes for every
    output channel the exact sum over the input channels of input times (weight minus zero point), and writes nothing else. *)
Theorem fc_encoded_whole rm full zi oq ic oc si s so b w z z0 a me0 me mi mw m : 1 <= ic -> 1 <= oc <= s -> s * ic < 2 ^ 31 ->
  let c := mkFc ([1; ic], [si; 1]) ([ic; oc], [s; 1]) (Z.of_nat (length z)) ([1; oc], [so; 1]) in
  Z.of_nat (length w) = buf_size [ic; oc] [s; 1] -> Forall (in_bits 8) w ->
  let nw := Z.of_nat (length w) in let nz := Z.of_nat (length z) in
  bytes_ok me0 a (nw + nz) -> encode_weights_zp 1 1 1 (nw + nz) w z a me0 = Some (ENC_OK, me) ->
  (forall k, 0 <= k < nw + nz -> mw (fb_w b + k) = me (a + k)) -> fb_wsize b = nw + 2 * nz -> zp_works z z0 oc (fb_w b + nw) mw ->
  exists o, fc_create c b mw = Some o
  /\ (usable (fo_in o) mi -> usable (fo_w o) (array_at 1 0 mw) -> usable (fo_out o) m -> mem_bits 8 mi -> ic * (2 * 2 ^ 14) <= smax 32 ->
      exists m', fc_issue rm full zi oq o mi mw m = Some m'
      /\ (forall j, 0 <= j < oc -> m' (fb_out b + j) = Some (fc_exact ic s (fun k => rd mi (fb_in b + k)) w z0 j))
      /\ (forall x, ~ (fb_out b <= x < fb_out b + oc) -> m' x = m x)).
Proof.
  intros Hic Hoc Hs c Lw Fw nw nz Ha He Hc Hsz Hz.
  assert (EB : buf_size [ic; oc] [s; 1] = s * (ic - 1) + oc).
  { unfold buf_size. assert (P : 0 <= s * (ic - 1)) by nia. assert (LO : last_offset [ic; oc] [s; 1] = s * (ic - 1) + oc - 1) by (cbn [last_offset]; lia).
    rewrite buf_sum_val; [|repeat (apply Forall_cons; [nia|]); apply Forall_nil|repeat (apply Forall_cons; [lia|]); apply Forall_nil|lia]. rewrite LO, uwrap_small by lia. lia. }
  fold nw in Lw. rewrite EB in Lw.
  assert (Fz : Forall (in_bits 8) z).
  { destruct Hz as [(-> & Hz & _)|(-> & _ & ->)]; [apply Forall_cons; [apply ib8; lia|apply Forall_nil]|]. apply Forall_forall. intros v Hv. apply repeat_spec in Hv. subst v. apply ib8. lia. }
  assert (Nz : 1 <= nz /\ (nz = 1 \/ nz = oc)).
  { unfold nz. destruct Hz as [(-> & _)|(-> & H2 & ->)]; [cbn [length]; lia|]. rewrite repeat_length, Z2Nat.id by lia. lia. }
  assert (Hw : forall k, 0 <= k < nw -> get_obj 1 (fb_w b + k) mw = Some (val_at w k)).
  { intros k Hk. destruct (weights_zp_encoded w z a me0 Fw Fz Ha) as (me' & E & G & _). fold nw nz in E, G. assert (me' = me) by congruence. subst me'.
    rewrite <- (G k Hk). apply get_obj_ext. intros j Hj. replace (fb_w b + k + j) with (fb_w b + (k + j)) by lia. rewrite Hc by lia. f_equal. lia. }
  assert (Hzb : forall k, 0 <= k < nz -> mw (fb_w b + nw + k) = Some (val_at z k mod 256)).
  { intros k Hk. replace (fb_w b + nw + k) with (fb_w b + (nw + k)) by lia. rewrite Hc by lia. unfold encode_weights_zp in He. fold nw nz in He.
    replace (1 * nw + 1 * nz =? nw + nz) with true in He by (symmetry; apply Z.eqb_eq; lia). cbn [negb andb Z.eqb Pos.eqb] in He.
    destruct (put_all_correct 1 ltac:(lia) w a me0) as (m1 & E1 & _); [intros x Hx; fold nw in Hx; apply Ha; lia|exact Fw|]. rewrite E1 in He. cbn [bind] in He. fold nw in He. change (Z.of_nat 1) with 1 in He.
    destruct (put_all 1 z (a + 1 * nw, m1)) as [[e m2]|] eqn:E2; [|discriminate]. cbn [bind snd] in He. assert (m2 = me) by congruence. subst m2.
    rewrite <- (put_byte _ _ _ _ _ E2 k) by (fold nz; lia). f_equal. lia. }
  assert (HZ : get_obj 2 (fb_w b + nw) mw = Some z0).
  { unfold get_obj, get_raw, load. destruct Hz as [(-> & Hz & B)|(-> & H2 & ->)].
    - specialize (Hzb 0 ltac:(unfold nz; cbn; lia)). rewrite Z.add_0_r in Hzb. rewrite Hzb. cbn [bind]. rewrite B. cbn [bind]. change (val_at [z0] 0) with z0. rewrite Z.mod_small by lia.
      replace (z0 + 256 * (0 + 256 * 0)) with z0 by lia. change (8 * Z.of_nat 2) with 16. rewrite wrap_id; [reflexivity|lia|apply ib16; lia].
    - assert (H0 := Hzb 0 ltac:(unfold nz; rewrite repeat_length; lia)). assert (H1 := Hzb 1 ltac:(unfold nz; rewrite repeat_length; lia)). rewrite Z.add_0_r in H0. rewrite H0. cbn [bind]. rewrite H1. cbn [bind].
      unfold val_at. rewrite !nth_repeat. reflexivity. }
  set (tin := mkTensor (fb_in b) (fb_isize b) 1 [1; ic] [si; 1] true (-1) 0). set (tout := mkTensor (fb_out b) (fb_osize b) 4 [1; oc] [so; 1] true (-1) 0).
  set (tw ax := mkTensor (fb_w b) (fb_wsize b) 1 [ic; oc] [s; 1] true ax 0).
  assert (HC : exists ax zp, fc_create c b mw = Some (mkFo tin (tw ax) tout zp) /\ match zp with inl v => v = z0 | Datatypes.inr ad => ad = fb_w b + nw end).
  { unfold fc_create, c. cbn [fc_in fc_w fc_out fc_nz fst snd nth]. rewrite !Z.eqb_refl. cbn [andb negb]. rewrite EB, <- Lw. fold nz. rewrite Hsz. destruct (Z.ltb_spec (nw + 2 * nz) nw); [lia|].
    replace (nw + 2 * nz - nw) with (2 * nz) by lia. replace (2 * nz / 2) with nz by (symmetry; rewrite Z.mul_comm; apply Z.div_mul; lia). rewrite <- Hsz.
    destruct Nz as (N1 & N2). destruct (Z.eqb_spec nz 1) as [E1|E1].
    - destruct (Z.ltb_spec 1 nz); [lia|]. change (-1 =? -1) with true. cbn match. rewrite HZ. cbn [bind]. exists (-1), (inl z0). split; reflexivity.
    - destruct (Z.ltb_spec 1 nz); [|lia]. destruct (Z.eqb_spec oc nz); [|lia]. change (1 =? 1) with true. cbn match. exists 1, (Datatypes.inr (fb_w b + nw)). split; reflexivity. }
  destruct HC as (ax & zp & -> & Hzp). exists (mkFo tin (tw ax) tout zp). split; [reflexivity|]. cbn [fo_in fo_w fo_out]. intros (Fi & Ci & Bi) (Fw' & Cw & Bw) (Fo & Co & Bo) Mi HB.
  assert (Iz : in_bits 8 z0) by (destruct Hz as [(_ & Hz & _)|(-> & _)]; apply ib8; lia).
  destruct (fully_connected_int_correct rm full zi z0 oq RELU_NONE mi (array_at 1 0 mw) m tin (tw ax) tout) as (m' & E & V & Fr); try assumption.
  - exists ic, oc. repeat (split; [reflexivity|]). split; [exact Ci|]. split; [exact Cw|exact Co].
  - apply (array_bits 1). lia.
  - exists m'. split; [|split].
    + unfold fc_issue. cbn [fo_zp fo_in fo_w fo_out]. destruct zp as [v|ad]; subst; [exact E|]. rewrite HZ. exact E.
    + intros j Hj. specialize (V j). assert (Hv : valid (t_shape tout) [0; j]) by (cbn; lia). specialize (V Hv). unfold tout in V at 1 2. cbn [t_data t_stride addr] in V.
      replace (fb_out b + (so * 0 + (1 * j + 0))) with (fb_out b + j) in V by lia. rewrite V. f_equal. unfold fc_int_sum, fc_exact. match goal with |- zsum 0 ?n _ = _ => change n with ic end. apply zsum_ext. intros k Hk.
      unfold at2, tin, tw. cbn [t_data t_stride addr]. replace (fb_in b + (si * 0 + (1 * k + 0))) with (fb_in b + k) by lia. replace (fb_w b + (s * k + (1 * j + 0))) with (fb_w b + (s * k + j)) by lia.
      f_equal. f_equal. unfold rd, array_at. change (Z.of_nat 1) with 1. replace (0 + 1 * (fb_w b + (s * k + j))) with (fb_w b + (s * k + j)) by lia. 
      assert (P1 : s * k <= s * (ic - 1)) by (apply Z.mul_le_mono_nonneg_l; lia). assert (P2 : 0 <= s * k) by (apply Z.mul_nonneg_nonneg; lia). rewrite Hw by lia. reflexivity.
    + intros x Hx. apply Fr. intros c' V' E'. unfold tout in V', E'. cbn [t_data t_shape t_stride] in V', E'. destruct c' as [|p [|q [|]]]; cbn [valid] in V'; try tauto. cbn [addr] in E'. assert (p = 0) by lia. subst p. lia.
Qed.

(** * What the encoding loses *)

(** A memory with the given bytes at [a]. *)
Definition fc_bytes (a : Z) (l : list Z) : mem := fun x => if (a <=? x) && (x <? a + Z.of_nat (length l)) then Some (val_at l (x - a)) else None.

(** Two input channels and two output channels. *)
Definition fc_ex (nz : Z) : fc_cs := mkFc ([1; 2], [2; 1]) ([2; 2], [2; 1]) nz ([1; 2], [2; 1]).
Definition fc_exb (wsize : Z) : fc_bufs := mkFb 0 100 wsize 0 2 8.
Definition fc_mi : mem := list_mem [3; -5].
Definition fc_mo : mem := list_mem [0; 0].
Definition fc_w_ex : list Z := [1; 2; 3; 4].

(** Memory after encoding into a buffer of zero bytes at 100, which is used as the local buffer. *)
Definition fc_enc (z : list Z) : option mem := do r <- encode_weights_zp 1 1 1 (4 + Z.of_nat (length z)) fc_w_ex z 100 (fc_bytes 100 (repeat 0 8)); Some (snd r).

Definition fc_run (z : list Z) (wsize : Z) : option (option Z * option Z) :=
  do me <- fc_enc z; do o <- fc_create (fc_ex (Z.of_nat (length z))) (fc_exb wsize) me;
  do m <- fc_issue RM_UP false 0 (mkQ 1 0 0) o fc_mi me fc_mo; Some (m 0, m 1).

(** C78: outside that condition the result is another one: a negative zero point -1 acts as 255; zero points per channel [1; 1] act as 257; and a buffer of exactly the encoded size is refused. *)
Theorem fc_zero_points_refuted :
  fc_run [-1] 6 = Some (Some (3 * (1 - 255) - 5 * (3 - 255)), Some (3 * (2 - 255) - 5 * (4 - 255)))
  /\ fc_run [1; 1] 8 = Some (Some (3 * (1 - 257) - 5 * (3 - 257)), Some (3 * (2 - 257) - 5 * (4 - 257)))
  /\ (exists me, fc_enc [1] = Some me /\ fc_create (fc_ex 1) (fc_exb 5) me = None).
Proof. split; [vm_compute; reflexivity|]. split; [vm_compute; reflexivity|]. eexists. split; reflexivity. Qed.

Example fc_encoded_case : exists me, fc_enc [7] = Some me /\ zp_works [7] 7 2 104 me /\ Z.of_nat (length fc_w_ex) = buf_size [2; 2] [2; 1] /\ fb_wsize (fc_exb 6) = 4 + 2 * 1
  /\ (exists o, fc_create (fc_ex 1) (fc_exb 6) me = Some o /\ usable (fo_in o) fc_mi /\ usable (fo_w o) (array_at 1 0 me) /\ usable (fo_out o) fc_mo)
  /\ fc_run [7] 6 = Some (Some (3 * (1 - 7) - 5 * (3 - 7)), Some (3 * (2 - 7) - 5 * (4 - 7))).
Proof.
  eexists. split; [reflexivity|]. split; [left; split; [reflexivity|]; split; [lia|reflexivity]|]. split; [reflexivity|]. split; [reflexivity|].
  split; [|vm_compute; reflexivity]. eexists. split; [reflexivity|]. cbn [fo_in fo_w fo_out].
  split; [split; [fits32_tac|split; [reflexivity|]; apply list_backed; cbn; lia]|]. split; [|split; [fits32_tac|split; [reflexivity|]]].
  2: { intros k Hk Hc. cbn [t_data t_cap t_esz fc_exb fb_out fb_osize] in *. assert (Ek : k = 0 \/ k = 1) by lia. destruct Ek as [-> | ->]; vm_compute; discriminate. }
  split; [fits32_tac|]. split; [reflexivity|]. intros k Hk Hc. cbn [t_data t_cap t_esz fc_exb fb_w fb_wsize] in *.
  assert (Ek : k = 0 \/ k = 1 \/ k = 2 \/ k = 3 \/ k = 4 \/ k = 5) by lia. destruct Ek as [-> | [-> | [-> | [-> | [-> | ->]]]]]; vm_compute; discriminate.
Qed.
