(** Tile-by-tile execution of the MLI 3.0 convolution computes the convolution of the whole tensors (property C68). *)
From Coq Require Import ZArith List Lia Bool.
From Verif Require Import Base FxMath FxMathProofs Tensor TensorProofs MovProofs Quant QuantProofs DotProd DotProdProofs ArgMax Permute PermuteProofs
  Layout Pool PoolProofs PoolKernels Conv ConvSpec ConvProofs ConvValues ConvKernels ConvTheorems ConvInt Iter IterProofs IterTheorems TileRun TileProofs.
Import ListNotations.
Open Scope Z_scope.

(** * Tensors in buffers *)

(** A tensor that the checkers accept, in an allocated buffer, with contiguous channels. *)
Definition legal (t : tensor) (m : mem) : Prop := fits32 t /\ chk_tensor t = ST_OK /\ inner_stride_is_one t = true /\ backed t m.

Lemma legal_smaller t m sh : legal t m -> smaller sh (t_shape t) -> legal (with_shape t sh) m.
Proof.
  intros (F & C & I & Bk) Hs. destruct (chk_tensor_smaller t (with_shape t sh) F C Hs eq_refl eq_refl eq_refl) as [F' C'].
  split; [exact F'|]. split; [exact C'|]. split; [|exact Bk].
  assert (Ln : length sh = length (t_shape t)) by (clear - Hs; induction Hs; cbn; auto).
  unfold inner_stride_is_one, with_shape in *. cbn [t_shape t_stride]. rewrite Ln. exact I.
Qed.

(** * The problem *)

(** Sizes: input [hi] x [wi] x [ci], kernel [kh] x [kw], output [ho] x [wo] x [co], cut into tiles of [th] x [tw] x [tc]. *)
Record conv_dims := mkCd { d_hi : Z; d_wi : Z; d_ci : Z; d_kh : Z; d_kw : Z; d_ho : Z; d_wo : Z; d_co : Z; d_th : Z; d_tw : Z; d_tc : Z }.

(** The whole convolution at output (H, W, oc): [X r c ch] is the input, [Kf kr kc ic oc] the weights; the input is extended by the
    zero point [zi] on all sides. *)
Definition conv_whole (d : conv_dims) (c : conv_cfg) (zi : Z) (X : Z -> Z -> Z -> Z) (Kf : Z -> Z -> Z -> Z -> Z) (H W oc : Z) : Z :=
  taps (d_hi d) (d_wi d) (d_kh d) (d_kw d) (H * cv_sh c - cv_top c) (W * cv_sw c - cv_left c) (cv_dh c) (cv_dw c)
    (fun kr kc => zsum 0 (d_ci d) (fun ic => X (tap_r c H kr) (tap_c c W kc) ic * Kf kr kc ic oc))
    (fun kr kc => zsum 0 (d_ci d) (fun ic => zi * Kf kr kc ic oc)).

(** Conditions on the sizes: those of the MLI 2.0 checker for the whole convolution ([chk_axis]); tiles not larger than the output;
    the leading padding inside the first tile (asserted by the library); no 32-bit overflow. *)
Definition conv_dims_ok (d : conv_dims) (c : conv_cfg) : Prop :=
  chk_axis (d_ho d) (d_hi d) (d_kh d) (cv_sh c) (cv_dh c) (cv_top c) (cv_bottom c)
  /\ chk_axis (d_wo d) (d_wi d) (d_kw d) (cv_sw c) (cv_dw c) (cv_left c) (cv_right c)
  /\ (1 <= d_th d <= d_ho d /\ 1 <= d_tw d <= d_wo d /\ 1 <= d_tc d <= d_co d)
  /\ (cv_top c <= d_th d * cv_sh c /\ cv_left c <= d_tw d * cv_sw c)
  /\ Forall (fun x => 1 <= x <= 2 ^ 20) [d_hi d; d_wi d; d_ci d; d_kh d; d_kw d; d_ho d; d_wo d; d_co d]
  /\ Forall (fun x => in_ubits 8 x) [cv_sh c; cv_sw c; cv_dh c; cv_dw c; cv_top c; cv_left c; cv_bottom c; cv_right c]
  /\ d_ci d * d_kh d * d_kw d * (3 * 2 ^ 14) <= smax 32.

(** The iterators of the three tensors with memory strides [si], [sw], [so], set up as in
    user_tests/tests/mli_krn_conv2d_30 (B, H, W, G, C in this order, weights tiled only over the output channels). *)
Definition conv_iters (d : conv_dims) (c : conv_cfg) (si sw so : list Z) : option (titer * titer * titer) :=
  let oshape := [1; d_ho d; d_wo d; 1; d_co d] in
  let ishape := [1; d_hi d; d_wi d; 1; d_ci d] in
  let wshape := [1; d_kh d; d_kw d; d_ci d; d_co d] in
  let out := tile_cfg oshape [1; d_th d; d_tw d; 1; d_tc d] [0; 1; 2; 3; 4]%nat 0 in
  match kernel_cfg out ishape [1; (d_kh d - 1) * cv_dh c + 1; (d_kw d - 1) * cv_dw c + 1; 1; d_ci d] [1; cv_sh c; cv_sw c; 1; 0] [0; cv_top c; cv_left c; 0; 0] with
  | Some inp => Some (ti_new inp ishape si, ti_new (mask_cfg out [true; true; true; true; false] [0; 1; 2; 3; 4] 5 wshape) wshape sw, ti_new out oshape so)
  | None => None
  end.

(** * The axes *)

Definition c_out (d : conv_dims) : list idim :=
  [tile_dim 0 1 1 0; tile_dim 1 (d_ho d) (d_th d) 0; tile_dim 2 (d_wo d) (d_tw d) 0; tile_dim 3 1 1 0; tile_dim 4 (d_co d) (d_tc d) 0].
Definition c_inp (d : conv_dims) (c : conv_cfg) : list idim :=
  [kernel_dim (tile_dim 0 1 1 0) 1 1 1 0;
   kernel_dim (tile_dim 1 (d_ho d) (d_th d) 0) (d_hi d) ((d_kh d - 1) * cv_dh c + 1) (cv_sh c) (cv_top c);
   kernel_dim (tile_dim 2 (d_wo d) (d_tw d) 0) (d_wi d) ((d_kw d - 1) * cv_dw c + 1) (cv_sw c) (cv_left c);
   kernel_dim (tile_dim 3 1 1 0) 1 1 1 0;
   kernel_dim (tile_dim 4 (d_co d) (d_tc d) 0) (d_ci d) (d_ci d) 0 0].
Definition c_wts (d : conv_dims) : list idim :=
  let whole o D := mkIdim (it_order o) (it_count o) 0 0 0 D D D in
  [whole (tile_dim 0 1 1 0) 1; whole (tile_dim 1 (d_ho d) (d_th d) 0) (d_kh d); whole (tile_dim 2 (d_wo d) (d_tw d) 0) (d_kw d);
   whole (tile_dim 3 1 1 0) (d_ci d); tile_dim 4 (d_co d) (d_tc d) 0].

Ltac fall := repeat match goal with H : Forall _ (_ :: _) |- _ => inversion H; clear H; subst end.

Lemma fits_h d c : conv_dims_ok d c -> axis_fits (d_ho d) (d_th d) (d_hi d) ((d_kh d - 1) * cv_dh c + 1) (cv_sh c) (cv_top c) (cv_bottom c).
Proof.
  intros ((A1 & A2 & A3 & A4 & A5 & A6) & _ & (T1 & _) & (P1 & _) & F & U & _).
  fall. unfold in_ubits in *. change (2 ^ 8) with 256 in *. change (2 ^ 20) with 1048576 in *.
  assert (M1 : (d_kh d - 1) * cv_dh c <= 1048576 * 255) by (apply Z.mul_le_mono_nonneg; lia).
  assert (M2 : (d_ho d + 2 * d_th d) * cv_sh c <= 3145728 * 255) by (apply Z.mul_le_mono_nonneg; lia).
  unfold axis_fits. change (2 ^ 31) with 2147483648. repeat split; lia.
Qed.

Lemma fits_w d c : conv_dims_ok d c -> axis_fits (d_wo d) (d_tw d) (d_wi d) ((d_kw d - 1) * cv_dw c + 1) (cv_sw c) (cv_left c) (cv_right c).
Proof.
  intros (_ & (A1 & A2 & A3 & A4 & A5 & A6) & (_ & T1 & _) & (_ & P1) & F & U & _).
  fall. unfold in_ubits in *. change (2 ^ 8) with 256 in *. change (2 ^ 20) with 1048576 in *.
  assert (M1 : (d_kw d - 1) * cv_dw c <= 1048576 * 255) by (apply Z.mul_le_mono_nonneg; lia).
  assert (M2 : (d_wo d + 2 * d_tw d) * cv_sw c <= 3145728 * 255) by (apply Z.mul_le_mono_nonneg; lia).
  unfold axis_fits. change (2 ^ 31) with 2147483648. repeat split; lia.
Qed.

(** The iterators exist: the assertion of the constructor holds. *)
Lemma iters_val d c si sw so : conv_dims_ok d c -> conv_iters d c si sw so =
  Some (ti_new (c_inp d c) [1; d_hi d; d_wi d; 1; d_ci d] si, ti_new (c_wts d) [1; d_kh d; d_kw d; d_ci d; d_co d] sw, ti_new (c_out d) [1; d_ho d; d_wo d; 1; d_co d] so).
Proof.
  intros Hok. unfold conv_iters. change (tile_cfg _ _ _ 0) with (c_out d). unfold kernel_cfg.
  destruct (fits_h d c Hok) as (H1 & H0 & H2 & H3 & _ & _ & H4 & H5). destruct (fits_w d c Hok) as (W1 & W0 & W2 & W3 & _ & _ & W4 & W5).
  match goal with |- context [forallb ?f (c_out d)] => assert (E : forallb f (c_out d) = true) end.
  { assert (M1 : d_th d * 1 <= d_th d * cv_sh c <= (d_ho d + 2 * d_th d) * cv_sh c) by (split; [apply Z.mul_le_mono_nonneg_l|apply Z.mul_le_mono_nonneg_r]; lia).
    assert (M2 : d_tw d * 1 <= d_tw d * cv_sw c <= (d_wo d + 2 * d_tw d) * cv_sw c) by (split; [apply Z.mul_le_mono_nonneg_l|apply Z.mul_le_mono_nonneg_r]; lia).
    unfold c_out. cbn [forallb]. rewrite !andb_true_iff. repeat split; apply Z.leb_le.
    - change (cv_top c <= uwrap 32 (wrap 32 (d_th d - 0) * cv_sh c)). rewrite w32_id by lia. rewrite u32_id; lia.
    - change (cv_left c <= uwrap 32 (wrap 32 (d_tw d - 0) * cv_sw c)). rewrite w32_id by lia. rewrite u32_id; lia.
    - change (0 <= uwrap 32 (wrap 32 (d_tc d - 0) * 0)). rewrite Z.mul_0_r. apply Z.le_refl. }
  rewrite E. reflexivity.
Qed.

Lemma conv_updates_val n i w o c bi bw bo :
  conv_updates n (conv_create i w o c bi bw bo) = conv_create (ti_run i n) (ti_run w n) (ti_run o n) c bi bw bo.
Proof. induction n as [|n IH]; cbn [conv_updates ti_run]; [reflexivity|]. rewrite IH. reflexivity. Qed.

Lemma c_counts d c : conv_dims_ok d c -> counts_ok (c_out d) /\ map it_count (c_inp d c) = map it_count (c_out d) /\ map it_count (c_wts d) = map it_count (c_out d).
Proof.
  intros Hok. split; [|split; reflexivity]. unfold counts_ok, c_out.
  destruct Hok as (_ & _ & (T1 & T2 & T3) & _ & F & _). fall. change (2 ^ 20) with 1048576 in *.
  repeat apply Forall_cons; try apply Forall_nil; apply tile_dim_cuts; lia.
Qed.

(** * One tile *)

(** The local memory [m] holds, in the tensor [t], the part of [X] that starts at [off] (rows, columns, channels). *)
Definition holds3 (m : mem) (t : tensor) (X : Z -> Z -> Z -> Z) (off : Z * Z * Z) : Prop :=
  forall r cl ch, valid (t_shape t) [r; cl; ch] -> hwc_elem m t r cl ch = Some (X (fst (fst off) + r) (snd (fst off) + cl) (snd off + ch)).

(** The same for weights: rows, columns, input and output channels. *)
Definition holds4 (m : mem) (t : tensor) (Kf : Z -> Z -> Z -> Z -> Z) (off : Z * Z * Z * Z) : Prop :=
  forall kr kc ic oc, valid (t_shape t) [kr; kc; ic; oc] ->
    m (t_data t + addr (t_stride t) [kr; kc; ic; oc])
    = Some (Kf (fst (fst (fst off)) + kr) (snd (fst (fst off)) + kc) (snd (fst off) + ic) (snd off + oc)).

(** Height, width, channel of the offsets of a BHWGC tensor; height, width, input channel, output channel of GHWCiCo weights. *)
Definition off_hwc (l : list Z) : Z * Z * Z := (nth 1 l 0, nth 2 l 0, nth 4 l 0).
Definition off_hwcn (l : list Z) : Z * Z * Z * Z := (nth 1 l 0, nth 2 l 0, nth 3 l 0, nth 4 l 0).

Lemma chk_conv_intro tin tw tb tout c :
  chk_tensor tin = ST_OK -> chk_tensor tw = ST_OK -> chk_tensor tb = ST_OK -> chk_tensor tout = ST_OK ->
  t_rank tin = 3 -> t_rank tw = 4 -> t_rank tb = 1 -> t_rank tout = 3 ->
  inner_stride_is_one tin = true -> inner_stride_is_one tw = true -> inner_stride_is_one tb = true -> inner_stride_is_one tout = true ->
  dim tin 2 = dim tw 2 -> dim tout 2 = dim tw 3 -> dim tb 0 = dim tw 3 -> conv_fits tin tw tout c ->
  1 <= dim tin 0 -> 1 <= dim tin 1 -> 1 <= dim tw 0 -> 1 <= dim tw 1 -> 1 <= dim tout 0 -> 1 <= dim tout 1 ->
  chk_axis (dim tout 0) (dim tin 0) (dim tw 0) (cv_sh c) (cv_dh c) (cv_top c) (cv_bottom c) ->
  chk_axis (dim tout 1) (dim tin 1) (dim tw 1) (cv_sw c) (cv_dw c) (cv_left c) (cv_right c) ->
  chk_conv2d tin tw tb tout c 0 = ST_OK.
Proof.
  intros C1 C2 C3 C4 R1 R2 R3 R4 I1 I2 I3 I4 D1 D2 D3 F P1 P2 P3 P4 P5 P6 (A1 & A2 & A3 & A4 & A5 & A6) (B1 & B2 & B3 & B4 & B5 & B6).
  unfold chk_conv2d, chk_conv_with. rewrite C1, C2, C3, C4, R1, R2, R3, R4, I1, I2, I3, I4.
  change (nth 2 (t_shape tin) 0) with (dim tin 2). change (nth 2 (t_shape tw) 0) with (dim tw 2). change (nth 2 (t_shape tout) 0) with (dim tout 2).
  change (nth 3 (t_shape tw) 0) with (dim tw 3). change (nth 0 (t_shape tb) 0) with (dim tb 0). rewrite D1, D2, D3, !Z.eqb_refl. cbn [andb negb Z.eqb].
  destruct F as (U1 & U2 & U3 & U4 & U5 & U6 & U7 & U8 & U9).
  destruct (U9 tin ltac:(auto)) as [E1 E2]. destruct (U9 tw ltac:(auto)) as [E3 E4]. destruct (U9 tout ltac:(auto)) as [E5 E6]. clear U9.
  unfold in_ubits in *. change (2 ^ 8) with 256 in *. change (2 ^ 22) with 4194304 in *.
  replace (chk_conv_cfg tin tw tout c) with true; [reflexivity|]. symmetry. unfold chk_conv_cfg. fold (dim tin 0) (dim tin 1) (dim tw 0) (dim tw 1) (dim tout 0) (dim tout 1).
  set (x0 := dim tin 0) in *. set (x1 := dim tin 1) in *. set (k0 := dim tw 0) in *. set (k1 := dim tw 1) in *. set (y0 := dim tout 0) in *. set (y1 := dim tout 1) in *.
  clearbody x0 x1 k0 k1 y0 y1.
  assert (W1 : 0 <= (k1 - 1) * cv_dw c <= 4194304 * 255) by (split; [apply Z.mul_nonneg_nonneg; lia|apply Z.mul_le_mono_nonneg; lia]).
  assert (W2 : 0 <= (k0 - 1) * cv_dh c <= 4194304 * 255) by (split; [apply Z.mul_nonneg_nonneg; lia|apply Z.mul_le_mono_nonneg; lia]).
  assert (W3 : 0 <= (y1 - 1) * cv_sw c <= 4194304 * 255) by (split; [apply Z.mul_nonneg_nonneg; lia|apply Z.mul_le_mono_nonneg; lia]).
  assert (W4 : 0 <= (y0 - 1) * cv_sh c <= 4194304 * 255) by (split; [apply Z.mul_nonneg_nonneg; lia|apply Z.mul_le_mono_nonneg; lia]).
  rewrite (wrap32_small ((k1 - 1) * cv_dw c + 1)) by (clear - W1; lia).
  rewrite (wrap32_small ((k0 - 1) * cv_dh c + 1)) by (clear - W2; lia).
  replace (y1 * cv_sw c + ((k1 - 1) * cv_dw c + 1) - cv_sw c) with ((y1 - 1) * cv_sw c + ((k1 - 1) * cv_dw c + 1)) by ring.
  replace (y0 * cv_sh c + ((k0 - 1) * cv_dh c + 1) - cv_sh c) with ((y0 - 1) * cv_sh c + ((k0 - 1) * cv_dh c + 1)) by ring.
  rewrite (wrap32_small (x1 + cv_left c + cv_right c)) by (clear - U3 U4 P2 E2; lia).
  rewrite (wrap32_small (x0 + cv_top c + cv_bottom c)) by (clear - U5 U6 P1 E1; lia).
  rewrite (wrap32_small ((y1 - 1) * cv_sw c + ((k1 - 1) * cv_dw c + 1))) by (clear - W1 W3; lia).
  rewrite (wrap32_small ((y0 - 1) * cv_sh c + ((k0 - 1) * cv_dh c + 1))) by (clear - W2 W4; lia).
  rewrite !andb_true_iff, !Z.gtb_lt, !Z.ltb_lt, !Z.leb_le. clear - A1 A2 A3 A4 A5 A6 B1 B2 B3 B4 B5 B6. lia.
Qed.

Lemma vec_chk n : 1 <= n <= 2 ^ 20 -> fits32 (vec_t n) /\ chk_tensor (vec_t n) = ST_OK.
Proof.
  intros Hn. change (2 ^ 20) with 1048576 in Hn. assert (F : fits32 (vec_t n)).
  { unfold fits32, vec_t. cbn [t_shape t_stride t_esz length combine span]. split; [reflexivity|]. split; [lia|]. split.
    - constructor; [|constructor]. cbn [fst snd]. unfold in_bits, smin, smax. change (2 ^ (32 - 1)) with 2147483648. lia.
    - change (2 ^ 31) with 2147483648. lia. }
  split; [exact F|]. apply chk_tensor_complete; [exact F|cbn; lia|..]; unfold vec_t; cbn [t_cap t_shape t_stride t_esz nested span]; [|lia..].
  change (2 ^ 31) with 2147483648. lia.
Qed.

(** One output of one axis: the kernel window at output [y] of the tile lies over the same part of the image as that of output [os + y] of
    the whole axis. *)
Definition axis_view (D K S P os on is il p : Z) : Prop :=
  is - p = os * S - P /\ forall y x, 0 <= y < on -> is - p + y * S <= x < is - p + y * S + K -> (0 <= x < D <-> is <= x < is + il).

Lemma taps_view Dh Dw kh kw sh sw dh dw Ph Pw ohs ohn ihs ihl ph ows own iws iwl pw y x F G F' G' :
  axis_view Dh ((kh - 1) * dh + 1) sh Ph ohs ohn ihs ihl ph -> axis_view Dw ((kw - 1) * dw + 1) sw Pw ows own iws iwl pw ->
  0 < dh -> 0 < dw -> 0 <= y < ohn -> 0 <= x < own ->
  (forall kr kc, 0 <= kr < kh -> 0 <= kc < kw -> 0 <= y * sh - ph + kr * dh < ihl -> 0 <= x * sw - pw + kc * dw < iwl -> F kr kc = F' kr kc) ->
  (forall kr kc, 0 <= kr < kh -> 0 <= kc < kw -> G kr kc = G' kr kc) ->
  taps ihl iwl kh kw (y * sh - ph) (x * sw - pw) dh dw F G
  = taps Dh Dw kh kw ((ohs + y) * sh - Ph) ((ows + x) * sw - Pw) dh dw F' G'.
Proof.
  intros [E1 V1] [E2 V2] Hdh Hdw Hy Hx HF HG. unfold taps. apply zsum_ext. intros kr Hr. apply zsum_ext. intros kc Hc.
  assert (M1 : 0 <= kr * dh <= (kh - 1) * dh) by (split; [apply Z.mul_nonneg_nonneg; lia|apply Z.mul_le_mono_nonneg_r; lia]).
  assert (M2 : 0 <= kc * dw <= (kw - 1) * dw) by (split; [apply Z.mul_nonneg_nonneg; lia|apply Z.mul_le_mono_nonneg_r; lia]).
  specialize (V1 y (ihs - ph + y * sh + kr * dh) Hy ltac:(clear - M1; lia)). specialize (V2 x (iws - pw + x * sw + kc * dw) Hx ltac:(clear - M2; lia)).
  replace ((ohs + y) * sh - Ph + kr * dh) with (ihs - ph + y * sh + kr * dh) by (rewrite E1; ring).
  replace ((ows + x) * sw - Pw + kc * dw) with (iws - pw + x * sw + kc * dw) by (rewrite E2; ring).
  specialize (HF kr kc Hr Hc). specialize (HG kr kc Hr Hc).
  assert (I : inside ihl iwl (y * sh - ph + kr * dh) (x * sw - pw + kc * dw) = inside Dh Dw (ihs - ph + y * sh + kr * dh) (iws - pw + x * sw + kc * dw)).
  { apply eq_true_iff_eq. unfold inside. rewrite !andb_true_iff, !Z.leb_le, !Z.ltb_lt. clear - V1 V2. lia. }
  rewrite <- I. destruct (inside ihl iwl _ _) eqn:Q; [|exact HG]. unfold inside in Q. rewrite !andb_true_iff, !Z.leb_le, !Z.ltb_lt in Q.
  apply HF; clear - Q; lia.
Qed.

Lemma counts_map cfg cfg' : map it_count cfg = map it_count cfg' -> counts_ok cfg' -> counts_ok cfg.
Proof.
  revert cfg'. induction cfg as [|a cfg IH]; intros [|b cfg'] H Hc; try discriminate; [constructor|].
  cbn [map] in H. injection H as H1 H2. inversion Hc; subst. constructor; [lia|]. apply (IH cfg'); assumption.
Qed.

Lemma whole_axis o n D k : 1 <= D < 2 ^ 31 -> tile_start (mkIdim o n 0 0 0 D D D) k = 0 /\ tile_len (mkIdim o n 0 0 0 D D D) D k = D.
Proof.
  intros HD. assert (E : tile_start (mkIdim o n 0 0 0 D D D) k = 0) by (unfold tile_start; cbn [it_first_inc it_inc]; destruct (k =? 0); lia).
  split; [exact E|]. unfold tile_len, tile_size. rewrite E. cbn [it_count it_first_size it_size it_last_size]. change (uwrap 32 0) with 0.
  rewrite Z.sub_0_r, u32_id by lia. destruct (k =? n - 1); [|destruct (k =? 0)]; lia.
Qed.

(** What the n-th tile is: shapes, offsets and paddings by axis. *)
Lemma conv_tile_shape d c si sw so i w o bi bw bo n :
  conv_dims_ok d c -> conv_iters d c si sw so = Some (i, w, o) ->
  let ob := conv_updates n (conv_create i w o c bi bw bo) in
  exists h v k, idx_at (c_out d) n = [0; h; v; 0; k]
    /\ let oh := tile_dim 1 (d_ho d) (d_th d) 0 in let ow := tile_dim 2 (d_wo d) (d_tw d) 0 in let oc := tile_dim 4 (d_co d) (d_tc d) 0 in
       let ih := kernel_dim oh (d_hi d) ((d_kh d - 1) * cv_dh c + 1) (cv_sh c) (cv_top c) in
       let iw := kernel_dim ow (d_wi d) ((d_kw d - 1) * cv_dw c + 1) (cv_sw c) (cv_left c) in
       0 <= h < it_count oh /\ 0 <= v < it_count ow /\ 0 <= k < it_count oc
       /\ t_shape (hwc5 (co_tin ob)) = [tile_len ih (d_hi d) h; tile_len iw (d_wi d) v; d_ci d]
       /\ t_shape (hwcn5 (co_tw ob)) = [d_kh d; d_kw d; d_ci d; tile_len oc (d_co d) k]
       /\ t_shape (hwc5 (co_tout ob)) = [tile_len oh (d_ho d) h; tile_len ow (d_wo d) v; tile_len oc (d_co d) k]
       /\ (let '(pi, pw, po) := conv_offsets ob in
           off_hwc pi = (tile_start ih h, tile_start iw v, 0) /\ off_hwcn pw = (0, 0, 0, tile_start oc k)
           /\ off_hwc po = (tile_start oh h, tile_start ow v, tile_start oc k))
       /\ exists b r, (b = cv_bottom c \/ b = 0) /\ (r = cv_right c \/ r = 0)
           /\ co_tile_cfg ob = with_pad c (if h =? 0 then cv_top c else 0) (if v =? 0 then cv_left c else 0) b r.
Proof.
  intros Hok Hit ob. rewrite (iters_val d c si sw so Hok) in Hit. injection Hit as <- <- <-.
  unfold ob. rewrite conv_updates_val.
  destruct (c_counts d c Hok) as (Co & Ei & Ew).
  rewrite !ti_run_at by first [exact Co|apply (counts_map _ _ Ei Co)|apply (counts_map _ _ Ew Co)].
  rewrite (idx_at_counts _ _ n Ei), (idx_at_counts _ _ n Ew). pose proof (idx_at_ok (c_out d) n Co) as Hidx.
  destruct (idx_at (c_out d) n) as [|b [|h [|v [|g [|k [|]]]]]]; cbn [c_out idx_ok] in Hidx; try tauto.
  destruct Hidx as (Hb & Hh & Hv & Hg & Hk & _). change (it_count (tile_dim 0 1 1 0)) with 1 in Hb. change (it_count (tile_dim 3 1 1 0)) with 1 in Hg.
  assert (b = 0) by lia. assert (g = 0) by lia. subst b g. exists h, v, k. split; [reflexivity|]. cbv zeta.
  destruct (axis_whole 4 (d_co d) (d_tc d) (d_ci d) k) as (_ & A2 & A3).
  { destruct Hok as (_ & _ & _ & _ & F & _). fall. change (2 ^ 20) with 1048576 in *. change (2 ^ 31) with 2147483648. lia. }
  split; [exact Hh|]. split; [exact Hv|]. split; [exact Hk|].
  split; [|split; [|split; [reflexivity|split]]].
  - transitivity [tile_len (kernel_dim (tile_dim 1 (d_ho d) (d_th d) 0) (d_hi d) ((d_kh d - 1) * cv_dh c + 1) (cv_sh c) (cv_top c)) (d_hi d) h;
      tile_len (kernel_dim (tile_dim 2 (d_wo d) (d_tw d) 0) (d_wi d) ((d_kw d - 1) * cv_dw c + 1) (cv_sw c) (cv_left c)) (d_wi d) v;
      tile_len (kernel_dim (tile_dim 4 (d_co d) (d_tc d) 0) (d_ci d) (d_ci d) 0 0) (d_ci d) k]; [reflexivity|]. rewrite A3. reflexivity.
  - set (n1 := it_count (tile_dim 1 (d_ho d) (d_th d) 0)). set (n2 := it_count (tile_dim 2 (d_wo d) (d_tw d) 0)).
    transitivity [tile_len (mkIdim 1 n1 0 0 0 (d_kh d) (d_kh d) (d_kh d)) (d_kh d) h; tile_len (mkIdim 2 n2 0 0 0 (d_kw d) (d_kw d) (d_kw d)) (d_kw d) v;
      tile_len (mkIdim 3 1 0 0 0 (d_ci d) (d_ci d) (d_ci d)) (d_ci d) 0; tile_len (tile_dim 4 (d_co d) (d_tc d) 0) (d_co d) k]; [reflexivity|].
    rewrite !(fun o n D k HD => proj2 (whole_axis o n D k HD)) by (destruct Hok as (_ & _ & _ & _ & F & _); clear - F; fall; change (2 ^ 20) with 1048576 in *; change (2 ^ 31) with 2147483648; lia).
    reflexivity.
  - split; [|split].
    + transitivity (tile_start (kernel_dim (tile_dim 1 (d_ho d) (d_th d) 0) (d_hi d) ((d_kh d - 1) * cv_dh c + 1) (cv_sh c) (cv_top c)) h,
        tile_start (kernel_dim (tile_dim 2 (d_wo d) (d_tw d) 0) (d_wi d) ((d_kw d - 1) * cv_dw c + 1) (cv_sw c) (cv_left c)) v,
        tile_start (kernel_dim (tile_dim 4 (d_co d) (d_tc d) 0) (d_ci d) (d_ci d) 0 0) k); [reflexivity|]. rewrite A2. reflexivity.
    + set (n1 := it_count (tile_dim 1 (d_ho d) (d_th d) 0)). set (n2 := it_count (tile_dim 2 (d_wo d) (d_tw d) 0)).
      transitivity (tile_start (mkIdim 1 n1 0 0 0 (d_kh d) (d_kh d) (d_kh d)) h, tile_start (mkIdim 2 n2 0 0 0 (d_kw d) (d_kw d) (d_kw d)) v,
        tile_start (mkIdim 3 1 0 0 0 (d_ci d) (d_ci d) (d_ci d)) 0, tile_start (tile_dim 4 (d_co d) (d_tc d) 0) k); [reflexivity|].
      unfold tile_start at 1 2 3. cbn [it_first_inc it_inc]. rewrite !Z.mul_0_r. destruct (h =? 0); destruct (v =? 0); reflexivity.
    + reflexivity.
  - do 2 eexists. split; [|split; [|reflexivity]]; [destruct (ti_last _ 1)|destruct (ti_last _ 2)]; auto.
Qed.

(** One tile, given the numbers of the two spatial axes and of the output channels. *)
Lemma conv_tile_core d c rm full zi mi mw m X Kf tin tw tout bt rt ohs ohn ihs ihl ph ows own iws iwl pv osc ocn :
  conv_dims_ok d c -> legal tin mi -> legal tw mw -> legal tout m -> mem_bits 8 mi -> mem_bits 8 mw -> in_bits 8 zi ->
  axis_view (d_hi d) ((d_kh d - 1) * cv_dh c + 1) (cv_sh c) (cv_top c) ohs ohn ihs ihl ph ->
  axis_view (d_wi d) ((d_kw d - 1) * cv_dw c + 1) (cv_sw c) (cv_left c) ows own iws iwl pv ->
  t_shape tin = [ihl; iwl; d_ci d] -> t_shape tw = [d_kh d; d_kw d; d_ci d; ocn] -> t_shape tout = [ohn; own; ocn] ->
  1 <= ohn <= d_ho d -> 1 <= own <= d_wo d -> 1 <= ocn <= d_co d -> 1 <= ihl <= d_hi d -> 1 <= iwl <= d_wi d ->
  0 <= ph <= cv_top c -> 0 <= pv <= cv_left c ->
  (ohn - 1) * cv_sh c + ((d_kh d - 1) * cv_dh c + 1) <= ihl + ph + cv_bottom c ->
  (own - 1) * cv_sw c + ((d_kw d - 1) * cv_dw c + 1) <= iwl + pv + cv_right c ->
  holds3 mi tin X (ihs, iws, 0) -> holds4 mw tw Kf (0, 0, 0, osc) ->
  exists m', conv2d rm full (Q_int zi 0) 32 (mkQ 1 0 0) 0 mi mw None tin tw tout (with_pad c ph pv bt rt) m = Some m'
    /\ holds3 m' tout (conv_whole d c zi X Kf) (ohs, ows, osc) /\ frame_ok tout m m'.
Proof.
  intros Hok (Fi & Ci & Ii & Bi) (Fw & Cw & Iw & Bw) (Fo & Co & Io & Bo) Mi Mw Iz VH VW Si Sw So Hoh How Hoc Hih Hiw Hph Hpv HH8 HW8 Xi Xw.
  destruct Hok as ((A1 & A2 & A3 & A4 & A5 & A6) & (B1 & B2 & B3 & B4 & B5 & B6) & _ & _ & F & U & HB).
  set (c' := with_pad c ph pv (cv_bottom c) (cv_right c)).
  change (exists m', conv2d rm full (Q_int zi 0) 32 (mkQ 1 0 0) 0 mi mw None tin tw tout c' m = Some m'
    /\ holds3 m' tout (conv_whole d c zi X Kf) (ohs, ows, osc) /\ frame_ok tout m m').
  fall. change (2 ^ 20) with 1048576 in *.
  assert (Dm : (dim tin 0 = ihl /\ dim tin 1 = iwl /\ dim tin 2 = d_ci d) /\ (dim tw 0 = d_kh d /\ dim tw 1 = d_kw d /\ dim tw 2 = d_ci d /\ dim tw 3 = ocn)
    /\ (dim tout 0 = ohn /\ dim tout 1 = own /\ dim tout 2 = ocn)) by (unfold dim; rewrite Si, Sw, So; repeat split; reflexivity).
  destruct Dm as ((Di0 & Di1 & Di2) & (Dw0 & Dw1 & Dw2 & Dw3) & (Do0 & Do1 & Do2)).
  assert (Hf : conv_fits tin tw tout c').
  { unfold conv_fits, c', with_pad. cbn [cv_sw cv_sh cv_left cv_right cv_top cv_bottom cv_dw cv_dh]. repeat (split; [first [assumption|unfold in_ubits in *; lia]|]).
    change (2 ^ 22) with 4194304. intros t [-> | [-> | ->]]; [rewrite Di0, Di1|rewrite Dw0, Dw1|rewrite Do0, Do1]; lia. }
  destruct (vec_chk ocn ltac:(change (2 ^ 20) with 1048576; lia)) as [Fb Cb].
  assert (Hs : conv_shapes tin tw tout c').
  { exists (vec_t ocn). split; [exact Fb|]. apply chk_conv_intro; try assumption; try (unfold t_rank; rewrite ?Si, ?Sw, ?So; reflexivity); try reflexivity;
    rewrite ?Di0, ?Di1, ?Di2, ?Dw0, ?Dw1, ?Dw2, ?Dw3, ?Do0, ?Do1, ?Do2; try reflexivity; try lia;
    unfold chk_axis, c', with_pad; cbn [cv_sw cv_sh cv_left cv_right cv_top cv_bottom cv_dw cv_dh]; repeat split; try assumption; try lia. }
  destruct (conv2d_int_correct rm full zi (mkQ 1 0 0) mi mw m tin tw tout c' Hs Hf Fi Fw Fo Bi Bw Bo Mi Mw Iz) as (m' & Em & Hv & Hfr).
  { rewrite Di2, Dw0, Dw1. exact HB. }
  exists m'. split; [exact Em|]. split; [|exact Hfr]. intros y x oc V. rewrite (Hv y x oc V). cbn [fst snd].
  rewrite So in V. destruct V as (Vy & Vx & Vc & _).
  f_equal. unfold conv_int_sum, conv_whole, conv_taps. rewrite Di0, Di1, Di2, Dw0, Dw1.
  assert (EK : forall kr kc ic, 0 <= kr < d_kh d -> 0 <= kc < d_kw d -> 0 <= ic < d_ci d -> at4 mw tw kr kc ic oc = Kf kr kc ic (osc + oc)).
  { intros kr kc ic R1 R2 R3. unfold at4, rd. rewrite (Xw kr kc ic oc) by (rewrite Sw; cbn [valid]; tauto). reflexivity. }
  change (cv_sh c') with (cv_sh c). change (cv_sw c') with (cv_sw c). change (cv_dh c') with (cv_dh c). change (cv_dw c') with (cv_dw c).
  change (cv_top c') with ph. change (cv_left c') with pv.
  apply (taps_view _ _ _ _ _ _ _ _ _ _ ohs ohn ihs ihl ph ows own iws iwl pv); try assumption.
  - intros kr kc R1 R2 R3 R4. apply zsum_ext. intros ic R5. rewrite EK by assumption. f_equal.
    unfold tap_r, tap_c, at3, rd. change (cv_sh c') with (cv_sh c). change (cv_sw c') with (cv_sw c). change (cv_dh c') with (cv_dh c). change (cv_dw c') with (cv_dw c).
    change (cv_top c') with ph. change (cv_left c') with pv.
    unfold holds3, hwc_elem, hwc_addr in Xi. rewrite Xi by (rewrite Si; cbn [valid]; tauto). cbn [fst snd].
    destruct VH as [E1 _]. destruct VW as [E2 _]. f_equal; lia.
  - intros kr kc R1 R2. apply zsum_ext. intros ic R5. rewrite EK by assumption. reflexivity.
Qed.

(** C68: one tile. *)
Theorem conv_tile_correct d c si sw so i w o bi bw bo rm full zi mi mw m X Kf n :
  conv_dims_ok d c -> conv_iters d c si sw so = Some (i, w, o) ->
  let ob := conv_updates n (conv_create i w o c bi bw bo) in
  let '(pi, pw, po) := conv_offsets ob in
  let tin := hwc5 (co_tin ob) in let tw := hwcn5 (co_tw ob) in let tout := hwc5 (co_tout ob) in
  legal tin mi -> legal tw mw -> legal tout m -> mem_bits 8 mi -> mem_bits 8 mw -> in_bits 8 zi ->
  holds3 mi tin X (off_hwc pi) -> holds4 mw tw Kf (off_hwcn pw) ->
  exists m', conv_issue rm full zi 0 ob mi mw m = Some m'
    /\ holds3 m' tout (conv_whole d c zi X Kf) (off_hwc po) /\ frame_ok tout m m'.
Proof.
  intros Hok Hit ob. destruct (conv_tile_shape d c si sw so i w o bi bw bo n Hok Hit) as (h & v & k & _ & Hh & Hv & Hk & Si & Sw & So & Hoff & bt & rt & Hbt & Hrt & Hcfg).
  fold ob in Si, Sw, So, Hoff, Hcfg. destruct (conv_offsets ob) as [[pi pw] po]. destruct Hoff as (Oi & Ow & Oo). cbv zeta.
  unfold conv_issue. rewrite Hcfg. generalize dependent (hwc5 (co_tin ob)). generalize dependent (hwcn5 (co_tw ob)). generalize dependent (hwc5 (co_tout ob)).
  intros tout So tw Sw tin Si (Fi & Ci & Ii & Bi) (Fw & Cw & Iw & Bw) (Fo & Co & Io & Bo) Mi Mw Iz Xi Xw.
  rewrite Oi in Xi. rewrite Ow in Xw. rewrite Oo. clear ob Hit Hcfg Oi Ow Oo pi pw po.
  pose proof (axis_tile 1 _ _ _ _ _ _ _ h (fits_h d c Hok) Hh) as AH. pose proof (axis_tile 2 _ _ _ _ _ _ _ v (fits_w d c Hok) Hv) as AW. cbv zeta in AH, AW.
  pose proof Hok as ((_ & _ & A3 & _) & (_ & _ & B3 & _) & (T1 & T2 & T3) & _ & F & _).
  assert (AC : 1 <= tile_len (tile_dim 4 (d_co d) (d_tc d) 0) (d_co d) k <= d_co d /\ 0 <= tile_start (tile_dim 4 (d_co d) (d_tc d) 0) k).
  { destruct (tile_dim_cuts 4 (d_co d) (d_tc d) 0 T3 ltac:(lia)) as (Hc1 & Hc & Hlen); [fall; change (2 ^ 20) with 1048576 in *; change (2 ^ 31) with 2147483648; lia|].
    specialize (Hlen ltac:(lia) k Hk). pose proof (cuts_inside _ _ _ _ Hc1 Hc k Hk). lia. }
  destruct AH as (_ & (H1 & H2 & H3) & (H4 & H5 & H6) & H7 & H8 & H9). destruct AW as (_ & (W1 & W2 & W3) & (W4 & W5 & W6) & W7 & W8 & W9).
  pose proof (conj H7 H9 : axis_view _ _ _ _ _ _ _ _ _) as VH. pose proof (conj W7 W9 : axis_view _ _ _ _ _ _ _ _ _) as VW. clear H7 H9 W7 W9.
  assert (Hph : 0 <= (if h =? 0 then cv_top c else 0) <= cv_top c) by (clear - A3; destruct (h =? 0); lia).
  assert (Hpv : 0 <= (if v =? 0 then cv_left c else 0) <= cv_left c) by (clear - B3; destruct (v =? 0); lia).
  apply (conv_tile_core d c rm full zi mi mw m X Kf tin tw tout) with (8 := VH) (9 := VW) (ocn := tile_len (tile_dim 4 (d_co d) (d_tc d) 0) (d_co d) k);
    first [assumption|exact (conj Fi (conj Ci (conj Ii Bi)))|exact (conj Fw (conj Cw (conj Iw Bw)))|exact (conj Fo (conj Co (conj Io Bo)))|exact (proj1 AC)|idtac].
  - clear - H1 T1. lia.
  - clear - W1 T2. lia.
  - clear - H4 H5 H6. lia.
  - clear - W4 W5 W6. lia.
Qed.

(** * All tiles *)

(** Output (H, W, oc) of the whole tensor belongs to the current output tile: its position within the tile, from the offsets that the
    object reports, is a position of the tile. *)
Definition in_out_tile (ob : conv_obj) (H W oc : Z) : Prop :=
  let '(_, _, po) := conv_offsets ob in valid (t_shape (hwc5 (co_tout ob))) [H - nth 1 po 0; W - nth 2 po 0; oc - nth 4 po 0].

(** The value of output (H, W, oc) in the current output tile in memory [m]. *)
Definition out_value (ob : conv_obj) (m : mem) (H W oc : Z) : option Z :=
  let '(_, _, po) := conv_offsets ob in hwc_elem m (hwc5 (co_tout ob)) (H - nth 1 po 0) (W - nth 2 po 0) (oc - nth 4 po 0).

(** The buffers before Issue: legal tensors; input and weights hold the windows at the offsets that the object reports. *)
Definition tile_ready (ob : conv_obj) (X : Z -> Z -> Z -> Z) (Kf : Z -> Z -> Z -> Z -> Z) (mi mw m : mem) : Prop :=
  let '(pi, pw, _) := conv_offsets ob in
  legal (hwc5 (co_tin ob)) mi /\ legal (hwcn5 (co_tw ob)) mw /\ legal (hwc5 (co_tout ob)) m /\ mem_bits 8 mi /\ mem_bits 8 mw
  /\ holds3 mi (hwc5 (co_tin ob)) X (off_hwc pi) /\ holds4 mw (hwcn5 (co_tw ob)) Kf (off_hwcn pw).

(** Every output belongs to exactly one tile. *)
Lemma conv_tiles_cover d c si sw so i w o bi bw bo :
  conv_dims_ok d c -> conv_iters d c si sw so = Some (i, w, o) ->
  let ob n := conv_updates n (conv_create i w o c bi bw bo) in
  forall H W oc, 0 <= H < d_ho d -> 0 <= W < d_wo d -> 0 <= oc < d_co d ->
  exists n, (Z.of_nat n < total_count (ti_cfg o) /\ in_out_tile (ob n) H W oc)
    /\ forall n', Z.of_nat n' < total_count (ti_cfg o) -> in_out_tile (ob n') H W oc -> n' = n.
Proof.
  intros Hok Hit ob H W oc RH RW RC.
  assert (Hcfg : ti_cfg o = c_out d) by (rewrite (iters_val d c si sw so Hok) in Hit; injection Hit as <- <- <-; reflexivity). rewrite Hcfg.
  set (oshape := [1; d_ho d; d_wo d; 1; d_co d]). set (bufs := repeat (mkBdim 0 0 0 0) 5).
  destruct (c_counts d c Hok) as (Hc & _).
  pose proof (tiles_partition oshape [1; d_th d; d_tw d; 1; d_tc d] [0; 1; 2; 3; 4]%nat 0 bufs 1) as P.
  change (tile_cfg oshape _ _ 0) with (c_out d) in P. cbv zeta in P.
  assert (B : forall n, (in_box (fst (sub_tensor (c_out d) oshape (fst (iter_run (c_out d) bufs 1 n)))) (snd (sub_tensor (c_out d) oshape (fst (iter_run (c_out d) bufs 1 n)))) [0; H; W; 0; oc]
                <-> in_out_tile (ob n) H W oc)).
  { intros n. rewrite <- (ti_run_iter (c_out d) oshape so bufs 1 n Hc) by reflexivity. rewrite ti_run_at by exact Hc.
    destruct (conv_tile_shape d c si sw so i w o bi bw bo n Hok Hit) as (h & v & k & Ei & Hh & Hv & Hk & _ & _ & So & Hoff & _).
    fold (ob n) in So, Hoff. unfold in_out_tile. destruct (conv_offsets (ob n)) as [[pi pw] po]. destruct Hoff as (_ & _ & Oo).
    unfold off_hwc in Oo. injection Oo as O1 O2 O3. rewrite So, O1, O2, O3, Ei. cbn [ti_st].
    change (sub_tensor (c_out d) oshape (at_tile (c_out d) [0; h; v; 0; k])) with
      ([0; uwrap 32 (tile_start (tile_dim 1 (d_ho d) (d_th d) 0) h); uwrap 32 (tile_start (tile_dim 2 (d_wo d) (d_tw d) 0) v); 0; uwrap 32 (tile_start (tile_dim 4 (d_co d) (d_tc d) 0) k)],
       [1; tile_len (tile_dim 1 (d_ho d) (d_th d) 0) (d_ho d) h; tile_len (tile_dim 2 (d_wo d) (d_tw d) 0) (d_wo d) v; 1; tile_len (tile_dim 4 (d_co d) (d_tc d) 0) (d_co d) k]).
    cbn [fst snd].
    assert (A : forall ax D T j, 1 <= T <= D -> D <= 2 ^ 20 -> 0 <= j < it_count (tile_dim ax D T 0) -> uwrap 32 (tile_start (tile_dim ax D T 0) j) = tile_start (tile_dim ax D T 0) j).
    { intros ax D T j HT HD Hj. change (2 ^ 20) with 1048576 in HD.
      destruct (tile_dim_cuts ax D T 0 HT ltac:(lia) ltac:(change (2 ^ 31) with 2147483648; lia)) as (N1 & Cu & _).
      pose proof (cuts_inside _ _ _ _ N1 Cu j Hj) as I. destruct Cu as (_ & _ & _ & Sz). specialize (Sz j Hj).
      apply u32_id. change (2 ^ 32) with 4294967296. lia. }
    destruct Hok as (_ & _ & (T1 & T2 & T3) & _ & F & _). fall. rewrite !A by (assumption || lia).
    unfold in_box. split.
    - intros [_ I]. pose proof (I 1%nat ltac:(cbn; lia)) as I1. pose proof (I 2%nat ltac:(cbn; lia)) as I2. pose proof (I 4%nat ltac:(cbn; lia)) as I4.
      cbn [nth] in I1, I2, I4. cbn [valid]. lia.
    - cbn [valid]. intros (I1 & I2 & I4 & _). split; [reflexivity|]. intros [|[|[|[|[|a]]]]] Ha; cbn [nth length] in *; lia. }
  destruct P with (c := [0; H; W; 0; oc]) as (n & [Hn Hin] & Hu).
  - split; [repeat constructor; cbn; intuition lia|]. split; [reflexivity|]. cbn [length oshape]. repeat constructor; lia.
  - destruct Hok as (_ & _ & (T1 & T2 & T3) & _ & F & _). fall. change (2 ^ 20) with 1048576 in *. change (2 ^ 31) with 2147483648.
    intros [|[|[|[|[|a]]]]] Ha; cbn [nth length oshape] in *; lia.
  - intros a Ha. destruct Hok as (_ & _ & (T1 & T2 & T3) & _). cbn [In] in Ha. decompose [or] Ha; subst; cbn [nth]; lia.
  - reflexivity.
  - unfold oshape. cbn [valid]. lia.
  - exists (Z.to_nat n). split; [split; [lia|]|].
    + apply B. exact Hin.
    + intros n' Hn' Hin'. apply B in Hin'. rewrite <- (Nat2Z.id n') in Hin'. apply Hu in Hin'; lia.
Qed.

(** C68: whatever the tile sizes, processing all tiles - each with the input and weight windows at the reported offsets in the local
    buffers - yields the convolution of the whole tensors: every Issue succeeds and every output belongs to exactly one tile, which
    receives its value. *)
Theorem conv_tiles_whole d c si sw so i w o bi bw bo rm full zi X Kf (mi mw m : nat -> mem) :
  conv_dims_ok d c -> conv_iters d c si sw so = Some (i, w, o) -> in_bits 8 zi ->
  let ob n := conv_updates n (conv_create i w o c bi bw bo) in
  let total := total_count (ti_cfg o) in
  (forall n, Z.of_nat n < total -> tile_ready (ob n) X Kf (mi n) (mw n) (m n)) ->
  exists out : nat -> mem,
    (forall n, Z.of_nat n < total -> conv_issue rm full zi 0 (ob n) (mi n) (mw n) (m n) = Some (out n))
    /\ forall H W oc, 0 <= H < d_ho d -> 0 <= W < d_wo d -> 0 <= oc < d_co d ->
       exists n, (Z.of_nat n < total /\ in_out_tile (ob n) H W oc /\ out_value (ob n) (out n) H W oc = Some (conv_whole d c zi X Kf H W oc))
         /\ forall n', Z.of_nat n' < total -> in_out_tile (ob n') H W oc -> n' = n.
Proof.
  intros Hok Hit Iz ob total Hr.
  set (out := fun n => match conv_issue rm full zi 0 (ob n) (mi n) (mw n) (m n) with Some x => x | None => m n end).
  assert (T : forall n, Z.of_nat n < total -> conv_issue rm full zi 0 (ob n) (mi n) (mw n) (m n) = Some (out n)
    /\ holds3 (out n) (hwc5 (co_tout (ob n))) (conv_whole d c zi X Kf) (off_hwc (snd (conv_offsets (ob n))))).
  { intros n Hn. pose proof (conv_tile_correct d c si sw so i w o bi bw bo rm full zi (mi n) (mw n) (m n) X Kf n Hok Hit) as Q. cbv zeta in Q.
    change (conv_updates n (conv_create i w o c bi bw bo)) with (ob n) in Q. specialize (Hr n Hn). unfold tile_ready in Hr.
    unfold out. destruct (conv_offsets (ob n)) as [[pi pw] po]. destruct Hr as (L1 & L2 & L3 & M1 & M2 & X1 & X2).
    destruct (Q L1 L2 L3 M1 M2 Iz X1 X2) as (m' & E & Hh & _). rewrite E. split; [reflexivity|exact Hh]. }
  exists out. split; [intros n Hn; apply T; exact Hn|]. intros H W oc RH RW RC.
  destruct (conv_tiles_cover d c si sw so i w o bi bw bo Hok Hit H W oc RH RW RC) as (n & [Hn Hin] & Hu).
  change (in_out_tile (ob n) H W oc) in Hin. change (forall n', Z.of_nat n' < total -> in_out_tile (ob n') H W oc -> n' = n) in Hu.
  exists n. split; [|exact Hu]. split; [exact Hn|]. split; [exact Hin|]. destruct (T n Hn) as [_ Hv].
  unfold in_out_tile in Hin. unfold out_value. destruct (conv_offsets (ob n)) as [[pi pw] po]. cbn [snd] in Hv.
  rewrite (Hv _ _ _ Hin). unfold off_hwc. cbn [fst snd]. f_equal. f_equal; lia.
Qed.

(** C68, against one call for the whole tensors: the same values. *)
Theorem conv_tiles_untiled d c si sw so i w o bi bw bo rm full zi (mi mw m : nat -> mem) tin tw tout gi gw gm gm' oq :
  conv_dims_ok d c -> conv_iters d c si sw so = Some (i, w, o) -> in_bits 8 zi ->
  t_shape tin = [d_hi d; d_wi d; d_ci d] -> t_shape tw = [d_kh d; d_kw d; d_ci d; d_co d] -> t_shape tout = [d_ho d; d_wo d; d_co d] ->
  legal tin gi -> legal tw gw -> legal tout gm -> mem_bits 8 gi -> mem_bits 8 gw ->
  conv2d rm full (Q_int zi 0) 32 oq 0 gi gw None tin tw tout c gm = Some gm' ->
  let ob n := conv_updates n (conv_create i w o c bi bw bo) in
  let total := total_count (ti_cfg o) in
  (forall n, Z.of_nat n < total -> tile_ready (ob n) (at3 gi tin) (at4 gw tw) (mi n) (mw n) (m n)) ->
  exists out : nat -> mem,
    (forall n, Z.of_nat n < total -> conv_issue rm full zi 0 (ob n) (mi n) (mw n) (m n) = Some (out n))
    /\ forall H W oc, valid (t_shape tout) [H; W; oc] ->
       exists n, (Z.of_nat n < total /\ in_out_tile (ob n) H W oc /\ out_value (ob n) (out n) H W oc = hwc_elem gm' tout H W oc)
         /\ forall n', Z.of_nat n' < total -> in_out_tile (ob n') H W oc -> n' = n.
Proof.
  intros Hok Hit Iz Si Sw So (Fi & Ci & Ii & Bi) (Fw & Cw & Iw & Bw) (Fo & Co & Io & Bo) Mi Mw Hrun ob total Hr.
  destruct (conv_tiles_whole d c si sw so i w o bi bw bo rm full zi (at3 gi tin) (at4 gw tw) mi mw m Hok Hit Iz Hr) as (out & O1 & O2).
  exists out. split; [exact O1|]. intros H W oc V. pose proof V as V'. rewrite So in V'. destruct V' as (RH & RW & RC & _).
  destruct (O2 H W oc RH RW RC) as (n & (N1 & N2 & N3) & Hu). exists n. split; [|exact Hu]. split; [exact N1|]. split; [exact N2|]. etransitivity; [exact N3|].
  pose proof Hok as (AH & AW & (T1 & T2 & T3) & _ & F & U & HB). fall. change (2 ^ 20) with 1048576 in *.
  assert (Dm : (dim tin 0 = d_hi d /\ dim tin 1 = d_wi d /\ dim tin 2 = d_ci d) /\ (dim tw 0 = d_kh d /\ dim tw 1 = d_kw d /\ dim tw 2 = d_ci d /\ dim tw 3 = d_co d)
    /\ (dim tout 0 = d_ho d /\ dim tout 1 = d_wo d /\ dim tout 2 = d_co d)) by (unfold dim; rewrite Si, Sw, So; repeat split; reflexivity).
  destruct Dm as ((Di0 & Di1 & Di2) & (Dw0 & Dw1 & Dw2 & Dw3) & (Do0 & Do1 & Do2)).
  assert (Hf : conv_fits tin tw tout c).
  { unfold conv_fits. repeat (split; [assumption|]).
    change (2 ^ 22) with 4194304. intros t [-> | [-> | ->]]; [rewrite Di0, Di1|rewrite Dw0, Dw1|rewrite Do0, Do1]; lia. }
  destruct (vec_chk (d_co d) ltac:(change (2 ^ 20) with 1048576; lia)) as [Fb Cb].
  assert (Hs : conv_shapes tin tw tout c).
  { exists (vec_t (d_co d)). split; [exact Fb|]. apply chk_conv_intro; try assumption; try (unfold t_rank; rewrite ?Si, ?Sw, ?So; reflexivity); try reflexivity;
    rewrite ?Di0, ?Di1, ?Di2, ?Dw0, ?Dw1, ?Dw2, ?Dw3, ?Do0, ?Do1, ?Do2; try reflexivity; try lia; assumption. }
  destruct (conv2d_int_correct rm full zi oq gi gw gm tin tw tout c Hs Hf Fi Fw Fo Bi Bw Bo Mi Mw Iz) as (m' & Em & Hv & _).
  { rewrite Di2, Dw0, Dw1. exact HB. }
  rewrite Hrun in Em. injection Em as <-. rewrite (Hv H W oc V). f_equal. unfold conv_int_sum, conv_whole, conv_taps. rewrite Di0, Di1, Di2, Dw0, Dw1. reflexivity.
Qed.

(** Buffers with room for the whole tensors are legal for every tile. *)
Theorem conv_tile_legal d c si sw so i w o bi bw bo n mi mw m :
  conv_dims_ok d c -> conv_iters d c si sw so = Some (i, w, o) ->
  legal (hwc5 (mkTensor (lb_data bi) (lb_cap bi) (lb_esz bi) [1; d_hi d; d_wi d; 1; d_ci d] si false (-1) 0)) mi ->
  legal (hwcn5 (mkTensor (lb_data bw) (lb_cap bw) (lb_esz bw) [1; d_kh d; d_kw d; d_ci d; d_co d] sw false (-1) 0)) mw ->
  legal (hwc5 (mkTensor (lb_data bo) (lb_cap bo) (lb_esz bo) [1; d_ho d; d_wo d; 1; d_co d] so false (-1) 0)) m ->
  let ob := conv_updates n (conv_create i w o c bi bw bo) in
  legal (hwc5 (co_tin ob)) mi /\ legal (hwcn5 (co_tw ob)) mw /\ legal (hwc5 (co_tout ob)) m.
Proof.
  intros Hok Hit Li Lw Lo ob.
  destruct (conv_tile_shape d c si sw so i w o bi bw bo n Hok Hit) as (h & v & k & _ & Hh & Hv & Hk & Si & Sw & So & _).
  fold ob in Si, Sw, So.
  pose proof (axis_tile 1 _ _ _ _ _ _ _ h (fits_h d c Hok) Hh) as AH. pose proof (axis_tile 2 _ _ _ _ _ _ _ v (fits_w d c Hok) Hv) as AW. cbv zeta in AH, AW.
  destruct AH as (_ & (H1 & H2 & H3) & (H4 & H5 & H6) & _). destruct AW as (_ & (W1 & W2 & W3) & (W4 & W5 & W6) & _).
  pose proof Hok as (_ & _ & (T1 & T2 & T3) & _ & F & _). fall. change (2 ^ 20) with 1048576 in *.
  assert (AC : 1 <= tile_len (tile_dim 4 (d_co d) (d_tc d) 0) (d_co d) k <= d_co d).
  { destruct (tile_dim_cuts 4 (d_co d) (d_tc d) 0 T3 ltac:(lia)) as (Hc1 & Hc & Hlen); [change (2 ^ 31) with 2147483648; lia|].
    specialize (Hlen ltac:(lia) k Hk). pose proof (cuts_inside _ _ _ _ Hc1 Hc k Hk). lia. }
  assert (E : t_data (hwc5 (co_tin ob)) = lb_data bi /\ ti_stride (ti_run i n) = si /\ ti_stride (ti_run w n) = sw /\ ti_stride (ti_run o n) = so).
  { unfold ob. rewrite conv_updates_val. split; [reflexivity|]. rewrite (iters_val d c si sw so Hok) in Hit. injection Hit as <- <- <-.
    assert (Hs : forall j l, ti_stride (ti_run j l) = ti_stride j) by (intros j l; clear; induction l as [|l IH]; cbn [ti_run]; [reflexivity|exact IH]).
    rewrite !Hs. repeat split. }
  destruct E as (_ & Ei & Ew & Eo).
  split; [|split].
  - replace (hwc5 (co_tin ob)) with (with_shape (hwc5 (mkTensor (lb_data bi) (lb_cap bi) (lb_esz bi) [1; d_hi d; d_wi d; 1; d_ci d] si false (-1) 0)) (t_shape (hwc5 (co_tin ob))));
    [|unfold ob; rewrite conv_updates_val; unfold with_shape, hwc5, tile_of, conv_create; cbn [t_data t_cap t_esz t_shape t_stride t_asym t_qdim t_qoff co_tin tile_of]; unfold tile_of; cbn [t_data t_cap t_esz t_shape t_stride]; rewrite Ei; reflexivity].
    rewrite Si. apply legal_smaller; [exact Li|]. unfold hwc5, pick. cbn [t_shape map nth]. repeat constructor; lia.
  - replace (hwcn5 (co_tw ob)) with (with_shape (hwcn5 (mkTensor (lb_data bw) (lb_cap bw) (lb_esz bw) [1; d_kh d; d_kw d; d_ci d; d_co d] sw false (-1) 0)) (t_shape (hwcn5 (co_tw ob))));
    [|unfold ob; rewrite conv_updates_val; unfold with_shape, hwcn5, tile_of, conv_create; cbn [t_data t_cap t_esz t_shape t_stride t_asym t_qdim t_qoff co_tw tile_of]; unfold tile_of; cbn [t_data t_cap t_esz t_shape t_stride]; rewrite Ew; reflexivity].
    rewrite Sw. apply legal_smaller; [exact Lw|]. unfold hwcn5, pick. cbn [t_shape map nth]. repeat constructor; lia.
  - replace (hwc5 (co_tout ob)) with (with_shape (hwc5 (mkTensor (lb_data bo) (lb_cap bo) (lb_esz bo) [1; d_ho d; d_wo d; 1; d_co d] so false (-1) 0)) (t_shape (hwc5 (co_tout ob))));
    [|unfold ob; rewrite conv_updates_val; unfold with_shape, hwc5, tile_of, conv_create; cbn [t_data t_cap t_esz t_shape t_stride t_asym t_qdim t_qoff co_tout tile_of]; unfold tile_of; cbn [t_data t_cap t_esz t_shape t_stride]; rewrite Eo; reflexivity].
    rewrite So. apply legal_smaller; [exact Lo|]. unfold hwc5, pick. cbn [t_shape map nth]. repeat constructor; lia.
Qed.

(** * A concrete case *)

(** 4 x 5 x 2 input, 3 x 3 kernel, stride 1 x 2, padding 1 on all sides, output 4 x 3 x 3, tiles of 3 x 2 x 2: 2 * 2 * 2 tiles. *)
Definition ex_dims : conv_dims := mkCd 4 5 2 3 3 4 3 3 3 2 2.
Definition ex_tcfg : conv_cfg := mkCv RELU_NONE 2 1 1 1 1 1 1 1.
Definition ex_X (r cl ch : Z) : Z := r * 10 + cl * 2 + ch.
Definition ex_K (kr kc ic oc : Z) : Z := kr * 18 + kc * 6 + ic * 3 + oc.
Definition ex_si := [40; 10; 2; 2; 1].
Definition ex_sw := [54; 18; 6; 3; 1].
Definition ex_so := [36; 9; 3; 3; 1].
(** The contents of a buffer of [n] elements into which the window at [base] was copied. *)
Definition ex_mem (n base : Z) : mem := fun a => if (0 <=? a) && (a <? n) then Some (base + a) else None.

Definition ex_bases (ob : conv_obj) : Z * Z :=
  let '(pi, pw, _) := conv_offsets ob in (ex_X (nth 1 pi 0) (nth 2 pi 0) (nth 4 pi 0), ex_K (nth 1 pw 0) (nth 2 pw 0) (nth 3 pw 0) (nth 4 pw 0)).

Lemma ex_dims_ok : conv_dims_ok ex_dims ex_tcfg.
Proof.
  unfold conv_dims_ok, chk_axis, ex_dims, ex_tcfg, in_ubits, smax. cbn [d_hi d_wi d_ci d_kh d_kw d_ho d_wo d_co d_th d_tw d_tc cv_sh cv_sw cv_dh cv_dw cv_top cv_left cv_bottom cv_right].
  change (2 ^ 20) with 1048576. change (2 ^ 8) with 256. change (2 ^ (32 - 1)) with 2147483648. change (2 ^ 14) with 16384.
  repeat split; try lia; repeat constructor; lia.
Qed.

Lemma ex_legal t n base : fits32 t -> chk_tensor t = ST_OK -> inner_stride_is_one t = true -> t_data t = 0 -> t_cap t = n * t_esz t -> 1 <= t_esz t -> legal t (ex_mem n base).
Proof.
  intros F C I D K E. split; [exact F|]. split; [exact C|]. split; [exact I|]. intros a Ha Hc. rewrite D. rewrite K in Hc.
  unfold allocated, ex_mem. assert (a < n) by nia. replace (0 <=? 0 + a) with true by (symmetry; apply Z.leb_le; lia).
  replace (0 + a <? n) with true by (symmetry; apply Z.ltb_lt; lia). discriminate.
Qed.

(** All eight tiles are ready when the windows are copied into buffers as large as the whole tensors ... *)
Example ex_conv_ready : exists i w o, conv_iters ex_dims ex_tcfg ex_si ex_sw ex_so = Some (i, w, o) /\ total_count (ti_cfg o) = 8
  /\ forall n, Z.of_nat n < 8 ->
     let ob := conv_updates n (conv_create i w o ex_tcfg (mkLb 0 40 1) (mkLb 0 54 1) (mkLb 0 144 4)) in
     tile_ready ob ex_X ex_K (ex_mem 40 (fst (ex_bases ob))) (ex_mem 54 (snd (ex_bases ob))) (ex_mem 36 0).
Proof.
  do 3 eexists. split; [apply iters_val; exact ex_dims_ok|]. split; [reflexivity|]. intros n Hn ob.
  destruct (conv_tile_legal ex_dims ex_tcfg ex_si ex_sw ex_so _ _ _ (mkLb 0 40 1) (mkLb 0 54 1) (mkLb 0 144 4) n (ex_mem 40 (fst (ex_bases ob))) (ex_mem 54 (snd (ex_bases ob))) (ex_mem 36 0)
    ex_dims_ok (iters_val ex_dims ex_tcfg ex_si ex_sw ex_so ex_dims_ok)) as (L1 & L2 & L3).
  1-3: apply ex_legal; [fits32_tac|reflexivity|reflexivity|reflexivity|reflexivity|cbn; lia].
  fold ob in L1, L2, L3. unfold tile_ready.
  assert (Bs : forall (nn base : Z), 0 <= base -> nn + base <= 127 -> mem_bits 8 (ex_mem nn base)).
  { intros nn base B1 B2 a x. unfold ex_mem. destruct ((0 <=? a) && (a <? nn)) eqn:E; [|discriminate]. intros Hx. injection Hx as <-.
    apply andb_true_iff in E. rewrite Z.leb_le, Z.ltb_lt in E. apply ib8. lia. }
  assert (Hc : In n [0; 1; 2; 3; 4; 5; 6; 7]%nat) by (do 8 (destruct n as [|n]; [cbn; tauto|]); lia).
  assert (Get : forall nn base a, 0 <= a < nn -> ex_mem nn base a = Some (base + a)).
  { intros nn base a Ha. unfold ex_mem. replace (0 <=? a) with true by (symmetry; apply Z.leb_le; lia). replace (a <? nn) with true by (symmetry; apply Z.ltb_lt; lia). reflexivity. }
  cbn [In] in Hc. decompose [or] Hc; clear Hc; try tauto; subst n;
  (let v := eval vm_compute in (conv_offsets ob) in assert (Eo : conv_offsets ob = v) by (vm_compute; reflexivity));
  (let v := eval vm_compute in (ex_bases ob) in assert (Eb : ex_bases ob = v) by (vm_compute; reflexivity));
  (let v := eval vm_compute in (hwc5 (co_tin ob)) in assert (Ei : hwc5 (co_tin ob) = v) by (vm_compute; reflexivity));
  (let v := eval vm_compute in (hwcn5 (co_tw ob)) in assert (Ew : hwcn5 (co_tw ob) = v) by (vm_compute; reflexivity));
  rewrite Eo; rewrite Eb in *; rewrite Ei in *; rewrite Ew in *; clear Eo Eb Ei Ew;
  (split; [exact L1|]); (split; [exact L2|]); (split; [exact L3|]); clear L1 L2 L3;
  (split; [apply Bs; cbn; lia|]); (split; [apply Bs; cbn; lia|]);
  (split; [intros r cl ch V|intros kr kc ic oc V]);
  cbn [t_shape valid] in V; unfold hwc_elem, hwc_addr;
  cbn [t_data t_stride addr off_hwc off_hwcn fst snd nth]; (rewrite Get; [f_equal; unfold ex_X, ex_K|]); lia.
Qed.

(** ... and one of their values. *)
Example ex_conv_value : conv_whole ex_dims ex_tcfg 5 ex_X ex_K 3 2 1 <> 0.
Proof. vm_compute. discriminate. Qed.

(** * What does not hold *)

(** The order in which the axes are iterated is a free parameter of the iterators, but Conv2d finds first and last tiles - and reports
    offsets - by iteration position instead of by axis. With width before height, the second tile of a column of two outputs (2 rows of
    input, 3 x 1 kernel, padding 1) keeps the top padding: its buffer holds the right window, but the result is not the convolution. *)
Theorem conv_order_refuted :
  exists (d : conv_dims) (c : conv_cfg) inp i w o mi mw m m' X Kf, conv_dims_ok d c
    /\ (let out := tile_cfg [1; d_ho d; d_wo d; 1; d_co d] [1; d_th d; d_tw d; 1; d_tc d] [0; 2; 1; 3; 4]%nat 0 in
        kernel_cfg out [1; d_hi d; d_wi d; 1; d_ci d] [1; (d_kh d - 1) * cv_dh c + 1; (d_kw d - 1) * cv_dw c + 1; 1; d_ci d] [1; cv_sh c; cv_sw c; 1; 0] [0; cv_top c; cv_left c; 0; 0] = Some inp
        /\ i = ti_new inp [1; d_hi d; d_wi d; 1; d_ci d] [2; 1; 1; 1; 1]
        /\ w = ti_new (mask_cfg out [true; true; true; true; false] [0; 1; 2; 3; 4] 5 [1; d_kh d; d_kw d; d_ci d; d_co d]) [1; d_kh d; d_kw d; d_ci d; d_co d] [3; 1; 1; 1; 1]
        /\ o = ti_new out [1; d_ho d; d_wo d; 1; d_co d] [2; 1; 1; 1; 1])
    /\ let ob := conv_update (conv_create i w o c (mkLb 0 2 1) (mkLb 0 3 1) (mkLb 0 4 4)) in
       sub_tensor (ti_cfg (co_in ob)) (ti_shape (co_in ob)) (ti_st (co_in ob)) = ([0; 0; 0; 0; 0], [1; 2; 1; 1; 1])
       /\ sub_tensor (ti_cfg (co_out ob)) (ti_shape (co_out ob)) (ti_st (co_out ob)) = ([0; 1; 0; 0; 0], [1; 1; 1; 1; 1])
       /\ holds3 mi (hwc5 (co_tin ob)) X (0, 0, 0) /\ holds4 mw (hwcn5 (co_tw ob)) Kf (0, 0, 0, 0)
       /\ conv_issue RM_UP true 0 0 ob mi mw m = Some m'
       /\ hwc_elem m' (hwc5 (co_tout ob)) 0 0 0 <> Some (conv_whole d c 0 X Kf 1 0 0).
Proof.
  set (d := mkCd 2 1 1 3 1 2 1 1 1 1 1). set (c := mkCv RELU_NONE 1 1 0 0 1 1 1 1).
  do 6 eexists. exists (ex_mem 2 1), (ex_mem 3 10), (ex_mem 1 0). eexists. exists (fun r _ _ => 1 + r), (fun kr _ _ _ => 10 + kr).
  split; [|split].
  - instantiate (1 := c). instantiate (1 := d).
    unfold conv_dims_ok, chk_axis, d, c, in_ubits, smax. cbn [d_hi d_wi d_ci d_kh d_kw d_ho d_wo d_co d_th d_tw d_tc cv_sh cv_sw cv_dh cv_dw cv_top cv_left cv_bottom cv_right].
    change (2 ^ 20) with 1048576. change (2 ^ 8) with 256. change (2 ^ (32 - 1)) with 2147483648. change (2 ^ 14) with 16384.
    repeat split; try lia; repeat constructor; lia.
  - split; [vm_compute; reflexivity|]. split; [reflexivity|]. split; reflexivity.
  - split; [reflexivity|]. split; [reflexivity|]. split; [|split; [|split]].
    + intros r cl ch V. match type of V with valid ?l _ => let v := eval vm_compute in l in change l with v in V end. cbn [valid] in V.
      assert (cl = 0) by lia. assert (ch = 0) by lia. subst. assert (R : r = 0 \/ r = 1) by lia. destruct R; subst; reflexivity.
    + intros kr kc ic oc V. match type of V with valid ?l _ => let v := eval vm_compute in l in change l with v in V end. cbn [valid] in V.
      assert (kc = 0) by lia. assert (ic = 0) by lia. assert (oc = 0) by lia. subst. assert (R : kr = 0 \/ kr = 1 \/ kr = 2) by lia. destruct R as [|[|]]; subst; reflexivity.
    + vm_compute. reflexivity.
    + vm_compute. discriminate.
Qed.

(** The last input tile can be larger than the first and the regular ones (it extends to the end of the axis, also over inputs that no
    window reads): a local buffer sized by those two does not suffice. *)
Theorem input_tile_bound_refuted : exists Do T D K S P A, axis_fits Do T D K S P A
  /\ let inp := kernel_dim (tile_dim 1 Do T 0) D K S P in
     exists k, 0 <= k < it_count inp /\ it_first_size inp < tile_len inp D k /\ it_size inp < tile_len inp D k.
Proof.
  exists 3, 1, 12, 1, 4, 0, 0. split; [unfold axis_fits; change (2 ^ 31) with 2147483648; lia|]. exists 2. vm_compute. repeat split; discriminate || reflexivity.
Qed.
