(** Tile-by-tile execution of the MLI 3.0 depthwise convolution (property C69). *)
From Coq Require Import ZArith List Lia Bool.
From Verif Require Import Base FxMath FxMathProofs Tensor TensorProofs MovProofs Quant QuantProofs DotProd DotProdProofs ArgMax Permute PermuteProofs
  Layout Pool PoolProofs PoolKernels Conv ConvSpec ConvProofs ConvValues ConvKernels ConvTheorems ConvInt Iter IterProofs IterTheorems TileRun TileProofs TileConv.
Import ListNotations.
Open Scope Z_scope.

(** * The problem *)

(** The whole depthwise convolution at output (b, H, W, ch): [X b r c ch] is the input, [Kf kr kc ch] the weights with zero point [zw];
    the input is extended by its zero point [zi] on all sides. *)
Definition dw_whole (d : conv_dims) (c : conv_cfg) (zi zw : Z) (X : Z -> Z -> Z -> Z -> Z) (Kf : Z -> Z -> Z -> Z) (b H W ch : Z) : Z :=
  taps (d_hi d) (d_wi d) (d_kh d) (d_kw d) (H * cv_sh c - cv_top c) (W * cv_sw c - cv_left c) (cv_dh c) (cv_dw c)
    (fun kr kc => X b (tap_r c H kr) (tap_c c W kc) ch * (Kf kr kc ch - zw))
    (fun kr kc => zi * (Kf kr kc ch - zw)).

(** [nb] batches, cut into tiles of [tb]; the other sizes as for a convolution with one input channel for each output channel. *)
Definition dw_dims_ok (nb tb : Z) (d : conv_dims) (c : conv_cfg) : Prop :=
  conv_dims_ok d c /\ d_ci d = 1 /\ 1 <= tb <= nb /\ nb <= 2 ^ 20 /\ d_kh d * d_kw d * (5 * 2 ^ 14) <= smax 32.

(** The iterators, set up as in user_tests/tests/mli_krn_depthwise_conv_30: B, H, W, G, C in this order. *)
Definition dw_iters (nb tb : Z) (d : conv_dims) (c : conv_cfg) (si sw so : list Z) : option (titer * titer * titer) :=
  let oshape := [nb; d_ho d; d_wo d; 1; d_co d] in
  let ishape := [nb; d_hi d; d_wi d; 1; d_co d] in
  let wshape := [d_kh d; d_kw d; d_co d] in
  let out := tile_cfg oshape [tb; d_th d; d_tw d; 1; d_tc d] [0; 1; 2; 3; 4]%nat 0 in
  match kernel_cfg out ishape [1; (d_kh d - 1) * cv_dh c + 1; (d_kw d - 1) * cv_dw c + 1; 1; 1] [1; cv_sh c; cv_sw c; 1; 1] [0; cv_top c; cv_left c; 0; 0] with
  | Some inp => Some (ti_new inp ishape si, ti_new (mask_cfg out [true; true; true; true; false] [-1; 0; 1; -1; 2] 3 wshape) wshape sw, ti_new out oshape so)
  | None => None
  end.

(** * The axes *)

(** An axis without window: the input is cut like the output. *)
Lemma axis_same o D T : 1 <= T <= D -> D <= 2 ^ 20 -> kernel_dim (tile_dim o D T 0) D 1 1 0 = tile_dim o D T 0.
Proof.
  intros HT HD. change (2 ^ 20) with 1048576 in HD.
  assert (Hb : D + T + T < 2 ^ 31) by (change (2 ^ 31) with 2147483648; lia).
  destruct (tile_dim_val o D T 0 HT ltac:(lia) Hb) as (E & Hn1 & Hn & Hnb). set (n := ceil_div (D + 0) T) in *.
  pose proof (kernel_dim_val o D T 0 D 1 1 0 HT ltac:(lia) Hb ltac:(lia) ltac:(lia) ltac:(lia) ltac:(lia) ltac:(lia) ltac:(change (2 ^ 31) with 2147483648; lia)) as K.
  cbv zeta in K. fold n in K. rewrite K.
  - rewrite E.
    assert (Hl : (D + 0 - 1) mod T = D - 1 - (n - 1) * T) by (symmetry; apply Z.mod_unique_pos with (q := n - 1); lia).
    rewrite Hl. destruct (1 <? n) eqn:E1; [f_equal; lia|]. apply Z.ltb_ge in E1. assert (H1 : n = 1) by lia. f_equal; rewrite ?H1; lia.
  - rewrite E. unfold tile_start. cbn [it_first_inc it_inc]. destruct (n - 1 =? 0) eqn:En; lia.
Qed.

Definition e_out (nb tb : Z) (d : conv_dims) : list idim :=
  [tile_dim 0 nb tb 0; tile_dim 1 (d_ho d) (d_th d) 0; tile_dim 2 (d_wo d) (d_tw d) 0; tile_dim 3 1 1 0; tile_dim 4 (d_co d) (d_tc d) 0].
Definition e_inp (nb tb : Z) (d : conv_dims) (c : conv_cfg) : list idim :=
  [tile_dim 0 nb tb 0;
   kernel_dim (tile_dim 1 (d_ho d) (d_th d) 0) (d_hi d) ((d_kh d - 1) * cv_dh c + 1) (cv_sh c) (cv_top c);
   kernel_dim (tile_dim 2 (d_wo d) (d_tw d) 0) (d_wi d) ((d_kw d - 1) * cv_dw c + 1) (cv_sw c) (cv_left c);
   tile_dim 3 1 1 0; tile_dim 4 (d_co d) (d_tc d) 0].
Definition e_wts (nb tb : Z) (d : conv_dims) : list idim :=
  let whole k o D := mkIdim k (it_count o) 0 0 0 D D D in
  [whole (-1) (tile_dim 0 nb tb 0) 0; whole 0 (tile_dim 1 (d_ho d) (d_th d) 0) (d_kh d); whole 1 (tile_dim 2 (d_wo d) (d_tw d) 0) (d_kw d);
   whole (-1) (tile_dim 3 1 1 0) 0; tile_dim 2 (d_co d) (d_tc d) 0].

Lemma dw_iters_val nb tb d c si sw so : dw_dims_ok nb tb d c -> dw_iters nb tb d c si sw so =
  Some (ti_new (e_inp nb tb d c) [nb; d_hi d; d_wi d; 1; d_co d] si, ti_new (e_wts nb tb d) [d_kh d; d_kw d; d_co d] sw, ti_new (e_out nb tb d) [nb; d_ho d; d_wo d; 1; d_co d] so).
Proof.
  intros (Hok & _ & Hb & Hnb & _). unfold dw_iters. change (tile_cfg _ _ _ 0) with (e_out nb tb d). unfold kernel_cfg.
  destruct (fits_h d c Hok) as (H1 & H0 & H2 & H3 & _ & _ & H4 & H5). destruct (fits_w d c Hok) as (W1 & W0 & W2 & W3 & _ & _ & W4 & W5).
  match goal with |- context [forallb ?f (e_out nb tb d)] => assert (E : forallb f (e_out nb tb d) = true) end.
  { assert (M1 : d_th d * 1 <= d_th d * cv_sh c <= (d_ho d + 2 * d_th d) * cv_sh c) by (split; [apply Z.mul_le_mono_nonneg_l|apply Z.mul_le_mono_nonneg_r]; lia).
    assert (M2 : d_tw d * 1 <= d_tw d * cv_sw c <= (d_wo d + 2 * d_tw d) * cv_sw c) by (split; [apply Z.mul_le_mono_nonneg_l|apply Z.mul_le_mono_nonneg_r]; lia).
    unfold e_out. cbn [forallb]. rewrite !andb_true_iff. repeat split; apply Z.leb_le.
    - change (0 <= uwrap 32 (wrap 32 (tb - 0) * 1)). apply Z.mod_pos_bound. reflexivity.
    - change (cv_top c <= uwrap 32 (wrap 32 (d_th d - 0) * cv_sh c)). rewrite w32_id by lia. rewrite u32_id; lia.
    - change (cv_left c <= uwrap 32 (wrap 32 (d_tw d - 0) * cv_sw c)). rewrite w32_id by lia. rewrite u32_id; lia.
    - change (0 <= uwrap 32 (wrap 32 (d_tc d - 0) * 1)). apply Z.mod_pos_bound. reflexivity. }
  rewrite E. pose proof Hok as (_ & _ & (_ & _ & T3) & _ & F & _). fall.
  pose proof (axis_same 0 nb tb Hb Hnb) as S0. pose proof (axis_same 4 (d_co d) (d_tc d) T3 ltac:(tauto || lia)) as S4.
  transitivity (Some (ti_new [kernel_dim (tile_dim 0 nb tb 0) nb 1 1 0;
     kernel_dim (tile_dim 1 (d_ho d) (d_th d) 0) (d_hi d) ((d_kh d - 1) * cv_dh c + 1) (cv_sh c) (cv_top c);
     kernel_dim (tile_dim 2 (d_wo d) (d_tw d) 0) (d_wi d) ((d_kw d - 1) * cv_dw c + 1) (cv_sw c) (cv_left c);
     kernel_dim (tile_dim 3 1 1 0) 1 1 1 0; kernel_dim (tile_dim 4 (d_co d) (d_tc d) 0) (d_co d) 1 1 0] [nb; d_hi d; d_wi d; 1; d_co d] si,
     ti_new (e_wts nb tb d) [d_kh d; d_kw d; d_co d] sw, ti_new (e_out nb tb d) [nb; d_ho d; d_wo d; 1; d_co d] so)); [reflexivity|].
  rewrite S0, S4. reflexivity.
Qed.

Lemma e_counts nb tb d c : dw_dims_ok nb tb d c ->
  counts_ok (e_out nb tb d) /\ map it_count (e_inp nb tb d c) = map it_count (e_out nb tb d) /\ map it_count (e_wts nb tb d) = map it_count (e_out nb tb d).
Proof.
  intros (Hok & _ & Hb & Hnb & _). split; [|split; reflexivity]. unfold counts_ok, e_out.
  destruct Hok as (_ & _ & (T1 & T2 & T3) & _ & F & _). fall. change (2 ^ 20) with 1048576 in *.
  repeat apply Forall_cons; try apply Forall_nil; apply tile_dim_cuts; lia.
Qed.

(** [n] calls of Update. *)
Lemma dw_updates_val n i w o c bi bw bo :
  let B := nth 0 (ti_size i) 0 in
  let one b it := let t := tile_of (mkLb (lb_data b) (lb_cap b / B) (lb_esz b)) it in with_shape t (batch1 (t_shape t)) in
  dw_updates n (dw_create i w o c bi bw bo)
  = mkDo (ti_run i n) (ti_run w n) (ti_run o n) c (dw_tile_pads c (ti_run i n)) B (one bi (ti_run i n)) (tile_of bw (ti_run w n)) (one bo (ti_run o n)).
Proof. cbv zeta. induction n as [|n IH]; cbn [dw_updates ti_run]; [reflexivity|]. rewrite IH. reflexivity. Qed.

(** * One tile *)

(** Weights of a legal rank-3 tensor, as the kernel sees them. *)
Lemma legal_hw1n t m a b n : t_shape t = [a; b; n] -> legal t m -> legal (hw1n3 t) m.
Proof.
  intros Es (F & C & I & Bk). destruct (chk_tensor_nested t F C) as (Hn & Hsp & Hcap). pose proof F as (Hl & He & Hb & H31).
  rewrite Es in *. destruct (t_stride t) as [|s0 [|s1 [|s2 [|]]]] eqn:Et; try discriminate Hl.
  assert (s2 = 1). { unfold inner_stride_is_one in I. rewrite Es, Et in I. cbn in I. apply Z.eqb_eq in I. exact I. }
  subst s2. cbn [nested span] in *. assert (Fb : fits32 (hw1n3 t)).
  { unfold fits32, hw1n3. rewrite Es, Et. cbn [t_shape t_stride t_esz length combine nth]. split; [reflexivity|]. split; [lia|]. split.
    - cbn [combine] in Hb. fall. cbn [fst snd] in *. repeat constructor; cbn [fst snd]; try tauto; unfold in_bits, smin, smax in *; change (2 ^ (32 - 1)) with 2147483648 in *; lia.
    - cbn [span]. clear - H31. nia. }
  split; [exact Fb|]. split; [|split; [|exact Bk]].
  - apply chk_tensor_complete; [exact Fb|..]; unfold hw1n3; cbn [t_shape t_stride t_cap t_esz]; rewrite ?Es, ?Et; cbn [nth length nested span]; try lia.
  - unfold hw1n3, inner_stride_is_one. rewrite Es, Et. reflexivity.
Qed.

(** What the n-th tile is: shapes, offsets and paddings by axis. *)
Lemma dw_tile_shape nb tb d c si sw so i w o bi bw bo n :
  dw_dims_ok nb tb d c -> dw_iters nb tb d c si sw so = Some (i, w, o) ->
  let ob := dw_updates n (dw_create i w o c bi bw bo) in
  exists b h v k, idx_at (e_out nb tb d) n = [b; h; v; 0; k]
    /\ let ax := tile_dim 0 nb tb 0 in
       let oh := tile_dim 1 (d_ho d) (d_th d) 0 in let ow := tile_dim 2 (d_wo d) (d_tw d) 0 in let oc := tile_dim 4 (d_co d) (d_tc d) 0 in
       let ih := kernel_dim oh (d_hi d) ((d_kh d - 1) * cv_dh c + 1) (cv_sh c) (cv_top c) in
       let iw := kernel_dim ow (d_wi d) ((d_kw d - 1) * cv_dw c + 1) (cv_sw c) (cv_left c) in
       0 <= b < it_count ax /\ 0 <= h < it_count oh /\ 0 <= v < it_count ow /\ 0 <= k < it_count oc /\ do_batch ob = tb
       /\ t_shape (do_tin ob) = [1; tile_len ih (d_hi d) h; tile_len iw (d_wi d) v; 1; tile_len oc (d_co d) k]
       /\ t_shape (do_tw ob) = [d_kh d; d_kw d; tile_len oc (d_co d) k]
       /\ t_shape (do_tout ob) = [1; tile_len oh (d_ho d) h; tile_len ow (d_wo d) v; 1; tile_len oc (d_co d) k]
       /\ dw_offsets ob = ([tile_start ax b; tile_start ih h; tile_start iw v; 0; tile_start oc k], [0; 0; tile_start oc k],
            [tile_start ax b; tile_start oh h; tile_start ow v; 0; tile_start oc k])
       /\ exists bt rt, do_tile_cfg ob = with_pad c (if h =? 0 then cv_top c else 0) (if v =? 0 then cv_left c else 0) bt rt.
Proof.
  intros Hok Hit ob. rewrite (dw_iters_val nb tb d c si sw so Hok) in Hit. injection Hit as <- <- <-.
  unfold ob. rewrite dw_updates_val. cbn [do_batch do_tin do_tw do_tout do_tile_cfg]. unfold dw_offsets. cbn [do_in do_w do_out].
  destruct (e_counts nb tb d c Hok) as (Co & Ei & Ew).
  rewrite !ti_run_at by first [exact Co|apply (counts_map _ _ Ei Co)|apply (counts_map _ _ Ew Co)].
  rewrite (idx_at_counts _ _ n Ei), (idx_at_counts _ _ n Ew). pose proof (idx_at_ok (e_out nb tb d) n Co) as Hidx.
  destruct (idx_at (e_out nb tb d) n) as [|b [|h [|v [|g [|k [|]]]]]]; cbn [e_out idx_ok] in Hidx; try tauto.
  destruct Hidx as (Hb & Hh & Hv & Hg & Hk & _). change (it_count (tile_dim 3 1 1 0)) with 1 in Hg.
  assert (g = 0) by lia. subst g. exists b, h, v, k. split; [reflexivity|]. cbv zeta.
  split; [exact Hb|]. split; [exact Hh|]. split; [exact Hv|]. split; [exact Hk|].
  destruct Hok as (Hok & Hci & Ht & Hnb & _). change (2 ^ 20) with 1048576 in Hnb.
  split.
  { change (tile_len (tile_dim 0 nb tb 0) nb 0 = tb).
    destruct (tile_dim_val 0 nb tb 0 Ht ltac:(lia) ltac:(change (2 ^ 31) with 2147483648; lia)) as (E & Hn1 & Hn & _). set (nn := ceil_div (nb + 0) tb) in *.
    rewrite E. unfold tile_len, tile_size, tile_start. cbn [it_count it_first_inc it_inc it_first_size it_size it_last_size].
    change (0 =? 0) with true. cbv iota. destruct (Z.eqb_spec 0 (nn - 1)) as [En|En]; [|lia].
    assert (nb = tb) by nia. subst nb. rewrite Z.mod_small by lia. lia. }
  set (n0 := it_count (tile_dim 0 nb tb 0)). set (n1 := it_count (tile_dim 1 (d_ho d) (d_th d) 0)). set (n2 := it_count (tile_dim 2 (d_wo d) (d_tw d) 0)).
  assert (HK : 1 <= d_kh d < 2 ^ 31 /\ 1 <= d_kw d < 2 ^ 31).
  { destruct Hok as (_ & _ & _ & _ & F & _). clear - F. fall. change (2 ^ 20) with 1048576 in *; change (2 ^ 31) with 2147483648; lia. }
  destruct (whole_axis 0 n1 (d_kh d) h (proj1 HK)) as [Z1 Z2]. destruct (whole_axis 1 n2 (d_kw d) v (proj2 HK)) as [Z3 Z4].
  split; [reflexivity|]. split; [|split; [reflexivity|split]].
  - transitivity [tile_len (mkIdim 0 n1 0 0 0 (d_kh d) (d_kh d) (d_kh d)) (d_kh d) h; tile_len (mkIdim 1 n2 0 0 0 (d_kw d) (d_kw d) (d_kw d)) (d_kw d) v;
      tile_len (tile_dim 4 (d_co d) (d_tc d) 0) (d_co d) k]; [reflexivity|]. rewrite Z2, Z4. reflexivity.
  - rewrite !ti_pos_at. f_equal. f_equal.
    transitivity [tile_start (mkIdim 0 n1 0 0 0 (d_kh d) (d_kh d) (d_kh d)) h; tile_start (mkIdim 1 n2 0 0 0 (d_kw d) (d_kw d) (d_kw d)) v; tile_start (tile_dim 4 (d_co d) (d_tc d) 0) k];
      [reflexivity|]. rewrite Z1, Z3. reflexivity.
  - do 2 eexists. reflexivity.
Qed.

Lemma chk_depthwise_intro tin tw tb tout c :
  chk_tensor tin = ST_OK -> chk_tensor tw = ST_OK -> chk_tensor tb = ST_OK -> chk_tensor tout = ST_OK ->
  t_rank tin = 3 -> t_rank tw = 4 -> t_rank tb = 1 -> t_rank tout = 3 ->
  inner_stride_is_one tin = true -> inner_stride_is_one tw = true -> inner_stride_is_one tb = true -> inner_stride_is_one tout = true ->
  dim tw 2 = 1 -> dim tb 0 = dim tw 3 -> dim tw 3 = dim tin 2 -> dim tw 3 = dim tout 2 -> chk_conv_cfg tin tw tout c = true ->
  chk_depthwise tin tw tb tout c 0 = ST_OK.
Proof.
  intros C1 C2 C3 C4 R1 R2 R3 R4 I1 I2 I3 I4 D1 D2 D3 D4 Hc.
  unfold chk_depthwise, chk_conv_with. rewrite C1, C2, C3, C4, R1, R2, R3, R4, I1, I2, I3, I4.
  change (nth 2 (t_shape tin) 0) with (dim tin 2). change (nth 2 (t_shape tw) 0) with (dim tw 2). change (nth 2 (t_shape tout) 0) with (dim tout 2).
  change (nth 3 (t_shape tw) 0) with (dim tw 3). change (nth 0 (t_shape tb) 0) with (dim tb 0). rewrite D1, D2, <- D3, <- D4, !Z.eqb_refl.
  cbn [andb negb Z.eqb]. rewrite Hc. reflexivity.
Qed.

(** The configuration check does not look at the channels. *)
Lemma chk_conv_cfg_intro tin tw tout c : conv_fits tin tw tout c ->
  1 <= dim tin 0 -> 1 <= dim tin 1 -> 1 <= dim tw 0 -> 1 <= dim tw 1 -> 1 <= dim tout 0 -> 1 <= dim tout 1 ->
  chk_axis (dim tout 0) (dim tin 0) (dim tw 0) (cv_sh c) (cv_dh c) (cv_top c) (cv_bottom c) ->
  chk_axis (dim tout 1) (dim tin 1) (dim tw 1) (cv_sw c) (cv_dw c) (cv_left c) (cv_right c) ->
  chk_conv_cfg tin tw tout c = true.
Proof.
  intros F P1 P2 P3 P4 P5 P6 (A1 & A2 & A3 & A4 & A5 & A6) (B1 & B2 & B3 & B4 & B5 & B6).
  destruct F as (U1 & U2 & U3 & U4 & U5 & U6 & U7 & U8 & U9).
  destruct (U9 tin ltac:(auto)) as [E1 E2]. destruct (U9 tw ltac:(auto)) as [E3 E4]. destruct (U9 tout ltac:(auto)) as [E5 E6]. clear U9.
  unfold in_ubits in *. change (2 ^ 8) with 256 in *. change (2 ^ 22) with 4194304 in *.
  unfold chk_conv_cfg. fold (dim tin 0) (dim tin 1) (dim tw 0) (dim tw 1) (dim tout 0) (dim tout 1).
  set (x0 := dim tin 0) in *. set (x1 := dim tin 1) in *. set (k0 := dim tw 0) in *. set (k1 := dim tw 1) in *. set (y0 := dim tout 0) in *. set (y1 := dim tout 1) in *.
  clearbody x0 x1 k0 k1 y0 y1.
  assert (W1 : 0 <= (k1 - 1) * cv_dw c <= 4194304 * 255) by (split; [apply Z.mul_nonneg_nonneg; lia|apply Z.mul_le_mono_nonneg; lia]).
  assert (W2 : 0 <= (k0 - 1) * cv_dh c <= 4194304 * 255) by (split; [apply Z.mul_nonneg_nonneg; lia|apply Z.mul_le_mono_nonneg; lia]).
  assert (W3 : 0 <= (y1 - 1) * cv_sw c <= 4194304 * 255) by (split; [apply Z.mul_nonneg_nonneg; lia|apply Z.mul_le_mono_nonneg; lia]).
  assert (W4 : 0 <= (y0 - 1) * cv_sh c <= 4194304 * 255) by (split; [apply Z.mul_nonneg_nonneg; lia|apply Z.mul_le_mono_nonneg; lia]).
  rewrite (wrap32_small ((k1 - 1) * cv_dw c + 1)) by (clear - W1; lia).
  rewrite (wrap32_small ((k0 - 1) * cv_dh c + 1)) by (clear - W2; lia).
  replace (y1 * cv_sw c + ((k1 - 1) * cv_dw c + 1) - cv_sw c) with ((y1 - 1) * cv_sw c + ((k1 - 1) * cv_dw c + 1)) by ring.
  replace (y0 * cv_sh c + ((k0 - 1) * cv_dh c + 1) - cv_sh c) with ((y0 - 1) * cv_sh c + ((k0 - 1) * cv_dh c + 1)) by ring.
  rewrite (wrap32_small (x1 + cv_left c + cv_right c)) by (clear - U3 U4 P2 E2; lia).
  rewrite (wrap32_small (x0 + cv_top c + cv_bottom c)) by (clear - U5 U6 P1 E1; lia).
  rewrite (wrap32_small ((y1 - 1) * cv_sw c + ((k1 - 1) * cv_dw c + 1))) by (clear - W1 W3; lia).
  rewrite (wrap32_small ((y0 - 1) * cv_sh c + ((k0 - 1) * cv_dh c + 1))) by (clear - W2 W4; lia).
  rewrite !andb_true_iff, !Z.gtb_lt, !Z.ltb_lt, !Z.leb_le. clear - A1 A2 A3 A4 A5 A6 B1 B2 B3 B4 B5 B6. lia.
Qed.

(** One run of the kernel on a tile, given the numbers of the two spatial axes and of the channels. *)
Lemma dw_tile_core d c rm full zi zw mi mw m X Kf tin tw tout bt rt ohs ohn ihs ihl ph ows own iws iwl pv osc ocn :
  conv_dims_ok d c -> d_kh d * d_kw d * (5 * 2 ^ 14) <= smax 32 ->
  legal tin mi -> legal tw mw -> legal tout m -> mem_bits 8 mi -> mem_bits 8 mw -> in_bits 8 zi -> in_bits 8 zw ->
  axis_view (d_hi d) ((d_kh d - 1) * cv_dh c + 1) (cv_sh c) (cv_top c) ohs ohn ihs ihl ph ->
  axis_view (d_wi d) ((d_kw d - 1) * cv_dw c + 1) (cv_sw c) (cv_left c) ows own iws iwl pv ->
  t_shape tin = [ihl; iwl; ocn] -> t_shape tw = [d_kh d; d_kw d; ocn] -> t_shape tout = [ohn; own; ocn] ->
  1 <= ohn <= d_ho d -> 1 <= own <= d_wo d -> 1 <= ocn <= d_co d -> 1 <= ihl <= d_hi d -> 1 <= iwl <= d_wi d ->
  0 <= ph <= cv_top c -> 0 <= pv <= cv_left c ->
  (ohn - 1) * cv_sh c + ((d_kh d - 1) * cv_dh c + 1) <= ihl + ph + cv_bottom c ->
  (own - 1) * cv_sw c + ((d_kw d - 1) * cv_dw c + 1) <= iwl + pv + cv_right c ->
  forall b, holds3 mi tin (X b) (ihs, iws, osc) -> holds3 mw tw Kf (0, 0, osc) ->
  exists m', depthwise_conv2d rm full (Q_int zi zw) 32 (mkQ 1 0 0) 0 mi mw None tin (hw1n3 tw) tout (with_pad c ph pv bt rt) m = Some m'
    /\ holds3 m' tout (dw_whole d c zi zw X Kf b) (ohs, ows, osc) /\ frame_ok tout m m'.
Proof.
  intros Hok HB (Fi & Ci & Ii & Bi) Lw (Fo & Co & Io & Bo) Mi Mw Iz Iw VH VW Si Sw So Hoh How Hoc Hih Hiw Hph Hpv HH8 HW8 b Xi Xw.
  pose proof (legal_hw1n tw mw _ _ _ Sw Lw) as (Fw & Cw & Iw1 & Bw).
  destruct Hok as ((A1 & A2 & A3 & A4 & A5 & A6) & (B1 & B2 & B3 & B4 & B5 & B6) & _ & _ & F & U & _).
  set (c' := with_pad c ph pv (cv_bottom c) (cv_right c)).
  change (exists m', depthwise_conv2d rm full (Q_int zi zw) 32 (mkQ 1 0 0) 0 mi mw None tin (hw1n3 tw) tout c' m = Some m'
    /\ holds3 m' tout (dw_whole d c zi zw X Kf b) (ohs, ows, osc) /\ frame_ok tout m m').
  fall. change (2 ^ 20) with 1048576 in *.
  assert (Sw' : t_shape (hw1n3 tw) = [d_kh d; d_kw d; 1; ocn]) by (unfold hw1n3; cbn [t_shape]; rewrite Sw; reflexivity).
  assert (Dm : (dim tin 0 = ihl /\ dim tin 1 = iwl /\ dim tin 2 = ocn) /\ (dim (hw1n3 tw) 0 = d_kh d /\ dim (hw1n3 tw) 1 = d_kw d /\ dim (hw1n3 tw) 2 = 1 /\ dim (hw1n3 tw) 3 = ocn)
    /\ (dim tout 0 = ohn /\ dim tout 1 = own /\ dim tout 2 = ocn)) by (unfold dim; rewrite Si, Sw', So; repeat split; reflexivity).
  destruct Dm as ((Di0 & Di1 & Di2) & (Dw0 & Dw1 & Dw2 & Dw3) & (Do0 & Do1 & Do2)).
  assert (Hf : conv_fits tin (hw1n3 tw) tout c').
  { unfold conv_fits, c', with_pad. cbn [cv_sw cv_sh cv_left cv_right cv_top cv_bottom cv_dw cv_dh]. repeat (split; [first [assumption|unfold in_ubits in *; lia]|]).
    change (2 ^ 22) with 4194304. intros t [-> | [-> | ->]]; [rewrite Di0, Di1|rewrite Dw0, Dw1|rewrite Do0, Do1]; lia. }
  destruct (vec_chk ocn ltac:(change (2 ^ 20) with 1048576; lia)) as [Fb Cb].
  assert (Hs : depthwise_shapes tin (hw1n3 tw) tout c').
  { exists (vec_t ocn). split; [exact Fb|].
    apply chk_depthwise_intro; try assumption; try (unfold t_rank; rewrite ?Si, ?Sw', ?So; reflexivity); try reflexivity;
    rewrite ?Di2, ?Dw2, ?Dw3, ?Do2; try reflexivity.
    apply chk_conv_cfg_intro; try exact Hf; rewrite ?Di0, ?Di1, ?Dw0, ?Dw1, ?Do0, ?Do1; try lia;
    unfold chk_axis, c', with_pad; cbn [cv_sw cv_sh cv_left cv_right cv_top cv_bottom cv_dw cv_dh]; repeat split; try assumption; try lia. }
  destruct (depthwise_int_correct rm full zi zw (mkQ 1 0 0) mi mw m tin (hw1n3 tw) tout c' Hs Hf Fi Fw Fo Bi Bw Bo Mi Mw Iz Iw) as (m' & Em & Hv & Hfr).
  { rewrite Dw0, Dw1. exact HB. }
  exists m'. split; [exact Em|]. split; [|exact Hfr]. intros y x oc V. rewrite (Hv y x oc V). cbn [fst snd].
  rewrite So in V. destruct V as (Vy & Vx & Vc & _).
  f_equal. unfold depthwise_int_sum, dw_whole, conv_taps. rewrite Di0, Di1, Dw0, Dw1.
  assert (EK : forall kr kc, 0 <= kr < d_kh d -> 0 <= kc < d_kw d -> at4 mw (hw1n3 tw) kr kc 0 oc = Kf kr kc (osc + oc)).
  { intros kr kc R1 R2. unfold at4, rd. pose proof (Xw kr kc oc) as Q. rewrite Sw in Q. specialize (Q ltac:(cbn [valid]; tauto)).
    unfold hwc_elem, hwc_addr in Q. cbn [fst snd] in Q.
    replace (t_data (hw1n3 tw) + addr (t_stride (hw1n3 tw)) [kr; kc; 0; oc]) with (t_data tw + addr (t_stride tw) [kr; kc; oc]).
    - rewrite Q. reflexivity.
    - assert (L : length (t_stride tw) = 3%nat) by (destruct Lw as ((L & _) & _); rewrite <- L, Sw; reflexivity).
      unfold hw1n3. cbn [t_data t_stride]. destruct (t_stride tw) as [|s0 [|s1 [|s2 [|]]]]; try discriminate L. cbn [addr nth]. ring. }
  change (cv_sh c') with (cv_sh c). change (cv_sw c') with (cv_sw c). change (cv_dh c') with (cv_dh c). change (cv_dw c') with (cv_dw c).
  change (cv_top c') with ph. change (cv_left c') with pv.
  apply (taps_view _ _ _ _ _ _ _ _ _ _ ohs ohn ihs ihl ph ows own iws iwl pv); try assumption.
  - intros kr kc R1 R2 R3 R4. rewrite EK by assumption. f_equal.
    unfold tap_r, tap_c, at3, rd. change (cv_sh c') with (cv_sh c). change (cv_sw c') with (cv_sw c). change (cv_dh c') with (cv_dh c). change (cv_dw c') with (cv_dw c).
    change (cv_top c') with ph. change (cv_left c') with pv.
    unfold holds3, hwc_elem, hwc_addr in Xi. rewrite Xi by (rewrite Si; cbn [valid]; tauto). cbn [fst snd].
    destruct VH as [E1 _]. destruct VW as [E2 _]. f_equal; lia.
  - intros kr kc R1 R2. rewrite EK by assumption. reflexivity.
Qed.

(** After the kernel the output tensor is still a legal one. *)
Lemma frame_legal t m m' X off a b n : t_shape t = [a; b; n] -> legal t m -> frame_ok t m m' -> holds3 m' t X off -> legal t m'.
Proof.
  intros Es (F & C & I & Bk) Hf He. split; [exact F|]. split; [exact C|]. split; [exact I|]. intros x Hx Hc. specialize (Bk x Hx Hc).
  unfold allocated in *. intros E. apply Bk. rewrite <- E. symmetry. apply Hf. intros y Hy Ey. rewrite Es in Hy.
  destruct y as [|r [|cl [|ch [|]]]]; cbn [valid] in Hy; try tauto.
  specialize (He r cl ch). rewrite Es in He. specialize (He ltac:(cbn [valid]; tauto)). unfold hwc_elem, hwc_addr in He. rewrite <- Ey, E in He. discriminate.
Qed.

Lemma frame_trans t m m' m'' : frame_ok t m m' -> frame_ok t m' m'' -> frame_ok t m m''.
Proof. intros A B a Ha. rewrite B, A by exact Ha. reflexivity. Qed.

Lemma hwc5_shape t a b e g f : t_shape t = [a; b; e; g; f] -> t_shape (hwc5 t) = [b; e; f].
Proof. intros E. unfold hwc5. cbn [t_shape]. rewrite E. reflexivity. Qed.

(** C69: one tile. Whatever the number of batches in the tile, the first one is computed, and nothing else is written. *)
Theorem dw_tile_correct nb tb d c si sw so i w o bi bw bo rm full zi zw mi mw m X Kf n :
  dw_dims_ok nb tb d c -> dw_iters nb tb d c si sw so = Some (i, w, o) ->
  let ob := dw_updates n (dw_create i w o c bi bw bo) in
  let '(pi, pw, po) := dw_offsets ob in
  let tin := hwc5 (do_tin ob) in let tw := do_tw ob in let tout := hwc5 (do_tout ob) in
  legal tin mi -> legal tw mw -> legal tout m -> mem_bits 8 mi -> mem_bits 8 mw -> in_bits 8 zi -> in_bits 8 zw ->
  holds3 mi tin (X (nth 0 pi 0)) (off_hwc pi) -> holds3 mw tw Kf (nth 0 pw 0, nth 1 pw 0, nth 2 pw 0) ->
  exists m', dw_issue rm full zi zw ob mi mw m = Some m'
    /\ holds3 m' tout (dw_whole d c zi zw X Kf (nth 0 po 0)) (off_hwc po) /\ frame_ok tout m m'.
Proof.
  intros Hok Hit ob. destruct (dw_tile_shape nb tb d c si sw so i w o bi bw bo n Hok Hit) as (b & h & v & k & _ & Hb & Hh & Hv & Hk & Hbs & Si & Sw & So & Hoff & bt & rt & Hcfg).
  fold ob in Si, Sw, So, Hoff, Hcfg, Hbs. rewrite Hoff. cbv zeta. cbn [nth off_hwc]. unfold off_hwc. cbn [nth].
  unfold dw_issue. rewrite Hcfg, Hbs. apply hwc5_shape in Si. apply hwc5_shape in So.
  generalize dependent (hwc5 (do_tin ob)). generalize dependent (do_tw ob). generalize dependent (hwc5 (do_tout ob)).
  intros tout So tw Sw tin Si Li Lw Lo Mi Mw Iz Iw Xi Xw. clear ob Hit Hcfg Hbs Hoff.
  destruct Hok as (Hok & _ & Ht & _ & HB).
  pose proof (axis_tile 1 _ _ _ _ _ _ _ h (fits_h d c Hok) Hh) as AH. pose proof (axis_tile 2 _ _ _ _ _ _ _ v (fits_w d c Hok) Hv) as AW. cbv zeta in AH, AW.
  pose proof Hok as ((_ & _ & A3 & _) & (_ & _ & B3 & _) & (T1 & T2 & T3) & _ & F & _).
  assert (AC : 1 <= tile_len (tile_dim 4 (d_co d) (d_tc d) 0) (d_co d) k <= d_co d).
  { destruct (tile_dim_cuts 4 (d_co d) (d_tc d) 0 T3 ltac:(lia)) as (Hc1 & Hc & Hlen); [fall; change (2 ^ 20) with 1048576 in *; change (2 ^ 31) with 2147483648; lia|].
    specialize (Hlen ltac:(lia) k Hk). pose proof (cuts_inside _ _ _ _ Hc1 Hc k Hk). lia. }
  destruct AH as (_ & (H1 & H2 & H3) & (H4 & H5 & H6) & H7 & H8 & H9). destruct AW as (_ & (W1 & W2 & W3) & (W4 & W5 & W6) & W7 & W8 & W9).
  pose proof (conj H7 H9 : axis_view _ _ _ _ _ _ _ _ _) as VH. pose proof (conj W7 W9 : axis_view _ _ _ _ _ _ _ _ _) as VW. clear H7 H9 W7 W9.
  assert (Hph : 0 <= (if h =? 0 then cv_top c else 0) <= cv_top c) by (clear - A3; destruct (h =? 0); lia).
  assert (Hpv : 0 <= (if v =? 0 then cv_left c else 0) <= cv_left c) by (clear - B3; destruct (v =? 0); lia).
  assert (Step : forall m, legal tout m -> exists m', depthwise_conv2d rm full (Q_int zi zw) 32 (mkQ 1 0 0) 0 mi mw None tin (hw1n3 tw) tout
      (with_pad c (if h =? 0 then cv_top c else 0) (if v =? 0 then cv_left c else 0) bt rt) m = Some m'
    /\ holds3 m' tout (dw_whole d c zi zw X Kf (tile_start (tile_dim 0 nb tb 0) b)) (tile_start (tile_dim 1 (d_ho d) (d_th d) 0) h, tile_start (tile_dim 2 (d_wo d) (d_tw d) 0) v, tile_start (tile_dim 4 (d_co d) (d_tc d) 0) k)
    /\ frame_ok tout m m').
  { intros m1 L1.
    apply (dw_tile_core d c rm full zi zw mi mw m1 X Kf tin tw tout) with (10 := VH) (11 := VW) (ocn := tile_len (tile_dim 4 (d_co d) (d_tc d) 0) (d_co d) k);
      first [assumption|exact AC|idtac].
    - clear - H1 T1. lia.
    - clear - W1 T2. lia.
    - clear - H4 H5 H6. lia.
    - clear - W4 W5 W6. lia. }
  set (G := fun m' => holds3 m' tout (dw_whole d c zi zw X Kf (tile_start (tile_dim 0 nb tb 0) b)) (tile_start (tile_dim 1 (d_ho d) (d_th d) 0) h, tile_start (tile_dim 2 (d_wo d) (d_tw d) 0) v, tile_start (tile_dim 4 (d_co d) (d_tc d) 0) k)) in *.
  match goal with |- exists m', foldM ?f _ _ = _ /\ _ => 
    destruct (zloop_inv f (fun q m' => legal tout m' /\ frame_ok tout m m' /\ (1 <= q -> G m')) tb m ltac:(lia)) as (m' & E & I1 & I2 & I3) end.
  - split; [exact Lo|]. split; [intros a _; reflexivity|lia].
  - intros q m1 Hq (L1 & F1 & _). destruct (Step m1 L1) as (m2 & E2 & G2 & F2). exists m2. split; [exact E2|]. split; [|split].
    + exact (frame_legal tout m1 m2 _ _ _ _ _ So L1 F2 G2).
    + exact (frame_trans _ _ _ _ F1 F2).
    + intros _. exact G2.
  - exists m'. split; [exact E|]. split; [apply I3; lia|exact I2].
Qed.

(** * All tiles *)

(** Output (b, H, W, ch) of the whole tensor belongs to the current output tile: its position in the tile, from the offsets that the
    object reports, is a position of the tile. *)
Definition dw_in_tile (ob : dw_obj) (b H W ch : Z) : Prop :=
  let '(_, _, po) := dw_offsets ob in valid (t_shape (do_tout ob)) [b - nth 0 po 0; H - nth 1 po 0; W - nth 2 po 0; 0 - nth 3 po 0; ch - nth 4 po 0].

(** The value of output (b, H, W, ch) in the current output tile in memory [m]. *)
Definition dw_out_value (ob : dw_obj) (m : mem) (b H W ch : Z) : option Z :=
  let '(_, _, po) := dw_offsets ob in
  m (t_data (do_tout ob) + addr (t_stride (do_tout ob)) [b - nth 0 po 0; H - nth 1 po 0; W - nth 2 po 0; 0 - nth 3 po 0; ch - nth 4 po 0]).

(** The buffers before Issue: legal tensors; input and weights hold the windows at the offsets that the object reports. *)
Definition dw_ready (ob : dw_obj) (X : Z -> Z -> Z -> Z -> Z) (Kf : Z -> Z -> Z -> Z) (mi mw m : mem) : Prop :=
  let '(pi, pw, _) := dw_offsets ob in
  legal (hwc5 (do_tin ob)) mi /\ legal (do_tw ob) mw /\ legal (hwc5 (do_tout ob)) m /\ mem_bits 8 mi /\ mem_bits 8 mw
  /\ holds3 mi (hwc5 (do_tin ob)) (X (nth 0 pi 0)) (off_hwc pi) /\ holds3 mw (do_tw ob) Kf (nth 0 pw 0, nth 1 pw 0, nth 2 pw 0).

(** Every output belongs to exactly one tile, when the tiles have one batch. *)
Lemma dw_tiles_cover nb d c si sw so i w o bi bw bo :
  dw_dims_ok nb 1 d c -> dw_iters nb 1 d c si sw so = Some (i, w, o) ->
  let ob n := dw_updates n (dw_create i w o c bi bw bo) in
  forall b H W ch, 0 <= b < nb -> 0 <= H < d_ho d -> 0 <= W < d_wo d -> 0 <= ch < d_co d ->
  exists n, (Z.of_nat n < total_count (ti_cfg o) /\ dw_in_tile (ob n) b H W ch)
    /\ forall n', Z.of_nat n' < total_count (ti_cfg o) -> dw_in_tile (ob n') b H W ch -> n' = n.
Proof.
  intros Hok Hit ob b H W ch RB RH RW RC.
  assert (Hcfg : ti_cfg o = e_out nb 1 d) by (rewrite (dw_iters_val nb 1 d c si sw so Hok) in Hit; injection Hit as <- <- <-; reflexivity). rewrite Hcfg.
  set (oshape := [nb; d_ho d; d_wo d; 1; d_co d]). set (bufs := repeat (mkBdim 0 0 0 0) 5).
  destruct (e_counts nb 1 d c Hok) as (Hc & _).
  pose proof (tiles_partition oshape [1; d_th d; d_tw d; 1; d_tc d] [0; 1; 2; 3; 4]%nat 0 bufs 1) as P.
  change (tile_cfg oshape _ _ 0) with (e_out nb 1 d) in P. cbv zeta in P.
  assert (B : forall n, (in_box (fst (sub_tensor (e_out nb 1 d) oshape (fst (iter_run (e_out nb 1 d) bufs 1 n)))) (snd (sub_tensor (e_out nb 1 d) oshape (fst (iter_run (e_out nb 1 d) bufs 1 n)))) [b; H; W; 0; ch]
                <-> dw_in_tile (ob n) b H W ch)).
  { intros n. rewrite <- (ti_run_iter (e_out nb 1 d) oshape so bufs 1 n Hc) by reflexivity. rewrite ti_run_at by exact Hc.
    destruct (dw_tile_shape nb 1 d c si sw so i w o bi bw bo n Hok Hit) as (q & h & v & k & Ei & Hq & Hh & Hv & Hk & _ & _ & _ & So & Hoff & _).
    fold (ob n) in So, Hoff. unfold dw_in_tile. rewrite Hoff, So, Ei. cbn [nth ti_st].
    change (sub_tensor (e_out nb 1 d) oshape (at_tile (e_out nb 1 d) [q; h; v; 0; k])) with
      ([uwrap 32 (tile_start (tile_dim 0 nb 1 0) q); uwrap 32 (tile_start (tile_dim 1 (d_ho d) (d_th d) 0) h); uwrap 32 (tile_start (tile_dim 2 (d_wo d) (d_tw d) 0) v); 0; uwrap 32 (tile_start (tile_dim 4 (d_co d) (d_tc d) 0) k)],
       [tile_len (tile_dim 0 nb 1 0) nb q; tile_len (tile_dim 1 (d_ho d) (d_th d) 0) (d_ho d) h; tile_len (tile_dim 2 (d_wo d) (d_tw d) 0) (d_wo d) v; 1; tile_len (tile_dim 4 (d_co d) (d_tc d) 0) (d_co d) k]).
    cbn [fst snd].
    assert (A : forall ax D T j, 1 <= T <= D -> D <= 2 ^ 20 -> 0 <= j < it_count (tile_dim ax D T 0) -> uwrap 32 (tile_start (tile_dim ax D T 0) j) = tile_start (tile_dim ax D T 0) j).
    { intros ax D T j HT HD Hj. change (2 ^ 20) with 1048576 in HD.
      destruct (tile_dim_cuts ax D T 0 HT ltac:(lia) ltac:(change (2 ^ 31) with 2147483648; lia)) as (N1 & Cu & _).
      pose proof (cuts_inside _ _ _ _ N1 Cu j Hj) as I. destruct Cu as (_ & _ & _ & Sz). specialize (Sz j Hj).
      apply u32_id. change (2 ^ 32) with 4294967296. lia. }
    destruct Hok as ((_ & _ & (T1 & T2 & T3) & _ & F & _) & _ & T0 & N0 & _). fall. rewrite !A by (assumption || lia).
    assert (L0 : tile_len (tile_dim 0 nb 1 0) nb q = 1).
    { change (2 ^ 20) with 1048576 in N0. destruct (tile_dim_cuts 0 nb 1 0 T0 ltac:(lia) ltac:(change (2 ^ 31) with 2147483648; lia)) as (_ & Cu & Hl). specialize (Hl ltac:(lia) q Hq).
      destruct Cu as (_ & _ & _ & Sz). specialize (Sz q Hq). lia. }
    rewrite L0.
    unfold in_box. split.
    - intros [_ I]. pose proof (I 0%nat ltac:(cbn; lia)) as I0. pose proof (I 1%nat ltac:(cbn; lia)) as I1. pose proof (I 2%nat ltac:(cbn; lia)) as I2. pose proof (I 4%nat ltac:(cbn; lia)) as I4.
      cbn [nth] in I0, I1, I2, I4. cbn [valid]. lia.
    - cbn [valid]. intros (I0 & I1 & I2 & I3 & I4 & _). split; [reflexivity|]. intros [|[|[|[|[|a]]]]] Ha; cbn [nth length] in *; lia. }
  destruct P with (c := [b; H; W; 0; ch]) as (n & [Hn Hin] & Hu).
  - split; [repeat constructor; cbn; intuition lia|]. split; [reflexivity|]. cbn [length oshape]. repeat constructor; lia.
  - destruct Hok as ((_ & _ & (T1 & T2 & T3) & _ & F & _) & _ & T0 & N0 & _). fall. change (2 ^ 20) with 1048576 in *. change (2 ^ 31) with 2147483648.
    intros [|[|[|[|[|a]]]]] Ha; cbn [nth length oshape] in *; lia.
  - intros a Ha. destruct Hok as ((_ & _ & (T1 & T2 & T3) & _) & _). cbn [In] in Ha. decompose [or] Ha; subst; cbn [nth]; lia.
  - reflexivity.
  - unfold oshape. cbn [valid]. lia.
  - exists (Z.to_nat n). split; [split; [lia|]|].
    + apply B. exact Hin.
    + intros n' Hn' Hin'. apply B in Hin'. rewrite <- (Nat2Z.id n') in Hin'. apply Hu in Hin'; lia.
Qed.

(** C69: with one batch in a tile, and whatever the other tile sizes, processing all tiles yields the depthwise convolution of the whole
    tensors: every Issue succeeds and every output belongs to exactly one tile, which receives its value. *)
Theorem dw_tiles_whole nb d c si sw so i w o bi bw bo rm full zi zw X Kf (mi mw m : nat -> mem) :
  dw_dims_ok nb 1 d c -> dw_iters nb 1 d c si sw so = Some (i, w, o) -> length so = 5%nat -> in_bits 8 zi -> in_bits 8 zw ->
  let ob n := dw_updates n (dw_create i w o c bi bw bo) in
  let total := total_count (ti_cfg o) in
  (forall n, Z.of_nat n < total -> dw_ready (ob n) X Kf (mi n) (mw n) (m n)) ->
  exists out : nat -> mem,
    (forall n, Z.of_nat n < total -> dw_issue rm full zi zw (ob n) (mi n) (mw n) (m n) = Some (out n))
    /\ forall b H W ch, 0 <= b < nb -> 0 <= H < d_ho d -> 0 <= W < d_wo d -> 0 <= ch < d_co d ->
       exists n, (Z.of_nat n < total /\ dw_in_tile (ob n) b H W ch /\ dw_out_value (ob n) (out n) b H W ch = Some (dw_whole d c zi zw X Kf b H W ch))
         /\ forall n', Z.of_nat n' < total -> dw_in_tile (ob n') b H W ch -> n' = n.
Proof.
  intros Hok Hit Ls Iz Iw ob total Hr.
  set (out := fun n => match dw_issue rm full zi zw (ob n) (mi n) (mw n) (m n) with Some x => x | None => m n end).
  assert (T : forall n, Z.of_nat n < total -> dw_issue rm full zi zw (ob n) (mi n) (mw n) (m n) = Some (out n)
    /\ holds3 (out n) (hwc5 (do_tout (ob n))) (dw_whole d c zi zw X Kf (nth 0 (snd (dw_offsets (ob n))) 0)) (off_hwc (snd (dw_offsets (ob n))))).
  { intros n Hn. pose proof (dw_tile_correct nb 1 d c si sw so i w o bi bw bo rm full zi zw (mi n) (mw n) (m n) X Kf n Hok Hit) as Q. cbv zeta in Q.
    change (dw_updates n (dw_create i w o c bi bw bo)) with (ob n) in Q. specialize (Hr n Hn). unfold dw_ready in Hr.
    unfold out. destruct (dw_offsets (ob n)) as [[pi pw] po]. destruct Hr as (L1 & L2 & L3 & M1 & M2 & X1 & X2).
    destruct (Q L1 L2 L3 M1 M2 Iz Iw X1 X2) as (m' & E & Hh & _). rewrite E. split; [reflexivity|exact Hh]. }
  exists out. split; [intros n Hn; apply T; exact Hn|]. intros b H W ch RB RH RW RC.
  destruct (dw_tiles_cover nb d c si sw so i w o bi bw bo Hok Hit b H W ch RB RH RW RC) as (n & [Hn Hin] & Hu).
  change (dw_in_tile (ob n) b H W ch) in Hin. change (forall n', Z.of_nat n' < total -> dw_in_tile (ob n') b H W ch -> n' = n) in Hu.
  exists n. split; [|exact Hu]. split; [exact Hn|]. split; [exact Hin|]. destruct (T n Hn) as [_ Hv].
  assert (Es : t_stride (do_tout (ob n)) = so).
  { unfold ob. rewrite dw_updates_val. cbn [do_tout with_shape t_stride]. rewrite (dw_iters_val nb 1 d c si sw so Hok) in Hit. injection Hit as <- <- <-.
    change (ti_stride (ti_run (ti_new (e_out nb 1 d) [nb; d_ho d; d_wo d; 1; d_co d] so) n) = so). clear. induction n as [|n IH]; cbn [ti_run]; [reflexivity|exact IH]. }
  destruct (dw_tile_shape nb 1 d c si sw so i w o bi bw bo n Hok Hit) as (q & h & v & k & _ & _ & _ & _ & _ & _ & _ & _ & So & Hoff & _).
  change (dw_updates n (dw_create i w o c bi bw bo)) with (ob n) in So, Hoff. unfold dw_in_tile in Hin. unfold dw_out_value.
  rewrite Hoff in *. rewrite So in Hin. cbn [nth snd off_hwc valid] in *. unfold off_hwc in Hv. cbn [nth] in Hv.
  assert (Vb : b = tile_start (tile_dim 0 nb 1 0) q) by lia. apply hwc5_shape in So.
  pose proof (Hv (H - tile_start (tile_dim 1 (d_ho d) (d_th d) 0) h) (W - tile_start (tile_dim 2 (d_wo d) (d_tw d) 0) v) (ch - tile_start (tile_dim 4 (d_co d) (d_tc d) 0) k)) as Q.
  rewrite So in Q. specialize (Q ltac:(cbn [valid]; tauto)). cbn [fst snd] in Q. rewrite <- Vb in Q.
  replace (tile_start (tile_dim 1 (d_ho d) (d_th d) 0) h + (H - tile_start (tile_dim 1 (d_ho d) (d_th d) 0) h)) with H in Q by ring.
  replace (tile_start (tile_dim 2 (d_wo d) (d_tw d) 0) v + (W - tile_start (tile_dim 2 (d_wo d) (d_tw d) 0) v)) with W in Q by ring.
  replace (tile_start (tile_dim 4 (d_co d) (d_tc d) 0) k + (ch - tile_start (tile_dim 4 (d_co d) (d_tc d) 0) k)) with ch in Q by ring.
  rewrite <- Q. unfold hwc_elem, hwc_addr, hwc5. cbn [t_data t_stride]. rewrite Es. rewrite <- Vb.
  destruct so as [|s0 [|s1 [|s2 [|s3 [|s4 [|]]]]]]; try discriminate Ls. unfold pick. cbn [map nth addr]. f_equal. ring.
Qed.

(** Buffers with room for one batch of the whole tensors are legal for every tile. *)
Theorem dw_tile_legal nb d c si sw so i w o bi bw bo n mi mw m :
  dw_dims_ok nb 1 d c -> dw_iters nb 1 d c si sw so = Some (i, w, o) ->
  legal (hwc5 (mkTensor (lb_data bi) (lb_cap bi) (lb_esz bi) [1; d_hi d; d_wi d; 1; d_co d] si false (-1) 0)) mi ->
  legal (mkTensor (lb_data bw) (lb_cap bw) (lb_esz bw) [d_kh d; d_kw d; d_co d] sw false (-1) 0) mw ->
  legal (hwc5 (mkTensor (lb_data bo) (lb_cap bo) (lb_esz bo) [1; d_ho d; d_wo d; 1; d_co d] so false (-1) 0)) m ->
  let ob := dw_updates n (dw_create i w o c bi bw bo) in
  legal (hwc5 (do_tin ob)) mi /\ legal (do_tw ob) mw /\ legal (hwc5 (do_tout ob)) m.
Proof.
  intros Hok Hit Li Lw Lo ob.
  destruct (dw_tile_shape nb 1 d c si sw so i w o bi bw bo n Hok Hit) as (b & h & v & k & _ & Hb & Hh & Hv & Hk & Hbt & Si & Sw & So & _).
  fold ob in Si, Sw, So, Hbt. pose proof Hok as (Hok' & _).
  pose proof (axis_tile 1 _ _ _ _ _ _ _ h (fits_h d c Hok') Hh) as AH. pose proof (axis_tile 2 _ _ _ _ _ _ _ v (fits_w d c Hok') Hv) as AW. cbv zeta in AH, AW.
  destruct AH as (_ & (H1 & H2 & H3) & (H4 & H5 & H6) & _). destruct AW as (_ & (W1 & W2 & W3) & (W4 & W5 & W6) & _).
  pose proof Hok' as (_ & _ & (T1 & T2 & T3) & _ & F & _). fall. change (2 ^ 20) with 1048576 in *.
  assert (AC : 1 <= tile_len (tile_dim 4 (d_co d) (d_tc d) 0) (d_co d) k <= d_co d).
  { destruct (tile_dim_cuts 4 (d_co d) (d_tc d) 0 T3 ltac:(lia)) as (Hc1 & Hc & Hlen); [change (2 ^ 31) with 2147483648; lia|].
    specialize (Hlen ltac:(lia) k Hk). pose proof (cuts_inside _ _ _ _ Hc1 Hc k Hk). lia. }
  assert (E : (t_data (do_tin ob) = lb_data bi /\ t_cap (do_tin ob) = lb_cap bi /\ t_esz (do_tin ob) = lb_esz bi /\ t_stride (do_tin ob) = si)
    /\ do_tw ob = with_shape (mkTensor (lb_data bw) (lb_cap bw) (lb_esz bw) [d_kh d; d_kw d; d_co d] sw false (-1) 0) (t_shape (do_tw ob))
    /\ (t_data (do_tout ob) = lb_data bo /\ t_cap (do_tout ob) = lb_cap bo /\ t_esz (do_tout ob) = lb_esz bo /\ t_stride (do_tout ob) = so)).
  { assert (Hs : forall j l, ti_stride (ti_run j l) = ti_stride j) by (intros j l; clear; induction l as [|l IH]; cbn [ti_run]; [reflexivity|exact IH]).
    unfold ob in *. rewrite dw_updates_val in *. cbn [do_batch] in Hbt. rewrite Hbt. rewrite (dw_iters_val nb 1 d c si sw so Hok) in Hit. injection Hit as <- <- <-.
    cbn [do_tin do_tw do_tout with_shape tile_of t_data t_cap t_esz t_stride t_shape lb_data lb_cap lb_esz]. rewrite !Z.div_1_r.
    unfold tile_of, with_shape. cbn [t_data t_cap t_esz t_stride t_shape t_asym t_qdim t_qoff lb_data lb_cap lb_esz].
    rewrite !Hs. cbn [ti_new ti_stride]. repeat split. }
  destruct E as ((D1 & D2 & D3 & D4) & Ew & (G1 & G2 & G3 & G4)).
  split; [|split].
  - replace (hwc5 (do_tin ob)) with (with_shape (hwc5 (mkTensor (lb_data bi) (lb_cap bi) (lb_esz bi) [1; d_hi d; d_wi d; 1; d_co d] si false (-1) 0)) (t_shape (hwc5 (do_tin ob))));
    [|unfold with_shape, hwc5; cbn [t_data t_cap t_esz t_shape t_stride t_asym t_qdim t_qoff]; rewrite D1, D2, D3, D4; reflexivity].
    rewrite (hwc5_shape _ _ _ _ _ _ Si). apply legal_smaller; [exact Li|]. unfold hwc5, pick. cbn [t_shape map nth]. repeat constructor; lia.
  - rewrite Ew, Sw. apply legal_smaller; [exact Lw|]. cbn [t_shape]. repeat constructor; lia.
  - replace (hwc5 (do_tout ob)) with (with_shape (hwc5 (mkTensor (lb_data bo) (lb_cap bo) (lb_esz bo) [1; d_ho d; d_wo d; 1; d_co d] so false (-1) 0)) (t_shape (hwc5 (do_tout ob))));
    [|unfold with_shape, hwc5; cbn [t_data t_cap t_esz t_shape t_stride t_asym t_qdim t_qoff]; rewrite G1, G2, G3, G4; reflexivity].
    rewrite (hwc5_shape _ _ _ _ _ _ So). apply legal_smaller; [exact Lo|]. unfold hwc5, pick. cbn [t_shape map nth]. repeat constructor; lia.
Qed.

(** * A concrete case *)

(** 2 batches of 4 x 5 x 2 inputs, 3 x 3 kernel, stride 1 x 2, padding 1 on all sides, output 4 x 3 x 2, tiles of 3 x 2 x 1: 16 tiles. *)
Definition dwx_dims : conv_dims := mkCd 4 5 1 3 3 4 3 2 3 2 1.
Definition dwx_X (b r cl ch : Z) : Z := b * 40 + r * 10 + cl * 2 + ch.
Definition dwx_K (kr kc ch : Z) : Z := kr * 6 + kc * 2 + ch.
Definition dwx_si := [40; 10; 2; 2; 1].
Definition dwx_sw := [6; 2; 1].
Definition dwx_so := [24; 6; 2; 2; 1].
Definition dwx_bases (ob : dw_obj) : Z * Z :=
  let '(pi, pw, _) := dw_offsets ob in (dwx_X (nth 0 pi 0) (nth 1 pi 0) (nth 2 pi 0) (nth 4 pi 0), dwx_K (nth 0 pw 0) (nth 1 pw 0) (nth 2 pw 0)).

Lemma dwx_dims_ok : dw_dims_ok 2 1 dwx_dims ex_tcfg.
Proof.
  unfold dw_dims_ok, conv_dims_ok, chk_axis, dwx_dims, ex_tcfg, in_ubits, smax. cbn [d_hi d_wi d_ci d_kh d_kw d_ho d_wo d_co d_th d_tw d_tc cv_sh cv_sw cv_dh cv_dw cv_top cv_left cv_bottom cv_right].
  change (2 ^ 20) with 1048576. change (2 ^ 8) with 256. change (2 ^ (32 - 1)) with 2147483648. change (2 ^ 14) with 16384.
  repeat split; try lia; repeat constructor; lia.
Qed.

(** All sixteen tiles are ready when the windows are copied into the buffers. *)
Example dwx_ready : exists i w o, dw_iters 2 1 dwx_dims ex_tcfg dwx_si dwx_sw dwx_so = Some (i, w, o) /\ total_count (ti_cfg o) = 16
  /\ forall n, Z.of_nat n < 16 ->
     let ob := dw_updates n (dw_create i w o ex_tcfg (mkLb 0 40 1) (mkLb 0 18 1) (mkLb 0 96 4)) in
     dw_ready ob dwx_X dwx_K (ex_mem 40 (fst (dwx_bases ob))) (ex_mem 18 (snd (dwx_bases ob))) (ex_mem 24 0).
Proof.
  do 3 eexists. split; [apply dw_iters_val; exact dwx_dims_ok|]. split; [reflexivity|]. intros n Hn ob.
  destruct (dw_tile_legal 2 dwx_dims ex_tcfg dwx_si dwx_sw dwx_so _ _ _ (mkLb 0 40 1) (mkLb 0 18 1) (mkLb 0 96 4) n (ex_mem 40 (fst (dwx_bases ob))) (ex_mem 18 (snd (dwx_bases ob))) (ex_mem 24 0)
    dwx_dims_ok (dw_iters_val 2 1 dwx_dims ex_tcfg dwx_si dwx_sw dwx_so dwx_dims_ok)) as (L1 & L2 & L3).
  1-3: apply ex_legal; [fits32_tac|reflexivity|reflexivity|reflexivity|reflexivity|cbn; lia].
  fold ob in L1, L2, L3. unfold dw_ready.
  assert (Bs : forall (nn base : Z), 0 <= base -> nn + base <= 127 -> mem_bits 8 (ex_mem nn base)).
  { intros nn base B1 B2 a x. unfold ex_mem. destruct ((0 <=? a) && (a <? nn)) eqn:E; [|discriminate]. intros Hx. injection Hx as <-.
    apply andb_true_iff in E. rewrite Z.leb_le, Z.ltb_lt in E. apply ib8. lia. }
  assert (Hc : In n [0; 1; 2; 3; 4; 5; 6; 7; 8; 9; 10; 11; 12; 13; 14; 15]%nat) by (do 16 (destruct n as [|n]; [cbn; tauto|]); lia).
  assert (Get : forall nn base a, 0 <= a < nn -> ex_mem nn base a = Some (base + a)).
  { intros nn base a Ha. unfold ex_mem. replace (0 <=? a) with true by (symmetry; apply Z.leb_le; lia). replace (a <? nn) with true by (symmetry; apply Z.ltb_lt; lia). reflexivity. }
  cbn [In] in Hc. decompose [or] Hc; clear Hc; try tauto; subst n;
  (let v := eval vm_compute in (dw_offsets ob) in assert (Eo : dw_offsets ob = v) by (vm_compute; reflexivity));
  (let v := eval vm_compute in (dwx_bases ob) in assert (Eb : dwx_bases ob = v) by (vm_compute; reflexivity));
  (let v := eval vm_compute in (hwc5 (do_tin ob)) in assert (Ei : hwc5 (do_tin ob) = v) by (vm_compute; reflexivity));
  (let v := eval vm_compute in (do_tw ob) in assert (Ew : do_tw ob = v) by (vm_compute; reflexivity));
  rewrite Eo; rewrite Eb in *; rewrite Ei in *; rewrite Ew in *; clear Eo Eb Ei Ew;
  (split; [exact L1|]); (split; [exact L2|]); (split; [exact L3|]); clear L1 L2 L3;
  (split; [apply Bs; cbn; lia|]); (split; [apply Bs; cbn; lia|]);
  (split; [intros r cl ch V|intros kr kc ch V]);
  cbn [t_shape valid] in V; unfold hwc_elem, hwc_addr;
  cbn [t_data t_stride addr off_hwc fst snd nth]; (rewrite Get; [f_equal; unfold dwx_X, dwx_K, off_hwc; cbn [fst snd nth]|]); lia.
Qed.

Example dwx_value : dw_whole dwx_dims ex_tcfg 5 3 dwx_X dwx_K 1 3 2 1 <> 0.
Proof. vm_compute. discriminate. Qed.

(** * What does not hold *)

(** With two batches in a tile the second one is not computed: Issue advances copies of the buffer descriptors, so each round processes
    the first batch again. One pixel, one channel, 1 x 1 kernel, both batches in one tile: Issue succeeds, and the output of batch 1 is
    not the convolution. *)
Theorem dw_batch_refuted :
  exists (d : conv_dims) (c : conv_cfg) si sw so i w o mi mw m m' X Kf, dw_dims_ok 2 2 d c
    /\ dw_iters 2 2 d c si sw so = Some (i, w, o) /\ total_count (ti_cfg o) = 1
    /\ let ob := dw_create i w o c (mkLb 0 2 1) (mkLb 0 1 1) (mkLb 0 8 4) in
       ti_size (do_in ob) = [2; 1; 1; 1; 1] /\ ti_size (do_out ob) = [2; 1; 1; 1; 1]
       /\ (forall b, 0 <= b < 2 -> mi (addr si [b; 0; 0; 0; 0]) = Some (X b 0 0 0)) /\ mw 0 = Some (Kf 0 0 0)
       /\ dw_issue RM_UP true 0 0 ob mi mw m = Some m'
       /\ m' (addr so [1; 0; 0; 0; 0]) <> Some (dw_whole d c 0 0 X Kf 1 0 0 0).
Proof.
  set (d := mkCd 1 1 1 1 1 1 1 1 1 1 1). set (c := mkCv RELU_NONE 1 1 0 0 0 0 1 1).
  exists d, c, [1; 1; 1; 1; 1], [1; 1; 1], [1; 1; 1; 1; 1].
  assert (Hok : dw_dims_ok 2 2 d c).
  { unfold dw_dims_ok, conv_dims_ok, chk_axis, d, c, in_ubits, smax. cbn [d_hi d_wi d_ci d_kh d_kw d_ho d_wo d_co d_th d_tw d_tc cv_sh cv_sw cv_dh cv_dw cv_top cv_left cv_bottom cv_right].
    change (2 ^ 20) with 1048576. change (2 ^ 8) with 256. change (2 ^ (32 - 1)) with 2147483648. change (2 ^ 14) with 16384.
    repeat split; try lia; repeat constructor; lia. }
  do 3 eexists. exists (ex_mem 2 3), (ex_mem 1 5), (ex_mem 2 0). eexists. exists (fun b _ _ _ => 3 + b), (fun _ _ _ => 5).
  split; [exact Hok|]. split; [apply dw_iters_val; exact Hok|]. split; [reflexivity|]. cbv zeta.
  split; [reflexivity|]. split; [reflexivity|]. split.
  { intros b Hb. assert (E : b = 0 \/ b = 1) by lia. destruct E; subst; reflexivity. }
  split; [reflexivity|]. split; [vm_compute; reflexivity|]. vm_compute. discriminate.
Qed.
