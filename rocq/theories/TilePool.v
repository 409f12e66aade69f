(** Tile-by-tile execution of the MLI 3.0 maximum and sum pooling (property C70). *)
From Coq Require Import ZArith List Lia Bool.
From Verif Require Import Base FxMath FxMathProofs Tensor TensorProofs MovProofs Quant QuantProofs DotProd DotProdProofs ArgMax Permute PermuteProofs
  Layout Pool PoolProofs PoolKernels Conv ConvSpec Iter IterProofs IterTheorems TileRun TileProofs TileConv TileDw.
Import ListNotations.
Open Scope Z_scope.

(** * The problem *)

(** Sizes: [nb] batches, input [hi] x [wi] x [ch], output [ho] x [wo] x [ch], cut into tiles of [tb] batches and [th] x [tw] x [tc]. *)
Record pool_dims := mkPd { g_nb : Z; g_hi : Z; g_wi : Z; g_ch : Z; g_ho : Z; g_wo : Z; g_tb : Z; g_th : Z; g_tw : Z; g_tc : Z }.

(** Input row [r] and column [cl] lie in the window of output (H, W) and inside the whole image. *)
Definition pool_window (d : pool_dims) (c : pool_cfg) (H W r cl : Z) : Prop :=
  0 <= r < g_hi d /\ 0 <= cl < g_wi d
  /\ H * pl_sh c - pl_top c <= r < H * pl_sh c - pl_top c + pl_kh c
  /\ W * pl_sw c - pl_left c <= cl < W * pl_sw c - pl_left c + pl_kw c.

(** [v] is the maximum of the window of output (b, H, W, ch) of the whole image [X]. *)
Definition pool_max (d : pool_dims) (c : pool_cfg) (X : Z -> Z -> Z -> Z -> Z) (b H W ch v : Z) : Prop :=
  (exists r cl, pool_window d c H W r cl /\ X b r cl ch = v) /\ forall r cl, pool_window d c H W r cl -> X b r cl ch <= v.

(** The sum of that window. *)
Definition pool_sum (d : pool_dims) (c : pool_cfg) (X : Z -> Z -> Z -> Z -> Z) (b H W ch : Z) : Z :=
  zsum 0 (g_hi d) (fun r => zsum 0 (g_wi d) (fun cl =>
    if inwb (H * pl_sh c - pl_top c) (pl_kh c) r && inwb (W * pl_sw c - pl_left c) (pl_kw c) cl then X b r cl ch else 0)).

(** One axis: [Do] outputs in tiles of [T], [D] inputs, window [K], stride [S], paddings [P] and [A]. The windows lie inside the padded
    input, the leading padding inside the first tile (asserted by the library) and the trailing padding inside the last one: the window of
    its first output ends at most one stride behind the input. *)
Definition pool_axis (Do T D K S P A : Z) : Prop :=
  1 <= T <= Do /\ 1 <= S /\ 0 <= P < K /\ 0 <= A < K /\ (Do - 1) * S + K <= D + P + A /\ P <= T * S
  /\ (Do - 1) / T * T * S + K <= D + P + S.

Definition pool_dims_ok (d : pool_dims) (c : pool_cfg) : Prop :=
  pool_axis (g_ho d) (g_th d) (g_hi d) (pl_kh c) (pl_sh c) (pl_top c) (pl_bottom c)
  /\ pool_axis (g_wo d) (g_tw d) (g_wi d) (pl_kw c) (pl_sw c) (pl_left c) (pl_right c)
  /\ 1 <= g_tb d <= g_nb d /\ 1 <= g_tc d <= g_ch d
  /\ Forall (fun x => 1 <= x <= 2 ^ 20) [g_nb d; g_hi d; g_wi d; g_ch d; g_ho d; g_wo d]
  /\ Forall (fun x => in_ubits 8 x) [pl_kh c; pl_kw c; pl_sh c; pl_sw c; pl_top c; pl_left c; pl_bottom c; pl_right c].

(** The iterators, set up as in user_tests/tests/mli_krn_maxpool_30 and mli_krn_sumpool_30. *)
Definition pool_iters (d : pool_dims) (c : pool_cfg) (si so : list Z) : option (titer * titer) :=
  let oshape := [g_nb d; g_ho d; g_wo d; g_ch d] in
  let ishape := [g_nb d; g_hi d; g_wi d; g_ch d] in
  let out := tile_cfg oshape [g_tb d; g_th d; g_tw d; g_tc d] [0; 1; 2; 3]%nat 0 in
  match kernel_cfg out ishape [1; pl_kh c; pl_kw c; 1] [1; pl_sh c; pl_sw c; 1] [0; pl_top c; pl_left c; 0] with
  | Some inp => Some (ti_new inp ishape si, ti_new out oshape so)
  | None => None
  end.

(** * The axes *)

Lemma first_len o D T : 1 <= T <= D -> D + T + T < 2 ^ 31 -> tile_len (tile_dim o D T 0) D 0 = T.
Proof.
  intros HT Hb. destruct (tile_dim_val o D T 0 HT ltac:(lia) Hb) as (E & Hn1 & Hn & _). set (nn := ceil_div (D + 0) T) in *.
  rewrite E. unfold tile_len, tile_size, tile_start. cbn [it_count it_first_inc it_inc it_first_size it_size it_last_size].
  change (0 =? 0) with true. cbv iota. destruct (Z.eqb_spec 0 (nn - 1)) as [En|En]; [|lia].
  assert (D = T) by nia. subst D. rewrite Z.mod_small by lia. lia.
Qed.

Lemma pool_axis_fits Do T D K S P A : pool_axis Do T D K S P A -> 1 <= D <= 2 ^ 20 -> Do <= 2 ^ 20 -> K <= 255 -> S <= 255 -> axis_fits Do T D K S P A.
Proof.
  intros (A1 & A2 & A3 & A4 & A5 & A6 & _) HD HDo HK HS. change (2 ^ 20) with 1048576 in *.
  assert (M2 : (Do + 2 * T) * S <= 3145728 * 255) by (apply Z.mul_le_mono_nonneg; lia).
  unfold axis_fits. change (2 ^ 31) with 2147483648. repeat split; lia.
Qed.

(** The paddings of every tile are within what the kernel handles. *)
Lemma pool_axis_tile o Do T D K S P A k : pool_axis Do T D K S P A -> axis_fits Do T D K S P A ->
  let out := tile_dim o Do T 0 in let inp := kernel_dim out D K S P in
  0 <= k < it_count out ->
  let on := tile_len out Do k in let il := tile_len inp D k in let p := if k =? 0 then P else 0 in
  K <= il + p + S /\ p <= on * S.
Proof.
  intros PA AF out inp Hk on il p. pose proof (axis_tile o _ _ _ _ _ _ _ k AF Hk) as Q. cbv zeta in Q. fold out inp on il p in Q.
  set (os := tile_start out k) in *. set (is := tile_start inp k) in *.
  destruct Q as (_ & (Q1 & Q2 & Q3) & (Q4 & Q5 & Q6) & Q7 & _ & Q8).
  destruct PA as (A1 & A2 & A3 & A4 & A5 & A6 & A7). destruct AF as (_ & HD & _ & _ & _ & _ & _ & Hbig).
  assert (M0 : (Do + 2 * T) * 1 <= (Do + 2 * T) * S) by (apply Z.mul_le_mono_nonneg_l; lia).
  assert (Eos : os = k * T).
  { destruct (tile_dim_val o Do T 0 A1 ltac:(lia) ltac:(lia)) as (E & _). fold out in E. unfold os, tile_start. rewrite E. cbn [it_first_inc it_inc]. destruct (Z.eqb_spec k 0); [subst; reflexivity|ring]. }
  assert (Hlast : os * S <= (Do - 1) / T * T * S).
  { apply Z.mul_le_mono_nonneg_r; [lia|]. rewrite Eos. apply Z.mul_le_mono_nonneg_r; [lia|]. apply Z.div_le_lower_bound; lia. }
  assert (Hp : 0 <= p) by (unfold p; destruct (k =? 0); lia).
  assert (HoS : 0 * S <= os * S) by (apply Z.mul_le_mono_nonneg_r; lia).
  split.
  - destruct (Z.lt_ge_cases (is - p + K - 1) D) as [Hl|Hg].
    + destruct (Q8 0 (is - p + K - 1) ltac:(lia) ltac:(lia)) as [R _]. specialize (R ltac:(lia)). lia.
    + destruct (Q8 0 (D - 1) ltac:(lia) ltac:(lia)) as [R _]. specialize (R ltac:(lia)). lia.
  - unfold p. destruct (Z.eqb_spec k 0) as [->|_].
    + unfold on, out. rewrite first_len by lia. exact A6.
    + assert (1 * S <= on * S) by (apply Z.mul_le_mono_nonneg_r; lia). lia.
Qed.

Definition p_out (d : pool_dims) : list idim :=
  [tile_dim 0 (g_nb d) (g_tb d) 0; tile_dim 1 (g_ho d) (g_th d) 0; tile_dim 2 (g_wo d) (g_tw d) 0; tile_dim 3 (g_ch d) (g_tc d) 0].
Definition p_inp (d : pool_dims) (c : pool_cfg) : list idim :=
  [tile_dim 0 (g_nb d) (g_tb d) 0;
   kernel_dim (tile_dim 1 (g_ho d) (g_th d) 0) (g_hi d) (pl_kh c) (pl_sh c) (pl_top c);
   kernel_dim (tile_dim 2 (g_wo d) (g_tw d) 0) (g_wi d) (pl_kw c) (pl_sw c) (pl_left c);
   tile_dim 3 (g_ch d) (g_tc d) 0].

Lemma pool_fits_h d c : pool_dims_ok d c -> axis_fits (g_ho d) (g_th d) (g_hi d) (pl_kh c) (pl_sh c) (pl_top c) (pl_bottom c).
Proof. intros (A & _ & _ & _ & F & U). apply pool_axis_fits; [exact A|..]; fall; unfold in_ubits in *; change (2 ^ 8) with 256 in *; lia. Qed.
Lemma pool_fits_w d c : pool_dims_ok d c -> axis_fits (g_wo d) (g_tw d) (g_wi d) (pl_kw c) (pl_sw c) (pl_left c) (pl_right c).
Proof. intros (_ & A & _ & _ & F & U). apply pool_axis_fits; [exact A|..]; fall; unfold in_ubits in *; change (2 ^ 8) with 256 in *; lia. Qed.

Lemma pool_iters_val d c si so : pool_dims_ok d c -> pool_iters d c si so =
  Some (ti_new (p_inp d c) [g_nb d; g_hi d; g_wi d; g_ch d] si, ti_new (p_out d) [g_nb d; g_ho d; g_wo d; g_ch d] so).
Proof.
  intros Hok. pose proof Hok as (_ & _ & Hb & Hc & F & _). unfold pool_iters. change (tile_cfg _ _ _ 0) with (p_out d). unfold kernel_cfg.
  destruct (pool_fits_h d c Hok) as (H1 & H0 & H2 & H3 & _ & _ & H4 & H5). destruct (pool_fits_w d c Hok) as (W1 & W0 & W2 & W3 & _ & _ & W4 & W5).
  match goal with |- context [forallb ?f (p_out d)] => assert (E : forallb f (p_out d) = true) end.
  { assert (M1 : g_th d * 1 <= g_th d * pl_sh c <= (g_ho d + 2 * g_th d) * pl_sh c) by (split; [apply Z.mul_le_mono_nonneg_l|apply Z.mul_le_mono_nonneg_r]; lia).
    assert (M2 : g_tw d * 1 <= g_tw d * pl_sw c <= (g_wo d + 2 * g_tw d) * pl_sw c) by (split; [apply Z.mul_le_mono_nonneg_l|apply Z.mul_le_mono_nonneg_r]; lia).
    unfold p_out. cbn [forallb]. rewrite !andb_true_iff. repeat split; apply Z.leb_le.
    - change (0 <= uwrap 32 (wrap 32 (g_tb d - 0) * 1)). apply Z.mod_pos_bound. reflexivity.
    - change (pl_top c <= uwrap 32 (wrap 32 (g_th d - 0) * pl_sh c)). rewrite w32_id by lia. rewrite u32_id; lia.
    - change (pl_left c <= uwrap 32 (wrap 32 (g_tw d - 0) * pl_sw c)). rewrite w32_id by lia. rewrite u32_id; lia.
    - change (0 <= uwrap 32 (wrap 32 (g_tc d - 0) * 1)). apply Z.mod_pos_bound. reflexivity. }
  rewrite E. fall.
  pose proof (axis_same 0 (g_nb d) (g_tb d) Hb ltac:(lia)) as S0. pose proof (axis_same 3 (g_ch d) (g_tc d) Hc ltac:(lia)) as S4.
  transitivity (Some (ti_new [kernel_dim (tile_dim 0 (g_nb d) (g_tb d) 0) (g_nb d) 1 1 0;
     kernel_dim (tile_dim 1 (g_ho d) (g_th d) 0) (g_hi d) (pl_kh c) (pl_sh c) (pl_top c);
     kernel_dim (tile_dim 2 (g_wo d) (g_tw d) 0) (g_wi d) (pl_kw c) (pl_sw c) (pl_left c);
     kernel_dim (tile_dim 3 (g_ch d) (g_tc d) 0) (g_ch d) 1 1 0] [g_nb d; g_hi d; g_wi d; g_ch d] si,
     ti_new (p_out d) [g_nb d; g_ho d; g_wo d; g_ch d] so)); [reflexivity|].
  rewrite S0, S4. reflexivity.
Qed.

Lemma p_counts d c : pool_dims_ok d c -> counts_ok (p_out d) /\ map it_count (p_inp d c) = map it_count (p_out d).
Proof.
  intros ((T1 & _) & (T2 & _) & Hb & Hc & F & _). split; [|reflexivity]. unfold counts_ok, p_out. fall. change (2 ^ 20) with 1048576 in *.
  repeat apply Forall_cons; try apply Forall_nil; apply tile_dim_cuts; lia.
Qed.

Lemma pool_updates_val pads n i o c bi bo :
  pool_updates pads n (pool_create pads i o c bi bo) = pool_create pads (ti_run i n) (ti_run o n) c bi bo.
Proof. induction n as [|n IH]; cbn [pool_updates ti_run]; [reflexivity|]. rewrite IH. reflexivity. Qed.

(** What the n-th tile is. *)
Lemma pool_tile_shape pads d c si so i o bi bo n :
  pool_dims_ok d c -> pool_iters d c si so = Some (i, o) ->
  let ob := pool_updates pads n (pool_create pads i o c bi bo) in
  exists b h v k, idx_at (p_out d) n = [b; h; v; k]
    /\ let ax := tile_dim 0 (g_nb d) (g_tb d) 0 in
       let oh := tile_dim 1 (g_ho d) (g_th d) 0 in let ow := tile_dim 2 (g_wo d) (g_tw d) 0 in let oc := tile_dim 3 (g_ch d) (g_tc d) 0 in
       let ih := kernel_dim oh (g_hi d) (pl_kh c) (pl_sh c) (pl_top c) in
       let iw := kernel_dim ow (g_wi d) (pl_kw c) (pl_sw c) (pl_left c) in
       0 <= b < it_count ax /\ 0 <= h < it_count oh /\ 0 <= v < it_count ow /\ 0 <= k < it_count oc /\ po_batch ob = tile_len ax (g_nb d) b
       /\ t_shape (po_tin ob) = [tile_len ax (g_nb d) b; tile_len ih (g_hi d) h; tile_len iw (g_wi d) v; tile_len oc (g_ch d) k]
       /\ t_shape (po_tout ob) = [tile_len ax (g_nb d) b; tile_len oh (g_ho d) h; tile_len ow (g_wo d) v; tile_len oc (g_ch d) k]
       /\ pool_offsets ob = ([tile_start ax b; tile_start ih h; tile_start iw v; tile_start oc k], [tile_start ax b; tile_start oh h; tile_start ow v; tile_start oc k])
       /\ po_tile_cfg ob = pads c (mkTi (p_inp d c) [g_nb d; g_hi d; g_wi d; g_ch d] si (at_tile (p_inp d c) [b; h; v; k])).
Proof.
  intros Hok Hit ob. rewrite (pool_iters_val d c si so Hok) in Hit. injection Hit as <- <-.
  unfold ob. rewrite pool_updates_val. unfold pool_create, pool_offsets. cbn [po_batch po_tin po_tout po_tile_cfg po_in po_out].
  destruct (p_counts d c Hok) as (Co & Ei).
  rewrite !ti_run_at by first [exact Co|apply (counts_map _ _ Ei Co)].
  rewrite (idx_at_counts _ _ n Ei). pose proof (idx_at_ok (p_out d) n Co) as Hidx.
  destruct (idx_at (p_out d) n) as [|b [|h [|v [|k [|]]]]]; cbn [p_out idx_ok] in Hidx; try tauto.
  destruct Hidx as (Hb & Hh & Hv & Hk & _). exists b, h, v, k. split; [reflexivity|]. cbv zeta.
  split; [exact Hb|]. split; [exact Hh|]. split; [exact Hv|]. split; [exact Hk|].
  repeat split; reflexivity.
Qed.

(** * One batch of one tile *)

(** What the axes guarantee for one tile. *)
Definition tile_axis (Do D K S P A os on is il p : Z) : Prop :=
  axis_view D K S P os on is il p /\ 1 <= on <= Do /\ 1 <= il <= D /\ 0 <= p <= P /\ (on - 1) * S + K <= il + p + A /\ K <= il + p + S /\ p <= on * S
  /\ 0 <= is /\ is + il <= D.

Lemma pool_axis_ok o Do T D K S P A k : pool_axis Do T D K S P A -> axis_fits Do T D K S P A ->
  let out := tile_dim o Do T 0 in let inp := kernel_dim out D K S P in
  0 <= k < it_count out ->
  tile_axis Do D K S P A (tile_start out k) (tile_len out Do k) (tile_start inp k) (tile_len inp D k) (if k =? 0 then P else 0).
Proof.
  intros PA AF out inp Hk. pose proof (axis_tile o _ _ _ _ _ _ _ k AF Hk) as Q. pose proof (pool_axis_tile o _ _ _ _ _ _ _ k PA AF Hk) as R. cbv zeta in Q, R. fold out inp in Q, R.
  destruct PA as (A1 & A2 & A3 & A4 & _).
  destruct Q as (_ & (Q1 & Q2 & Q3) & (Q4 & Q5 & Q6) & Q7 & Q9 & Q8). destruct R as [R1 R2].
  assert (Hp : 0 <= (if k =? 0 then P else 0) <= P) by (destruct (k =? 0); lia).
  unfold tile_axis, axis_view. split; [split; [exact Q7|exact Q8]|]. clear Q8. lia.
Qed.

Lemma chk_pool_intro tin tout c :
  chk_tensor tin = ST_OK -> chk_tensor tout = ST_OK -> t_rank tin = 3 -> t_rank tout = 3 ->
  inner_stride_is_one tin = true -> inner_stride_is_one tout = true -> pool_fits tin tout c ->
  pl_left c < pl_kw c -> pl_right c < pl_kw c -> pl_top c < pl_kh c -> pl_bottom c < pl_kh c -> 0 < pl_sh c -> 0 < pl_sw c ->
  1 <= dim tin 0 -> 1 <= dim tin 1 -> 1 <= dim tout 0 -> 1 <= dim tout 1 ->
  (dim tout 0 - 1) * pl_sh c + pl_kh c <= dim tin 0 + pl_top c + pl_bottom c ->
  (dim tout 1 - 1) * pl_sw c + pl_kw c <= dim tin 1 + pl_left c + pl_right c -> dim tout 2 = dim tin 2 ->
  chk_pool tin tout c 0 = ST_OK.
Proof.
  intros C1 C2 R1 R2 I1 I2 F P1 P2 P3 P4 P5 P6 D1 D2 D3 D4 H1 H2 Hc. unfold chk_pool. rewrite C1, C2, R1, R2, I1, I2.
  fold (dim tin 0) (dim tin 1) (dim tin 2) (dim tout 0) (dim tout 1) (dim tout 2). rewrite Hc.
  destruct F as (U1 & U2 & U3 & U4 & U5 & U6 & U7 & U8 & U9 & U10 & U11 & U12). unfold in_ubits in *. change (2 ^ 8) with 256 in *. change (2 ^ 31 - 1) with 2147483647 in *.
  assert (M1 : 1 * pl_sh c <= dim tout 0 * pl_sh c) by (apply Z.mul_le_mono_nonneg_r; lia).
  assert (M2 : 1 * pl_sw c <= dim tout 1 * pl_sw c) by (apply Z.mul_le_mono_nonneg_r; lia).
  change (0 =? 0) with true. change (3 =? 3) with true. cbn [negb andb].
  assert (E1 : (pl_left c <? pl_kw c) && (pl_right c <? pl_kw c) && (pl_top c <? pl_kh c) && (pl_bottom c <? pl_kh c) && (pl_sh c >? 0) && (pl_sw c >? 0) = true) by lia.
  rewrite E1. cbn [negb]. cbv zeta. rewrite !w32_id by (change (2 ^ 31) with 2147483648; lia).
  match goal with |- context [negb ?b] => assert (E2 : b = true) end.
  { rewrite Z.eqb_refl, !andb_true_iff. repeat split; apply Z.leb_le; lia. }
  rewrite E2. reflexivity.
Qed.

(** The kernel accepts the tile, whatever trailing paddings it is told. *)
Lemma pool_tile_ready d c tin tout ohs ohn ihs ihl ph ows own iws iwl pv ocn mi m :
  pool_dims_ok d c -> legal tin mi -> legal tout m ->
  tile_axis (g_ho d) (g_hi d) (pl_kh c) (pl_sh c) (pl_top c) (pl_bottom c) ohs ohn ihs ihl ph ->
  tile_axis (g_wo d) (g_wi d) (pl_kw c) (pl_sw c) (pl_left c) (pl_right c) ows own iws iwl pv ->
  t_shape tin = [ihl; iwl; ocn] -> t_shape tout = [ohn; own; ocn] ->
  let c' := with_ppad c ph pv (pl_bottom c) (pl_right c) in
  chk_pool tin tout c' 0 = ST_OK /\ pool_fits tin tout c' /\ pool_padding_small tin tout c'.
Proof.
  intros (PH & PW & _ & _ & F & U) (Fi & Ci & Ii & Bi) (Fo & Co & Io & Bo) (_ & A1 & A2 & A3 & A4 & A5 & A6 & _) (_ & B1 & B2 & B3 & B4 & B5 & B6 & _) Si So c'.
  destruct PH as (T1 & T2 & T3 & T4 & _). destruct PW as (V1 & V2 & V3 & V4 & _). fall. change (2 ^ 20) with 1048576 in *.
  assert (Dm : (dim tin 0 = ihl /\ dim tin 1 = iwl /\ dim tin 2 = ocn) /\ (dim tout 0 = ohn /\ dim tout 1 = own /\ dim tout 2 = ocn)) by (unfold dim; rewrite Si, So; repeat split; reflexivity).
  destruct Dm as ((Di0 & Di1 & Di2) & (Do0 & Do1 & Do2)).
  assert (Hf : pool_fits tin tout c').
  { unfold pool_fits, c', with_ppad. cbn [pl_kw pl_kh pl_sw pl_sh pl_left pl_right pl_top pl_bottom]. rewrite Di0, Di1, Do0, Do1. unfold in_ubits in *. change (2 ^ 8) with 256 in *. change (2 ^ 31 - 1) with 2147483647.
    assert (M1 : ohn * pl_sh c <= 1048576 * 255) by (apply Z.mul_le_mono_nonneg; lia).
    assert (M2 : own * pl_sw c <= 1048576 * 255) by (apply Z.mul_le_mono_nonneg; lia). lia. }
  split; [|split; [exact Hf|]].
  - apply chk_pool_intro; try assumption; try (unfold t_rank; rewrite ?Si, ?So; reflexivity); rewrite ?Di0, ?Di1, ?Di2, ?Do0, ?Do1, ?Do2;
    unfold c', with_ppad; cbn [pl_kw pl_kh pl_sw pl_sh pl_left pl_right pl_top pl_bottom]; lia.
  - unfold pool_padding_small, c', with_ppad. cbn [pl_kw pl_kh pl_sw pl_sh pl_left pl_right pl_top pl_bottom]. rewrite Di0, Di1, Do0, Do1. lia.
Qed.

(** An input row of the tile is in the window of the tile iff its row of the whole image is in the window there. *)
Lemma view_iff D K S P A Do os on is il p y x : tile_axis Do D K S P A os on is il p -> 0 <= y < on ->
  (0 <= x < il /\ y * S - p <= x < y * S - p + K) <-> (0 <= is + x < D /\ (os + y) * S - P <= is + x < (os + y) * S - P + K).
Proof.
  intros ((E & Q) & _ & _ & _ & _ & _ & _ & Hs & Hl) Hy. specialize (Q y (is + x) Hy).
  replace ((os + y) * S) with (os * S + y * S) by ring. split.
  - intros [A1 A2]. lia.
  - intros [A1 A2]. split; [|lia]. assert (is <= is + x < is + il) by (apply Q; lia). lia.
Qed.

Definition holdsR (m : mem) (t : tensor) (R : Z -> Z -> Z -> Z -> Prop) (off : Z * Z * Z) : Prop :=
  forall y x ch, valid (t_shape t) [y; x; ch] -> exists v, hwc_elem m t y x ch = Some v /\ R (fst (fst off) + y) (snd (fst off) + x) (snd off + ch) v.

Lemma max_tile_core d c mi m X tin tout bt rt ohs ohn ihs ihl ph ows own iws iwl pv osc ocn b :
  pool_dims_ok d c -> legal tin mi -> legal tout m ->
  tile_axis (g_ho d) (g_hi d) (pl_kh c) (pl_sh c) (pl_top c) (pl_bottom c) ohs ohn ihs ihl ph ->
  tile_axis (g_wo d) (g_wi d) (pl_kw c) (pl_sw c) (pl_left c) (pl_right c) ows own iws iwl pv ->
  t_shape tin = [ihl; iwl; ocn] -> t_shape tout = [ohn; own; ocn] ->
  holds3 mi tin (X b) (ihs, iws, osc) ->
  exists m', maxpool mi 0 tin tout (with_ppad c ph pv bt rt) m = Some m'
    /\ holdsR m' tout (pool_max d c X b) (ohs, ows, osc) /\ frame_ok tout m m'.
Proof.
  intros Hok Li Lo AH AW Si So Xi. destruct (pool_tile_ready d c tin tout _ _ _ _ _ _ _ _ _ _ _ mi m Hok Li Lo AH AW Si So) as (Hc & Hf & Hs).
  destruct Li as (Fi & Ci & Ii & Bi). destruct Lo as (Fo & Co & Io & Bo).
  destruct (maxpool_correct mi m tin tout _ 0 Hc Hf Hs Fi Fo Bi Bo) as (m' & E & V & Fr).
  exists m'. split; [exact E|]. split; [|exact Fr]. intros y x ch Hv. destruct (V y x ch Hv) as (v & Ev & (r & cl & Hw & Hr) & Hm).
  exists v. split; [exact Ev|]. rewrite So in Hv. destruct Hv as (Vy & Vx & Vc & _). cbn [fst snd].
  assert (Wi : forall r cl, in_window (with_ppad c ph pv (pl_bottom c) (pl_right c)) tin y x r cl <-> pool_window d c (ohs + y) (ows + x) (ihs + r) (iws + cl)).
  { intros r0 cl0. unfold in_window, pool_window, dim. rewrite Si. cbn [nth with_ppad pl_kw pl_kh pl_sw pl_sh pl_left pl_right pl_top pl_bottom].
    pose proof (view_iff _ _ _ _ _ _ _ _ _ _ _ y r0 AH Vy) as Q1. pose proof (view_iff _ _ _ _ _ _ _ _ _ _ _ x cl0 AW Vx) as Q2. clear - Q1 Q2. tauto. }
  assert (Xe : forall r cl, in_window (with_ppad c ph pv (pl_bottom c) (pl_right c)) tin y x r cl -> hwc_elem mi tin r cl ch = Some (X b (ihs + r) (iws + cl) (osc + ch))).
  { intros r0 cl0 (W1 & W2 & _). unfold dim in W1, W2. rewrite Si in W1, W2. cbn [nth] in W1, W2. apply Xi. rewrite Si. cbn [valid]. tauto. }
  split.
  - exists (ihs + r), (iws + cl). split; [apply Wi; exact Hw|]. rewrite (Xe r cl Hw) in Hr. congruence.
  - intros r0 cl0 Hw0. replace r0 with (ihs + (r0 - ihs)) in * by ring. replace cl0 with (iws + (cl0 - iws)) in * by ring. apply Wi in Hw0. eapply Hm; [exact Hw0|]. apply Xe. exact Hw0.
Qed.

Lemma zsum_support n a b f : 0 <= a -> a <= b <= n -> (forall x, 0 <= x < n -> ~ (a <= x < b) -> f x = 0) -> zsum 0 n f = zsum 0 (b - a) (fun x => f (a + x)).
Proof.
  intros Ha Hb Hf. rewrite (zsum_split 0 a n) by lia. rewrite (zsum_split a b n) by lia.
  rewrite (zsum_zero 0 a), (zsum_zero b n) by (intros; apply Hf; lia).
  replace (zsum a b f) with (zsum (0 + a) (b - a + a) f) by (f_equal; ring). rewrite zsum_shift.
  rewrite (zsum_ext 0 (b - a) (fun i => f (i + a)) (fun x => f (a + x))) by (intros; f_equal; ring). ring.
Qed.

Lemma sum_tile_core d c mi m X tin tout bt rt ohs ohn ihs ihl ph ows own iws iwl pv osc ocn b :
  pool_dims_ok d c -> legal tin mi -> legal tout m -> mem_bits 8 mi ->
  tile_axis (g_ho d) (g_hi d) (pl_kh c) (pl_sh c) (pl_top c) (pl_bottom c) ohs ohn ihs ihl ph ->
  tile_axis (g_wo d) (g_wi d) (pl_kw c) (pl_sw c) (pl_left c) (pl_right c) ows own iws iwl pv ->
  t_shape tin = [ihl; iwl; ocn] -> t_shape tout = [ohn; own; ocn] ->
  holds3 mi tin (X b) (ihs, iws, osc) ->
  exists m', sumpool mi 0 tin tout (with_ppad c ph pv bt rt) m = Some m'
    /\ holdsR m' tout (fun H W ch v => v = pool_sum d c X b H W ch) (ohs, ows, osc) /\ frame_ok tout m m'.
Proof.
  intros Hok Li Lo Mb AH AW Si So Xi. destruct (pool_tile_ready d c tin tout _ _ _ _ _ _ _ _ _ _ _ mi m Hok Li Lo AH AW Si So) as (Hc & Hf & Hs).
  destruct Li as (Fi & Ci & Ii & Bi). destruct Lo as (Fo & Co & Io & Bo).
  destruct (sumpool_correct mi m tin tout _ 0 Hc Hf Hs Fi Fo Bi Bo Mb) as (m' & E & V & Fr).
  exists m'. split; [exact E|]. split; [|exact Fr]. intros y x ch Hv. eexists. split; [exact (V y x ch Hv)|].
  rewrite So in Hv. destruct Hv as (Vy & Vx & Vc & _). cbn [fst snd].
  unfold window_sum, pool_sum, dim. rewrite Si. cbn [nth with_ppad pl_kw pl_kh pl_sw pl_sh pl_left pl_right pl_top pl_bottom].
  assert (Iw : forall lo n z, inwb lo n z = true <-> lo <= z < lo + n) by (intros; unfold inwb; lia).
  assert (V1 : forall r, 0 <= r < ihl -> inwb (y * pl_sh c - ph) (pl_kh c) r = inwb ((ohs + y) * pl_sh c - pl_top c) (pl_kh c) (ihs + r)).
  { intros r Hr. apply eq_true_iff_eq. rewrite !Iw. pose proof (view_iff _ _ _ _ _ _ _ _ _ _ _ y r AH Vy) as Q. destruct AH as (_ & _ & _ & _ & _ & _ & _ & K1 & K2).
    assert (0 <= ihs + r < g_hi d) by (clear - Hr K1 K2; lia). clear - Q Hr H. tauto. }
  assert (V2 : forall cl, 0 <= cl < iwl -> inwb (x * pl_sw c - pv) (pl_kw c) cl = inwb ((ows + x) * pl_sw c - pl_left c) (pl_kw c) (iws + cl)).
  { intros r Hr. apply eq_true_iff_eq. rewrite !Iw. pose proof (view_iff _ _ _ _ _ _ _ _ _ _ _ x r AW Vx) as Q. destruct AW as (_ & _ & _ & _ & _ & _ & _ & K1 & K2).
    assert (0 <= iws + r < g_wi d) by (clear - Hr K1 K2; lia). clear - Q Hr H. tauto. }
  assert (N1 : forall r, 0 <= r < g_hi d -> ~ (ihs <= r < ihs + ihl) -> inwb ((ohs + y) * pl_sh c - pl_top c) (pl_kh c) r = false).
  { intros r Hr Hn. apply not_true_iff_false. rewrite Iw. intros K. apply Hn. destruct (view_iff _ _ _ _ _ _ _ _ _ _ _ y (r - ihs) AH Vy) as [_ Q].
    replace (ihs + (r - ihs)) with r in Q by ring. destruct (Q (conj Hr K)) as [Z0 _]. clear - Z0. lia. }
  assert (N2 : forall r, 0 <= r < g_wi d -> ~ (iws <= r < iws + iwl) -> inwb ((ows + x) * pl_sw c - pl_left c) (pl_kw c) r = false).
  { intros r Hr Hn. apply not_true_iff_false. rewrite Iw. intros K. apply Hn. destruct (view_iff _ _ _ _ _ _ _ _ _ _ _ x (r - iws) AW Vx) as [_ Q].
    replace (iws + (r - iws)) with r in Q by ring. destruct (Q (conj Hr K)) as [Z0 _]. clear - Z0. lia. }
  destruct AH as (_ & _ & A1 & _ & _ & _ & _ & A2 & A3). destruct AW as (_ & _ & B1 & _ & _ & _ & _ & B2 & B3).
  rewrite (zsum_support (g_hi d) ihs (ihs + ihl)); [|exact A2|lia|intros r Hr Hn; apply zsum_zero; intros cl _; rewrite (N1 r Hr Hn); reflexivity].
  replace (ihs + ihl - ihs) with ihl by ring. apply zsum_ext. intros r Hr.
  rewrite (zsum_support (g_wi d) iws (iws + iwl)); [|exact B2|lia|intros cl Hcl Hn; rewrite (N2 cl Hcl Hn), andb_false_r; reflexivity].
  replace (iws + iwl - iws) with iwl by ring. apply zsum_ext. intros cl Hcl. rewrite (V1 r Hr), (V2 cl Hcl).
  destruct (inwb _ _ (ihs + r) && inwb _ _ (iws + cl)); [|reflexivity].
  specialize (Xi r cl ch). rewrite Si in Xi. specialize (Xi ltac:(cbn [valid]; tauto)). unfold hwc_elem in Xi. unfold rd. rewrite Xi. reflexivity.
Qed.

(** * All batches of one tile *)

Lemma legal_batch4 t m n0 a b e q : t_shape t = [n0; a; b; e] -> legal t m -> 0 <= q < n0 -> legal (batch4 t q) m.
Proof.
  intros Es (F & C & I & Bk) Hq. destruct (chk_tensor_nested t F C) as (Hn & Hsp & Hcap). pose proof F as (Hl & He & Hb & H31).
  rewrite Es in *. destruct (t_stride t) as [|s0 [|s1 [|s2 [|s3 [|]]]]] eqn:Et; try discriminate Hl.
  assert (s3 = 1). { unfold inner_stride_is_one in I. rewrite Es, Et in I. cbn in I. apply Z.eqb_eq in I. exact I. } subst s3.
  cbn [nested] in Hn. destruct Hn as (P0 & Q0 & _ & Hn).
  assert (Sp : span [n0; a; b; e] [s0; s1; s2; 1] = (n0 - 1) * s0 + span [a; b; e] [s1; s2; 1]) by reflexivity. rewrite Sp in *. clear Sp.
  set (w := span [a; b; e] [s1; s2; 1]) in *.
  assert (M1 : 0 <= q * s0 <= (n0 - 1) * s0) by (split; [apply Z.mul_nonneg_nonneg|apply Z.mul_le_mono_nonneg_r]; lia).
  assert (M2 : (q * s0 + w) * t_esz t <= ((n0 - 1) * s0 + w) * t_esz t) by (apply Z.mul_le_mono_nonneg_r; lia).
  assert (M3 : 0 <= q * s0 * t_esz t) by (apply Z.mul_nonneg_nonneg; lia).
  assert (Fb : fits32 (batch4 t q)).
  { unfold fits32, batch4. rewrite Es, Et. unfold pick. cbn [t_shape t_stride t_esz length map nth]. split; [reflexivity|]. split; [lia|]. split.
    - cbn [combine] in *. inversion Hb; subst. assumption.
    - change (w * t_esz t <= 2 ^ 31 - 1). lia. }
  split; [exact Fb|]. split; [|split].
  - apply chk_tensor_complete; [exact Fb|..]; unfold batch4; cbn [t_shape t_stride t_cap t_esz]; rewrite ?Es, ?Et; unfold pick; cbn [map nth length]; try lia; try exact Hn.
  - unfold batch4, inner_stride_is_one. rewrite Es, Et. reflexivity.
  - intros x Hx Hc. unfold batch4 in *. cbn [t_data t_cap t_esz] in *. rewrite Et in *. cbn [nth] in *.
    replace (t_data t + q * s0 + x) with (t_data t + (q * s0 + x)) by ring. apply Bk; lia.
Qed.

Lemma batch4_addr t n0 a b e q y x ch : t_shape t = [n0; a; b; e] -> length (t_stride t) = 4%nat ->
  t_data (batch4 t q) + addr (t_stride (batch4 t q)) [y; x; ch] = t_data t + addr (t_stride t) [q; y; x; ch].
Proof.
  intros Es Hl. unfold batch4. cbn [t_data t_stride]. destruct (t_stride t) as [|s0 [|s1 [|s2 [|s3 [|]]]]]; try discriminate Hl. unfold pick. cbn [map nth addr]. ring.
Qed.

Lemma batch4_shape t n0 a b e q : t_shape t = [n0; a; b; e] -> t_shape (batch4 t q) = [a; b; e].
Proof. intros E. unfold batch4. cbn [t_shape]. rewrite E. reflexivity. Qed.

(** The output tile holds, at each position, a value in relation [R] with the position in the whole tensor. *)
Definition holdsR4 (m : mem) (t : tensor) (R : Z -> Z -> Z -> Z -> Z -> Prop) (off : Z * Z * Z * Z) : Prop :=
  forall b y x ch, valid (t_shape t) [b; y; x; ch] ->
    exists v, m (t_data t + addr (t_stride t) [b; y; x; ch]) = Some v
      /\ R (fst (fst (fst off)) + b) (snd (fst (fst off)) + y) (snd (fst off) + x) (snd off + ch) v.

(** Batch, height, width, channel of the offsets. *)
Definition off_bhwc (l : list Z) : Z * Z * Z * Z := (nth 0 l 0, nth 1 l 0, nth 2 l 0, nth 3 l 0).

Lemma pool_batches (krn : tensor -> tensor -> pool_cfg -> mem -> option mem) tin tout cfg m R n0 a b e o0 o1 o2 o3 :
  t_shape tout = [n0; a; b; e] -> 0 <= n0 -> legal tout m ->
  (forall q m1, 0 <= q < n0 -> legal tout m1 -> exists m', krn (batch4 tin q) (batch4 tout q) cfg m1 = Some m'
     /\ holdsR m' (batch4 tout q) (R (o0 + q)) (o1, o2, o3) /\ frame_ok (batch4 tout q) m1 m') ->
  exists m', foldM (fun q m1 => krn (batch4 tin q) (batch4 tout q) cfg m1) (zrange 0 n0) m = Some m'
    /\ holdsR4 m' tout R (o0, o1, o2, o3) /\ frame_ok tout m m'.
Proof.
  intros So Hn0 Lo Step. pose proof Lo as ((Hl & He & Hb & H31) & C & _). destruct (chk_tensor_sound tout Hl He Hb H31 C) as [_ Inj].
  assert (L4 : length (t_stride tout) = 4%nat) by (rewrite <- Hl, So; reflexivity).
  destruct (zloop_inv (fun q m1 => krn (batch4 tin q) (batch4 tout q) cfg m1) (fun q m' => legal tout m' /\ frame_ok tout m m'
      /\ forall q' y x ch, 0 <= q' < q -> valid [a; b; e] [y; x; ch] -> exists v, m' (t_data tout + addr (t_stride tout) [q'; y; x; ch]) = Some v /\ R (o0 + q') (o1 + y) (o2 + x) (o3 + ch) v)
    n0 m Hn0) as (m' & E & _ & I2 & I3).
  - split; [exact Lo|]. split; [intros z _; reflexivity|]. intros; lia.
  - intros q m1 Hq (L1 & F1 & V1). destruct (Step q m1 Hq L1) as (m2 & E2 & G2 & F2). exists m2. split; [exact E2|].
    assert (Sl : t_shape (batch4 tout q) = [a; b; e]) by exact (batch4_shape _ _ _ _ _ q So).
    assert (G3 : forall y x ch, valid [a; b; e] [y; x; ch] -> exists v, m2 (t_data tout + addr (t_stride tout) [q; y; x; ch]) = Some v /\ R (o0 + q) (o1 + y) (o2 + x) (o3 + ch) v).
    { intros y x ch Hv. unfold holdsR in G2. rewrite Sl in G2. destruct (G2 y x ch Hv) as (v & Ev & Hr). exists v. split; [|exact Hr].
      unfold hwc_elem, hwc_addr in Ev. rewrite (batch4_addr _ _ _ _ _ q y x ch So L4) in Ev. exact Ev. }
    assert (F3 : forall z, (forall y x ch, valid [a; b; e] [y; x; ch] -> z <> t_data tout + addr (t_stride tout) [q; y; x; ch]) -> m2 z = m1 z).
    { intros z Hz. apply F2. rewrite Sl. intros p Hp. destruct p as [|y [|x [|ch [|]]]]; cbn [valid] in Hp; try tauto.
      rewrite (batch4_addr _ _ _ _ _ q y x ch So L4). apply Hz. cbn [valid]. tauto. }
    split; [|split].
    + destruct L1 as (K1 & K2 & K3 & K4). split; [exact K1|]. split; [exact K2|]. split; [exact K3|]. intros z Hz Hc. specialize (K4 z Hz Hc).
      unfold allocated in *. intros N. apply K4. rewrite <- N. symmetry. apply F3. intros y x ch Hv Ez. destruct (G3 y x ch Hv) as (v & Ev & _). rewrite <- Ez, N in Ev. discriminate.
    + intros z Hz. rewrite F3; [apply F1; exact Hz|]. intros y x ch Hv. apply Hz. rewrite So. cbn [valid] in *. tauto.
    + intros q' y x ch Hq' Hv. destruct (Z.eq_dec q' q) as [->|Nq]; [apply G3; exact Hv|]. rewrite F3; [apply V1; [lia|exact Hv]|].
      intros y1 x1 ch1 Hv1 Ea. apply Nq. assert (Ec : [q'; y; x; ch] = [q; y1; x1; ch1]).
      { apply Inj; [rewrite So; cbn [valid] in *; intuition lia|rewrite So; cbn [valid] in *; intuition lia|lia]. }
      injection Ec as -> _ _ _. reflexivity.
  - exists m'. split; [exact E|]. split; [|exact I2]. intros q y x ch Hv. rewrite So in Hv. cbn [fst snd]. apply I3; cbn [valid] in *; tauto.
Qed.

(** The paddings of a tile: the leading padding in the first tile of the axis only. The trailing ones are recomputed by the kernel. *)
Definition pads_ok (pads : pool_cfg -> titer -> pool_cfg) (d : pool_dims) (c : pool_cfg) : Prop :=
  forall si b h v k, 0 <= h < it_count (tile_dim 1 (g_ho d) (g_th d) 0) -> 0 <= v < it_count (tile_dim 2 (g_wo d) (g_tw d) 0) ->
  exists bt rt, pads c (mkTi (p_inp d c) [g_nb d; g_hi d; g_wi d; g_ch d] si (at_tile (p_inp d c) [b; h; v; k]))
    = with_ppad c (if h =? 0 then pl_top c else 0) (if v =? 0 then pl_left c else 0) bt rt.

Lemma pool_inc o Do T D K S P A : axis_fits Do T D K S P A -> it_inc (kernel_dim (tile_dim o Do T 0) D K S P) = T * S /\ 0 <= T * S <= Do * S.
Proof.
  intros (HT & HD & HS & HP & HA & Hw & HPT & Hb).
  assert (M : 0 <= T * S <= Do * S) by (split; [apply Z.mul_nonneg_nonneg|apply Z.mul_le_mono_nonneg_r]; lia).
  assert (M2 : Do * S <= (Do + 2 * T) * S) by (apply Z.mul_le_mono_nonneg_r; lia).
  split; [|exact M].
  assert (M0 : (Do + 2 * T) * 1 <= (Do + 2 * T) * S) by (apply Z.mul_le_mono_nonneg_l; lia).
  destruct (tile_dim_val o Do T 0 HT ltac:(lia) ltac:(lia)) as (E & _). rewrite E. unfold kernel_dim. cbn [it_inc]. apply w32_id; lia.
Qed.

Lemma max_pads_ok d c : pool_dims_ok d c -> pads_ok max_tile_pads d c.
Proof.
  intros Hok si b h v k Hh Hv.
  destruct (pool_inc 1 _ _ _ _ _ _ _ (pool_fits_h d c Hok)) as [E1 M1]. destruct (pool_inc 2 _ _ _ _ _ _ _ (pool_fits_w d c Hok)) as [E2 M2].
  assert (Q : forall o Do T D K S P A j, pool_axis Do T D K S P A -> axis_fits Do T D K S P A -> it_inc (kernel_dim (tile_dim o Do T 0) D K S P) = T * S -> 0 <= j < it_count (tile_dim o Do T 0) ->
    (if j =? 0 then P else let used := uwrap 32 (it_inc (kernel_dim (tile_dim o Do T 0) D K S P) * j) in if used <? P then P - used else 0) = if j =? 0 then P else 0).
  { intros o Do T D K S P A j (T1 & T2 & T3 & T4 & T5 & T6 & _) AF Ei Hj. destruct (Z.eqb_spec j 0) as [|Nj]; [reflexivity|]. cbv zeta. rewrite Ei.
    destruct AF as (_ & HD & _ & _ & _ & _ & _ & Hbig).
    assert (M0 : (Do + 2 * T) * 1 <= (Do + 2 * T) * S) by (apply Z.mul_le_mono_nonneg_l; lia).
    destruct (tile_dim_val o Do T 0 T1 ltac:(lia) ltac:(lia)) as (E & Hn1 & Hn & _). rewrite E in Hj. cbn [it_count] in Hj.
    set (nn := ceil_div (Do + 0) T) in *.
    assert (Hjt : 1 * T <= j * T <= (nn - 1) * T) by (split; apply Z.mul_le_mono_nonneg_r; lia).
    assert (Hjs : 1 * T * S <= j * T * S <= (Do + 2 * T) * S) by (split; apply Z.mul_le_mono_nonneg_r; lia).
    assert (P0 : 0 <= T * S) by (apply Z.mul_nonneg_nonneg; lia).
    rewrite u32_id by (change (2 ^ 32) with (2 * 2 ^ 31); lia). destruct (Z.ltb_spec (T * S * j) P); lia. }
  pose proof Hok as (PH & PW & _).
  pose proof (Q 1 _ _ _ _ _ _ _ h PH (pool_fits_h d c Hok) E1 Hh) as R1. pose proof (Q 2 _ _ _ _ _ _ _ v PW (pool_fits_w d c Hok) E2 Hv) as R2.
  unfold max_tile_pads.
  match goal with |- exists bt rt, with_ppad c ?x ?y ?z ?w = _ => exists z, w; change (with_ppad c
    (if h =? 0 then pl_top c else let used := uwrap 32 (it_inc (kernel_dim (tile_dim 1 (g_ho d) (g_th d) 0) (g_hi d) (pl_kh c) (pl_sh c) (pl_top c)) * h) in if used <? pl_top c then pl_top c - used else 0)
    (if v =? 0 then pl_left c else let used := uwrap 32 (it_inc (kernel_dim (tile_dim 2 (g_wo d) (g_tw d) 0) (g_wi d) (pl_kw c) (pl_sw c) (pl_left c)) * v) in if used <? pl_left c then pl_left c - used else 0)
    z w = with_ppad c (if h =? 0 then pl_top c else 0) (if v =? 0 then pl_left c else 0) z w) end.
  rewrite R1, R2. reflexivity.
Qed.

(** Sum pooling takes a tile at input position 0 for the first one: right if the axis is one tile or the padding is less than a tile. *)
Definition sum_axis (Do T S P : Z) : Prop := T = Do \/ P < T * S.

Lemma sum_pads_ok d c : pool_dims_ok d c -> sum_axis (g_ho d) (g_th d) (pl_sh c) (pl_top c) -> sum_axis (g_wo d) (g_tw d) (pl_sw c) (pl_left c) -> pads_ok sum_tile_pads d c.
Proof.
  intros Hok SH SW si b h v k Hh Hv.
  assert (Q : forall o Do T D K S P A j, pool_axis Do T D K S P A -> axis_fits Do T D K S P A -> sum_axis Do T S P -> 0 <= j < it_count (tile_dim o Do T 0) ->
    (if tile_start (kernel_dim (tile_dim o Do T 0) D K S P) j =? 0 then P else 0) = if j =? 0 then P else 0).
  { intros o Do T D K S P A j PA AF SA Hj. pose proof (axis_tile o _ _ _ _ _ _ _ j AF Hj) as R. cbv zeta in R. destruct R as (_ & (R1 & R2 & R3) & _ & R7 & _).
    destruct (Z.eqb_spec j 0) as [->|Nj]; [reflexivity|].
    assert (Ej : (j =? 0) = false) by (apply Z.eqb_neq; exact Nj). rewrite ?Ej in R7.
    destruct PA as (T1 & T2 & T3 & T4 & T5 & T6 & _). destruct AF as (_ & HD & _ & _ & _ & _ & _ & Hbig).
    assert (M0 : (Do + 2 * T) * 1 <= (Do + 2 * T) * S) by (apply Z.mul_le_mono_nonneg_l; lia).
    destruct (tile_dim_val o Do T 0 T1 ltac:(lia) ltac:(lia)) as (E & Hn1 & Hn & _).
    assert (Es : tile_start (tile_dim o Do T 0) j = j * T) by (unfold tile_start; rewrite E, Ej; cbn [it_first_inc it_inc]; ring).
    rewrite Es in *. assert (Hjs : 1 * T * S <= j * T * S) by (apply Z.mul_le_mono_nonneg_r; [lia|apply Z.mul_le_mono_nonneg_r; lia]).
    destruct SA as [->|SA].
    - exfalso. rewrite E in Hj. cbn [it_count] in Hj. assert (Hn2 : ceil_div (Do + 0) Do * Do < 2 * Do) by lia. apply Z.mul_lt_mono_pos_r in Hn2; lia.
    - destruct (Z.eqb_spec (tile_start (kernel_dim (tile_dim o Do T 0) D K S P) j) 0); lia. }
  pose proof Hok as (PH & PW & _).
  pose proof (Q 1 _ _ _ _ _ _ _ h PH (pool_fits_h d c Hok) SH Hh) as R1. pose proof (Q 2 _ _ _ _ _ _ _ v PW (pool_fits_w d c Hok) SW Hv) as R2.
  unfold sum_tile_pads.
  match goal with |- exists bt rt, with_ppad c ?x ?y ?z ?w = _ => exists z, w; change (with_ppad c
    (if tile_start (kernel_dim (tile_dim 1 (g_ho d) (g_th d) 0) (g_hi d) (pl_kh c) (pl_sh c) (pl_top c)) h =? 0 then pl_top c else 0)
    (if tile_start (kernel_dim (tile_dim 2 (g_wo d) (g_tw d) 0) (g_wi d) (pl_kw c) (pl_sw c) (pl_left c)) v =? 0 then pl_left c else 0)
    z w = with_ppad c (if h =? 0 then pl_top c else 0) (if v =? 0 then pl_left c else 0) z w) end.
  rewrite R1, R2. reflexivity.
Qed.

Lemma pool_tile_gen pads krn R d c si so i o bi bo m n X mi :
  pool_dims_ok d c -> pads_ok pads d c -> pool_iters d c si so = Some (i, o) ->
  (forall tin tout m bt rt ohs ohn ihs ihl ph ows own iws iwl pv osc ocn b,
     legal tin mi -> legal tout m ->
     tile_axis (g_ho d) (g_hi d) (pl_kh c) (pl_sh c) (pl_top c) (pl_bottom c) ohs ohn ihs ihl ph ->
     tile_axis (g_wo d) (g_wi d) (pl_kw c) (pl_sw c) (pl_left c) (pl_right c) ows own iws iwl pv ->
     t_shape tin = [ihl; iwl; ocn] -> t_shape tout = [ohn; own; ocn] -> holds3 mi tin (X b) (ihs, iws, osc) ->
     exists m', krn tin tout (with_ppad c ph pv bt rt) m = Some m' /\ holdsR m' tout (R b) (ohs, ows, osc) /\ frame_ok tout m m') ->
  let ob := pool_updates pads n (pool_create pads i o c bi bo) in
  let '(pi, po) := pool_offsets ob in
  legal (po_tin ob) mi -> legal (po_tout ob) m -> holds4 mi (po_tin ob) X (off_bhwc pi) ->
  exists m', pool_issue krn ob m = Some m' /\ holdsR4 m' (po_tout ob) R (off_bhwc po) /\ frame_ok (po_tout ob) m m'.
Proof.
  intros Hok Hp Hit Core ob. destruct (pool_tile_shape pads d c si so i o bi bo n Hok Hit) as (b & h & v & k & _ & Hb & Hh & Hv & Hk & Hbs & Si & So & Hoff & Hcfg).
  fold ob in Si, So, Hoff, Hcfg, Hbs. rewrite Hoff. unfold off_bhwc. cbn [nth]. unfold pool_issue. rewrite Hcfg, Hbs.
  destruct (Hp si b h v k Hh Hv) as (bt & rt & Ep). rewrite Ep. clear Ep Hcfg Hbs Hoff Hit.
  generalize dependent (po_tin ob). generalize dependent (po_tout ob). clear ob. intros tout So tin Si Li Lo Xi.
  pose proof Hok as (PH & PW & Hnb & Hch & F & _).
  pose proof (pool_axis_ok 1 _ _ _ _ _ _ _ h PH (pool_fits_h d c Hok) Hh) as AH. pose proof (pool_axis_ok 2 _ _ _ _ _ _ _ v PW (pool_fits_w d c Hok) Hv) as AW. cbv zeta in AH, AW.
  assert (AB : 0 <= tile_len (tile_dim 0 (g_nb d) (g_tb d) 0) (g_nb d) b).
  { fall. change (2 ^ 20) with 1048576 in *. destruct (tile_dim_cuts 0 (g_nb d) (g_tb d) 0 Hnb ltac:(lia)) as (Hc1 & Hc & Hlen); [change (2 ^ 31) with 2147483648; lia|].
    specialize (Hlen ltac:(lia) b Hb). lia. }
  apply (pool_batches krn tin tout _ m R _ _ _ _ _ _ _ _ So AB Lo). intros q m1 Hq L1.
  apply Core with (2 := legal_batch4 _ _ _ _ _ _ q So L1 Hq) (3 := AH) (4 := AW) (ocn := tile_len (tile_dim 3 (g_ch d) (g_tc d) 0) (g_ch d) k).
  - exact (legal_batch4 _ _ _ _ _ _ q Si Li Hq).
  - exact (batch4_shape _ _ _ _ _ q Si).
  - exact (batch4_shape _ _ _ _ _ q So).
  - intros r cl ch Hvr. rewrite (batch4_shape _ _ _ _ _ q Si) in Hvr.
    assert (L4 : length (t_stride tin) = 4%nat) by (destruct Li as ((L & _) & _); rewrite <- L, Si; reflexivity).
    unfold hwc_elem, hwc_addr. rewrite (batch4_addr _ _ _ _ _ q r cl ch Si L4). apply Xi. rewrite Si. cbn [valid] in *. tauto.
Qed.

(** C70: one tile of maximum pooling. *)
Theorem max_tile_correct d c si so i o bi bo mi m X n :
  pool_dims_ok d c -> pool_iters d c si so = Some (i, o) ->
  let ob := pool_updates max_tile_pads n (pool_create max_tile_pads i o c bi bo) in
  let '(pi, po) := pool_offsets ob in
  legal (po_tin ob) mi -> legal (po_tout ob) m -> holds4 mi (po_tin ob) X (off_bhwc pi) ->
  exists m', max_issue mi ob m = Some m' /\ holdsR4 m' (po_tout ob) (pool_max d c X) (off_bhwc po) /\ frame_ok (po_tout ob) m m'.
Proof.
  intros Hok Hit. refine (pool_tile_gen max_tile_pads (maxpool mi 0) (pool_max d c X) d c si so i o bi bo m n X mi Hok (max_pads_ok d c Hok) Hit _).
  intros. eapply max_tile_core; eassumption.
Qed.

(** C70: one tile of sum pooling. *)
Theorem sum_tile_correct d c si so i o bi bo mi m X n :
  pool_dims_ok d c -> sum_axis (g_ho d) (g_th d) (pl_sh c) (pl_top c) -> sum_axis (g_wo d) (g_tw d) (pl_sw c) (pl_left c) ->
  pool_iters d c si so = Some (i, o) -> mem_bits 8 mi ->
  let ob := pool_updates sum_tile_pads n (pool_create sum_tile_pads i o c bi bo) in
  let '(pi, po) := pool_offsets ob in
  legal (po_tin ob) mi -> legal (po_tout ob) m -> holds4 mi (po_tin ob) X (off_bhwc pi) ->
  exists m', sum_issue mi ob m = Some m' /\ holds4 m' (po_tout ob) (pool_sum d c X) (off_bhwc po) /\ frame_ok (po_tout ob) m m'.
Proof.
  intros Hok SH SW Hit Mb ob.
  pose proof (pool_tile_gen sum_tile_pads (sumpool mi 0) (fun b H W ch v => v = pool_sum d c X b H W ch) d c si so i o bi bo m n X mi Hok (sum_pads_ok d c Hok SH SW) Hit) as Q.
  cbv zeta in Q. fold ob in Q. destruct (pool_offsets ob) as [pi po]. intros Li Lo Xi.
  destruct Q with (2 := Li) (3 := Lo) (4 := Xi) as (m' & E & Hh & Fr).
  - intros. eapply sum_tile_core; eassumption.
  - exists m'. split; [exact E|]. split; [|exact Fr]. intros b y x ch Hv. destruct (Hh b y x ch Hv) as (v & Ev & ->). exact Ev.
Qed.

(** * All tiles *)

(** Output (b, H, W, ch) of the whole tensor belongs to the current output tile. *)
Definition pool_in_tile (ob : pool_obj) (b H W ch : Z) : Prop :=
  let '(_, po) := pool_offsets ob in valid (t_shape (po_tout ob)) [b - nth 0 po 0; H - nth 1 po 0; W - nth 2 po 0; ch - nth 3 po 0].

(** The value of output (b, H, W, ch) in the current output tile in memory [m]. *)
Definition pool_out_value (ob : pool_obj) (m : mem) (b H W ch : Z) : option Z :=
  let '(_, po) := pool_offsets ob in m (t_data (po_tout ob) + addr (t_stride (po_tout ob)) [b - nth 0 po 0; H - nth 1 po 0; W - nth 2 po 0; ch - nth 3 po 0]).

(** The buffers before Issue: legal tensors; the input holds the window at the offsets that the object reports. *)
Definition pool_ready (ob : pool_obj) (X : Z -> Z -> Z -> Z -> Z) (mi m : mem) : Prop :=
  legal (po_tin ob) mi /\ legal (po_tout ob) m /\ holds4 mi (po_tin ob) X (off_bhwc (fst (pool_offsets ob))).

Lemma pool_tiles_cover pads d c si so i o bi bo :
  pool_dims_ok d c -> pool_iters d c si so = Some (i, o) ->
  let ob n := pool_updates pads n (pool_create pads i o c bi bo) in
  forall b H W ch, 0 <= b < g_nb d -> 0 <= H < g_ho d -> 0 <= W < g_wo d -> 0 <= ch < g_ch d ->
  exists n, (Z.of_nat n < total_count (ti_cfg o) /\ pool_in_tile (ob n) b H W ch)
    /\ forall n', Z.of_nat n' < total_count (ti_cfg o) -> pool_in_tile (ob n') b H W ch -> n' = n.
Proof.
  intros Hok Hit ob b H W ch RB RH RW RC.
  assert (Hcfg : ti_cfg o = p_out d) by (rewrite (pool_iters_val d c si so Hok) in Hit; injection Hit as <- <-; reflexivity). rewrite Hcfg.
  set (oshape := [g_nb d; g_ho d; g_wo d; g_ch d]). set (bufs := repeat (mkBdim 0 0 0 0) 4).
  destruct (p_counts d c Hok) as (Hc & _).
  pose proof (tiles_partition oshape [g_tb d; g_th d; g_tw d; g_tc d] [0; 1; 2; 3]%nat 0 bufs 1) as P.
  change (tile_cfg oshape _ _ 0) with (p_out d) in P. cbv zeta in P.
  pose proof Hok as ((T1 & _) & (T2 & _) & T0 & T3 & F & _).
  assert (B : forall n, (in_box (fst (sub_tensor (p_out d) oshape (fst (iter_run (p_out d) bufs 1 n)))) (snd (sub_tensor (p_out d) oshape (fst (iter_run (p_out d) bufs 1 n)))) [b; H; W; ch]
                <-> pool_in_tile (ob n) b H W ch)).
  { intros n. rewrite <- (ti_run_iter (p_out d) oshape so bufs 1 n Hc) by reflexivity. rewrite ti_run_at by exact Hc.
    destruct (pool_tile_shape pads d c si so i o bi bo n Hok Hit) as (q & h & v & k & Ei & Hq & Hh & Hv & Hk & _ & _ & So & Hoff & _).
    fold (ob n) in So, Hoff. unfold pool_in_tile. rewrite Hoff, So, Ei. cbn [nth ti_st].
    change (sub_tensor (p_out d) oshape (at_tile (p_out d) [q; h; v; k])) with
      ([uwrap 32 (tile_start (tile_dim 0 (g_nb d) (g_tb d) 0) q); uwrap 32 (tile_start (tile_dim 1 (g_ho d) (g_th d) 0) h); uwrap 32 (tile_start (tile_dim 2 (g_wo d) (g_tw d) 0) v); uwrap 32 (tile_start (tile_dim 3 (g_ch d) (g_tc d) 0) k)],
       [tile_len (tile_dim 0 (g_nb d) (g_tb d) 0) (g_nb d) q; tile_len (tile_dim 1 (g_ho d) (g_th d) 0) (g_ho d) h; tile_len (tile_dim 2 (g_wo d) (g_tw d) 0) (g_wo d) v; tile_len (tile_dim 3 (g_ch d) (g_tc d) 0) (g_ch d) k]).
    cbn [fst snd].
    assert (A : forall ax D T j, 1 <= T <= D -> D <= 2 ^ 20 -> 0 <= j < it_count (tile_dim ax D T 0) -> uwrap 32 (tile_start (tile_dim ax D T 0) j) = tile_start (tile_dim ax D T 0) j).
    { intros ax D T j HT HD Hj. change (2 ^ 20) with 1048576 in HD.
      destruct (tile_dim_cuts ax D T 0 HT ltac:(lia) ltac:(change (2 ^ 31) with 2147483648; lia)) as (N1 & Cu & _).
      pose proof (cuts_inside _ _ _ _ N1 Cu j Hj) as I. destruct Cu as (_ & _ & _ & Sz). specialize (Sz j Hj).
      apply u32_id. change (2 ^ 32) with 4294967296. lia. }
    fall. rewrite !A by (assumption || lia).
    unfold in_box. split.
    - intros [_ I]. pose proof (I 0%nat ltac:(cbn; lia)) as I0. pose proof (I 1%nat ltac:(cbn; lia)) as I1. pose proof (I 2%nat ltac:(cbn; lia)) as I2. pose proof (I 3%nat ltac:(cbn; lia)) as I4.
      cbn [nth] in I0, I1, I2, I4. cbn [valid]. lia.
    - cbn [valid]. intros (I0 & I1 & I2 & I3 & _). split; [reflexivity|]. intros [|[|[|[|a]]]] Ha; cbn [nth length] in *; lia. }
  destruct P with (c := [b; H; W; ch]) as (n & [Hn Hin] & Hu).
  - split; [repeat constructor; cbn; intuition lia|]. split; [reflexivity|]. cbn [length oshape]. repeat constructor; lia.
  - fall. change (2 ^ 20) with 1048576 in *. change (2 ^ 31) with 2147483648.
    intros [|[|[|[|a]]]] Ha; cbn [nth length oshape] in *; lia.
  - intros a Ha. cbn [In] in Ha. decompose [or] Ha; subst; cbn [nth]; lia.
  - reflexivity.
  - unfold oshape. cbn [valid]. lia.
  - exists (Z.to_nat n). split; [split; [lia|]|].
    + apply B. exact Hin.
    + intros n' Hn' Hin'. apply B in Hin'. rewrite <- (Nat2Z.id n') in Hin'. apply Hu in Hin'; lia.
Qed.

Lemma pool_tiles_gen pads issue R d c si so i o bi bo X (mi m : nat -> mem) :
  pool_dims_ok d c -> pool_iters d c si so = Some (i, o) ->
  let ob n := pool_updates pads n (pool_create pads i o c bi bo) in
  let total := total_count (ti_cfg o) in
  (forall n, Z.of_nat n < total -> pool_ready (ob n) X (mi n) (m n)) ->
  (forall n, Z.of_nat n < total -> let '(pi, po) := pool_offsets (ob n) in
     legal (po_tin (ob n)) (mi n) -> legal (po_tout (ob n)) (m n) -> holds4 (mi n) (po_tin (ob n)) X (off_bhwc pi) ->
     exists m', issue (mi n) (ob n) (m n) = Some m' /\ holdsR4 m' (po_tout (ob n)) R (off_bhwc po) /\ frame_ok (po_tout (ob n)) (m n) m') ->
  exists out : nat -> mem,
    (forall n, Z.of_nat n < total -> issue (mi n) (ob n) (m n) = Some (out n) /\ frame_ok (po_tout (ob n)) (m n) (out n))
    /\ forall b H W ch, 0 <= b < g_nb d -> 0 <= H < g_ho d -> 0 <= W < g_wo d -> 0 <= ch < g_ch d ->
       exists n, (Z.of_nat n < total /\ pool_in_tile (ob n) b H W ch /\ exists v, pool_out_value (ob n) (out n) b H W ch = Some v /\ R b H W ch v)
         /\ forall n', Z.of_nat n' < total -> pool_in_tile (ob n') b H W ch -> n' = n.
Proof.
  intros Hok Hit ob total Hr Tl.
  set (out := fun n => match issue (mi n) (ob n) (m n) with Some x => x | None => m n end).
  assert (T : forall n, Z.of_nat n < total -> issue (mi n) (ob n) (m n) = Some (out n) /\ frame_ok (po_tout (ob n)) (m n) (out n)
    /\ holdsR4 (out n) (po_tout (ob n)) R (off_bhwc (snd (pool_offsets (ob n))))).
  { intros n Hn. specialize (Tl n Hn). destruct (Hr n Hn) as (L1 & L2 & X1). unfold out. destruct (pool_offsets (ob n)) as [pi po].
    destruct (Tl L1 L2 X1) as (m' & E & Hh & Fr). rewrite E. cbn [snd]. tauto. }
  exists out. split; [intros n Hn; split; apply T; exact Hn|]. intros b H W ch RB RH RW RC.
  destruct (pool_tiles_cover pads d c si so i o bi bo Hok Hit b H W ch RB RH RW RC) as (n & [Hn Hin] & Hu).
  change (pool_in_tile (ob n) b H W ch) in Hin. change (forall n', Z.of_nat n' < total -> pool_in_tile (ob n') b H W ch -> n' = n) in Hu.
  exists n. split; [|exact Hu]. split; [exact Hn|]. split; [exact Hin|]. destruct (T n Hn) as (_ & _ & Hv).
  unfold pool_in_tile in Hin. unfold pool_out_value. destruct (pool_offsets (ob n)) as [pi po]. cbn [snd] in Hv.
  destruct (Hv _ _ _ _ Hin) as (v & Ev & Rv). exists v. split; [exact Ev|]. unfold off_bhwc in Rv. cbn [fst snd] in Rv.
  replace (nth 0 po 0 + (b - nth 0 po 0)) with b in Rv by ring. replace (nth 1 po 0 + (H - nth 1 po 0)) with H in Rv by ring.
  replace (nth 2 po 0 + (W - nth 2 po 0)) with W in Rv by ring. replace (nth 3 po 0 + (ch - nth 3 po 0)) with ch in Rv by ring. exact Rv.
Qed.

(** C70: whatever the tile sizes, processing all tiles yields the maximum pooling of the whole tensor: every Issue succeeds and changes
    nothing but its output tile, and every output belongs to exactly one tile, which receives the maximum of its window. *)
Theorem max_tiles_whole d c si so i o bi bo X (mi m : nat -> mem) :
  pool_dims_ok d c -> pool_iters d c si so = Some (i, o) ->
  let ob n := pool_updates max_tile_pads n (pool_create max_tile_pads i o c bi bo) in
  let total := total_count (ti_cfg o) in
  (forall n, Z.of_nat n < total -> pool_ready (ob n) X (mi n) (m n)) ->
  exists out : nat -> mem,
    (forall n, Z.of_nat n < total -> max_issue (mi n) (ob n) (m n) = Some (out n) /\ frame_ok (po_tout (ob n)) (m n) (out n))
    /\ forall b H W ch, 0 <= b < g_nb d -> 0 <= H < g_ho d -> 0 <= W < g_wo d -> 0 <= ch < g_ch d ->
       exists n, (Z.of_nat n < total /\ pool_in_tile (ob n) b H W ch /\ exists v, pool_out_value (ob n) (out n) b H W ch = Some v /\ pool_max d c X b H W ch v)
         /\ forall n', Z.of_nat n' < total -> pool_in_tile (ob n') b H W ch -> n' = n.
Proof.
  intros Hok Hit ob total Hr. apply (pool_tiles_gen max_tile_pads max_issue (pool_max d c X) d c si so i o bi bo X mi m Hok Hit Hr).
  intros n _. apply (max_tile_correct d c si so i o bi bo (mi n) (m n) X n Hok Hit).
Qed.

(** C70: the same for sum pooling of 8-bit inputs, if the leading padding of an axis with several tiles is smaller than one tile. *)
Theorem sum_tiles_whole d c si so i o bi bo X (mi m : nat -> mem) :
  pool_dims_ok d c -> sum_axis (g_ho d) (g_th d) (pl_sh c) (pl_top c) -> sum_axis (g_wo d) (g_tw d) (pl_sw c) (pl_left c) ->
  pool_iters d c si so = Some (i, o) ->
  let ob n := pool_updates sum_tile_pads n (pool_create sum_tile_pads i o c bi bo) in
  let total := total_count (ti_cfg o) in
  (forall n, Z.of_nat n < total -> pool_ready (ob n) X (mi n) (m n) /\ mem_bits 8 (mi n)) ->
  exists out : nat -> mem,
    (forall n, Z.of_nat n < total -> sum_issue (mi n) (ob n) (m n) = Some (out n) /\ frame_ok (po_tout (ob n)) (m n) (out n))
    /\ forall b H W ch, 0 <= b < g_nb d -> 0 <= H < g_ho d -> 0 <= W < g_wo d -> 0 <= ch < g_ch d ->
       exists n, (Z.of_nat n < total /\ pool_in_tile (ob n) b H W ch /\ pool_out_value (ob n) (out n) b H W ch = Some (pool_sum d c X b H W ch))
         /\ forall n', Z.of_nat n' < total -> pool_in_tile (ob n') b H W ch -> n' = n.
Proof.
  intros Hok SH SW Hit ob total Hr.
  destruct (pool_tiles_gen sum_tile_pads sum_issue (fun b H W ch v => v = pool_sum d c X b H W ch) d c si so i o bi bo X mi m Hok Hit (fun n Hn => proj1 (Hr n Hn))) as (out & O1 & O2).
  - intros n Hn. pose proof (sum_tile_correct d c si so i o bi bo (mi n) (m n) X n Hok SH SW Hit (proj2 (Hr n Hn))) as Q. cbv zeta in Q.
    destruct (pool_offsets _) as [pi po]. intros L1 L2 X1. destruct (Q L1 L2 X1) as (m' & E & Hh & Fr). exists m'. split; [exact E|]. split; [|exact Fr].
    intros b y x ch Hv. eexists. split; [exact (Hh b y x ch Hv)|reflexivity].
  - exists out. split; [exact O1|]. intros b H W ch RB RH RW RC. destruct (O2 b H W ch RB RH RW RC) as (n & (N1 & N2 & v & Ev & ->) & Hu). exists n. tauto.
Qed.

(** Buffers with room for one tile of the largest size are legal for every tile: here, for as many batches as a tile has and whole images. *)
Theorem pool_tile_legal pads d c si so i o bi bo n mi m :
  pool_dims_ok d c -> pool_iters d c si so = Some (i, o) ->
  legal (mkTensor (lb_data bi) (lb_cap bi) (lb_esz bi) [g_tb d; g_hi d; g_wi d; g_ch d] si false (-1) 0) mi ->
  legal (mkTensor (lb_data bo) (lb_cap bo) (lb_esz bo) [g_tb d; g_th d; g_tw d; g_tc d] so false (-1) 0) m ->
  let ob := pool_updates pads n (pool_create pads i o c bi bo) in
  legal (po_tin ob) mi /\ legal (po_tout ob) m.
Proof.
  intros Hok Hit Li Lo ob.
  destruct (pool_tile_shape pads d c si so i o bi bo n Hok Hit) as (b & h & v & k & _ & Hb & Hh & Hv & Hk & _ & Si & So & _).
  fold ob in Si, So. pose proof Hok as (PH & PW & T0 & T3 & F & _).
  pose proof (axis_tile 1 _ _ _ _ _ _ _ h (pool_fits_h d c Hok) Hh) as AH. pose proof (axis_tile 2 _ _ _ _ _ _ _ v (pool_fits_w d c Hok) Hv) as AW. cbv zeta in AH, AW.
  destruct AH as (_ & (H1 & H2 & H3) & (H4 & H5 & H6) & _). destruct AW as (_ & (W1 & W2 & W3) & (W4 & W5 & W6) & _). fall. change (2 ^ 20) with 1048576 in *.
  assert (AC : forall ax D T j, 1 <= T <= D -> D <= 1048576 -> 0 <= j < it_count (tile_dim ax D T 0) -> 1 <= tile_len (tile_dim ax D T 0) D j <= T).
  { intros ax D T j HT HD Hj. destruct (tile_dim_cuts ax D T 0 HT ltac:(lia)) as (Hc1 & Hc & Hlen); [change (2 ^ 31) with 2147483648; lia|]. specialize (Hlen ltac:(lia) j Hj). lia. }
  pose proof (AC _ _ _ _ T0 ltac:(lia) Hb) as A0. pose proof (AC _ _ _ _ T3 ltac:(lia) Hk) as A3. clear AC.
  assert (E : po_tin ob = with_shape (mkTensor (lb_data bi) (lb_cap bi) (lb_esz bi) [g_tb d; g_hi d; g_wi d; g_ch d] si false (-1) 0) (t_shape (po_tin ob))
    /\ po_tout ob = with_shape (mkTensor (lb_data bo) (lb_cap bo) (lb_esz bo) [g_tb d; g_th d; g_tw d; g_tc d] so false (-1) 0) (t_shape (po_tout ob))).
  { assert (Hs : forall j l, ti_stride (ti_run j l) = ti_stride j) by (intros j l; clear; induction l as [|l IH]; cbn [ti_run]; [reflexivity|exact IH]).
    unfold ob. rewrite pool_updates_val. rewrite (pool_iters_val d c si so Hok) in Hit. injection Hit as <- <-.
    unfold pool_create, with_shape, tile_of. cbn [po_tin po_tout t_data t_cap t_esz t_shape t_stride t_asym t_qdim t_qoff]. rewrite !Hs. split; reflexivity. }
  destruct E as [Ei Eo]. split.
  - rewrite Ei, Si. apply legal_smaller; [exact Li|]. cbn [t_shape]. repeat constructor; lia.
  - rewrite Eo, So. apply legal_smaller; [exact Lo|]. cbn [t_shape]. repeat constructor; lia.
Qed.

(** * A concrete case *)

(** 3 batches of 4 x 4 x 2, 3 x 3 window, stride 1 x 2, padding 1 on all sides, output 4 x 2 x 2; tiles of 2 batches and 3 x 1 x 1: 16 tiles,
    the last ones with one batch and one row. *)
Definition plx_dims : pool_dims := mkPd 3 4 4 2 4 2 2 3 1 1.
Definition plx_cfg : pool_cfg := mkPool 3 3 2 1 1 1 1 1.
Definition plx_X (b r cl ch : Z) : Z := b * 32 + r * 8 + cl * 2 + ch - 60.
Definition plx_base (ob : pool_obj) : Z := let pi := fst (pool_offsets ob) in plx_X (nth 0 pi 0) (nth 1 pi 0) (nth 2 pi 0) (nth 3 pi 0).

Lemma plx_dims_ok : pool_dims_ok plx_dims plx_cfg.
Proof.
  unfold pool_dims_ok, pool_axis, plx_dims, plx_cfg, in_ubits. cbn [g_nb g_hi g_wi g_ch g_ho g_wo g_tb g_th g_tw g_tc pl_kh pl_kw pl_sh pl_sw pl_top pl_left pl_bottom pl_right].
  change (2 ^ 20) with 1048576. change (2 ^ 8) with 256. repeat split; try lia; repeat constructor; lia.
Qed.

Example plx_sum_axes : sum_axis (g_ho plx_dims) (g_th plx_dims) (pl_sh plx_cfg) (pl_top plx_cfg) /\ sum_axis (g_wo plx_dims) (g_tw plx_dims) (pl_sw plx_cfg) (pl_left plx_cfg).
Proof. unfold sum_axis. cbn. lia. Qed.

(** All sixteen tiles are ready when the windows are copied into the buffers: for maximum pooling (8-bit outputs) and sum pooling (32-bit). *)
Example plx_ready : exists i o, pool_iters plx_dims plx_cfg [32; 8; 2; 1] [16; 4; 2; 1] = Some (i, o) /\ total_count (ti_cfg o) = 16
  /\ forall n pads bo, Z.of_nat n < 16 -> (pads = max_tile_pads /\ bo = mkLb 0 32 1) \/ (pads = sum_tile_pads /\ bo = mkLb 0 128 4) ->
     let ob := pool_updates pads n (pool_create pads i o plx_cfg (mkLb 0 64 1) bo) in
     pool_ready ob plx_X (ex_mem 64 (plx_base ob)) (ex_mem 32 0) /\ mem_bits 8 (ex_mem 64 (plx_base ob)).
Proof.
  do 2 eexists. split; [apply pool_iters_val; exact plx_dims_ok|]. split; [reflexivity|]. intros n pads bo Hn Hp ob.
  destruct (pool_tile_legal pads plx_dims plx_cfg [32; 8; 2; 1] [16; 4; 2; 1] _ _ (mkLb 0 64 1) bo n (ex_mem 64 (plx_base ob)) (ex_mem 32 0)
    plx_dims_ok (pool_iters_val plx_dims plx_cfg [32; 8; 2; 1] [16; 4; 2; 1] plx_dims_ok)) as (L1 & L2).
  { apply ex_legal; [fits32_tac|reflexivity|reflexivity|reflexivity|reflexivity|cbn; lia]. }
  { destruct Hp as [[_ ->]|[_ ->]]; (apply ex_legal; [fits32_tac|reflexivity|reflexivity|reflexivity|reflexivity|cbn; lia]). }
  fold ob in L1, L2. unfold pool_ready.
  assert (Bs : forall (nn base : Z), -128 <= base -> nn + base <= 127 -> mem_bits 8 (ex_mem nn base)).
  { intros nn base B1 B2 a x. unfold ex_mem. destruct ((0 <=? a) && (a <? nn)) eqn:E; [|discriminate]. intros Hx. injection Hx as <-.
    apply andb_true_iff in E. rewrite Z.leb_le, Z.ltb_lt in E. apply ib8. lia. }
  assert (Hc : In n [0; 1; 2; 3; 4; 5; 6; 7; 8; 9; 10; 11; 12; 13; 14; 15]%nat) by (do 16 (destruct n as [|n]; [cbn; tauto|]); lia).
  assert (Get : forall nn base a, 0 <= a < nn -> ex_mem nn base a = Some (base + a)).
  { intros nn base a Ha. unfold ex_mem. replace (0 <=? a) with true by (symmetry; apply Z.leb_le; lia). replace (a <? nn) with true by (symmetry; apply Z.ltb_lt; lia). reflexivity. }
  assert (G : exists v0 v1 v2 v3, pool_offsets ob = ([v0; v1; v2; v3], snd (pool_offsets ob)) /\ plx_base ob = plx_X v0 v1 v2 v3 /\ -128 <= plx_X v0 v1 v2 v3 <= 63
    /\ exists a b e g, po_tin ob = mkTensor 0 64 1 [a; b; e; g] [32; 8; 2; 1] false (-1) 0 /\ a <= 2 /\ b <= 4 /\ e <= 4 /\ g <= 1).
  { clear L1 L2 Get Bs. destruct Hp as [[-> ->]|[-> ->]]; cbn [In] in Hc; decompose [or] Hc; clear Hc; try tauto; subst n;
    (let v := eval vm_compute in (pool_offsets ob) in match v with ([?v0; ?v1; ?v2; ?v3], _) => exists v0, v1, v2, v3 end);
    (split; [vm_compute; reflexivity|]); (split; [vm_compute; reflexivity|]); (split; [unfold plx_X; lia|]);
    (let v := eval vm_compute in (t_shape (po_tin ob)) in match v with [?a; ?b; ?e; ?g] => exists a, b, e, g end);
    (split; [vm_compute; reflexivity|lia]). }
  destruct G as (v0 & v1 & v2 & v3 & Eo & Eb & Hb & a & b & e & g & Et & A1 & A2 & A3 & A4).
  split; [|apply Bs; rewrite Eb; lia]. split; [exact L1|]. split; [exact L2|]. rewrite Et, Eb, Eo. cbn [fst].
  intros q r cl ch V. cbn [t_shape valid] in V. cbn [t_data t_stride addr]. rewrite Get by lia. f_equal. unfold plx_X, off_bhwc. cbn [fst snd nth]. lia.
Qed.

Example plx_values : pool_sum plx_dims plx_cfg plx_X 2 3 1 1 = 174.
Proof. vm_compute. reflexivity. Qed.

(** * What does not hold *)

(** Sum pooling takes every tile that starts at input row 0 for the first one. Window 2 x 1, padding 1 above, 2 rows, tiles of one row: the
    second tile also starts at row 0, is padded again, and its output is not the sum of its window. *)
Theorem sumpool_pad_refuted :
  exists (d : pool_dims) (c : pool_cfg) si so i o mi m m' X, pool_dims_ok d c
    /\ pool_iters d c si so = Some (i, o) /\ total_count (ti_cfg o) = 2
    /\ let ob := pool_updates sum_tile_pads 1 (pool_create sum_tile_pads i o c (mkLb 0 2 1) (mkLb 0 4 4)) in
       pool_ready ob X mi m /\ mem_bits 8 mi /\ sum_issue mi ob m = Some m'
       /\ pool_in_tile ob 0 1 0 0 /\ pool_out_value ob m' 0 1 0 0 <> Some (pool_sum d c X 0 1 0 0).
Proof.
  set (d := mkPd 1 2 1 1 2 1 1 1 1 1). set (c := mkPool 1 2 1 1 0 0 1 0).
  assert (Hok : pool_dims_ok d c).
  { unfold pool_dims_ok, pool_axis, d, c, in_ubits. cbn [g_nb g_hi g_wi g_ch g_ho g_wo g_tb g_th g_tw g_tc pl_kh pl_kw pl_sh pl_sw pl_top pl_left pl_bottom pl_right].
    change (2 ^ 20) with 1048576. change (2 ^ 8) with 256. repeat split; try lia; repeat constructor; lia. }
  exists d, c, [2; 1; 1; 1], [1; 1; 1; 1]. do 2 eexists. exists (ex_mem 2 3), (ex_mem 1 0). eexists. exists (fun _ r _ _ => 3 + r).
  split; [exact Hok|]. split; [apply pool_iters_val; exact Hok|]. split; [reflexivity|]. cbv zeta.
  split; [|split; [|split; [vm_compute; reflexivity|split]]].
  - destruct (pool_tile_legal sum_tile_pads d c [2; 1; 1; 1] [1; 1; 1; 1] _ _ (mkLb 0 2 1) (mkLb 0 4 4) 1%nat (ex_mem 2 3) (ex_mem 1 0) Hok (pool_iters_val d c [2; 1; 1; 1] [1; 1; 1; 1] Hok)) as (L1 & L2).
    { apply ex_legal; [fits32_tac|reflexivity|reflexivity|reflexivity|reflexivity|cbn; lia]. }
    { apply ex_legal; [fits32_tac|reflexivity|reflexivity|reflexivity|reflexivity|cbn; lia]. }
    split; [exact L1|]. split; [exact L2|]. clear L1 L2. intros b r cl ch V.
    match type of V with valid ?s _ => assert (E : s = [1; 2; 1; 1]) by (vm_compute; reflexivity) end. rewrite E in V. cbn [valid] in V.
    assert (Hb : b = 0 /\ cl = 0 /\ ch = 0 /\ (r = 0 \/ r = 1)) by lia. destruct Hb as (-> & -> & -> & [-> | ->]); vm_compute; reflexivity.
  - intros a x Hx. unfold ex_mem in Hx. destruct ((0 <=? a) && (a <? 2)) eqn:E; [|discriminate].
    apply andb_true_iff in E. rewrite Z.leb_le, Z.ltb_lt in E. assert (x = 3 + a) by congruence. apply ib8. lia.
  - vm_compute. repeat split; discriminate.
  - vm_compute. discriminate.
Qed.

(** The condition on the trailing padding is needed too: window 3 x 1, one input row, padding 1 above and 2 below, 2 outputs, tiles of one row.
    The kernel accepts the whole image and computes it correctly, but for the second tile, whose trailing padding is wider than the tile,
    maximum pooling writes in front of the output buffer. *)
Theorem maxpool_tail_refuted :
  exists (d : pool_dims) (c : pool_cfg) si so i o mi m m' X,
    (let tin := mkTensor 0 1 1 [g_hi d; g_wi d; g_ch d] [1; 1; 1] false (-1) 0 in let tout := mkTensor 0 2 1 [g_ho d; g_wo d; g_ch d] [1; 1; 1] false (-1) 0 in
     chk_pool tin tout c 0 = ST_OK /\ pool_fits tin tout c /\ pool_padding_small tin tout c)
    /\ pl_top c <= g_th d * pl_sh c /\ pool_iters d c si so = Some (i, o) /\ total_count (ti_cfg o) = 2
    /\ let ob := pool_updates max_tile_pads 1 (pool_create max_tile_pads i o c (mkLb 0 1 1) (mkLb 0 1 1)) in
       pool_ready ob X mi m /\ max_issue mi ob m = Some m' /\ ~ frame_ok (po_tout ob) m m'.
Proof.
  set (d := mkPd 1 1 1 1 2 1 1 1 1 1). set (c := mkPool 1 3 1 1 0 0 1 2).
  exists d, c, [1; 1; 1; 1], [1; 1; 1; 1]. do 2 eexists. exists (ex_mem 1 7), (fun a => if (-1 <=? a) && (a <? 1) then Some 0 else None). eexists. exists (fun _ _ _ _ => 7).
  split.
  { cbv zeta. split; [reflexivity|]. unfold pool_fits, pool_padding_small, in_ubits, dim, d, c.
    cbn [t_shape nth g_hi g_wi g_ch g_ho g_wo pl_kh pl_kw pl_sh pl_sw pl_top pl_left pl_bottom pl_right]. change (2 ^ 8) with 256. change (2 ^ 31 - 1) with 2147483647. lia. }
  split; [cbn; lia|]. split; [vm_compute; reflexivity|]. split; [reflexivity|]. cbv zeta.
  split; [|split; [vm_compute; reflexivity|]].
  - match goal with |- pool_ready ?ob _ _ _ => assert (Ei : po_tin ob = mkTensor 0 1 1 [1; 1; 1; 1] [1; 1; 1; 1] false (-1) 0) by (vm_compute; reflexivity);
      assert (Eo : po_tout ob = mkTensor 0 1 1 [1; 1; 1; 1] [1; 1; 1; 1] false (-1) 0) by (vm_compute; reflexivity) end.
    split; [rewrite Ei; apply ex_legal; [fits32_tac|reflexivity|reflexivity|reflexivity|reflexivity|cbn; lia]|]. split.
    + rewrite Eo. destruct (ex_legal (mkTensor 0 1 1 [1; 1; 1; 1] [1; 1; 1; 1] false (-1) 0) 1 0) as (K1 & K2 & K3 & _); [fits32_tac|reflexivity|reflexivity|reflexivity|reflexivity|cbn; lia|].
      split; [exact K1|]. split; [exact K2|]. split; [exact K3|]. intros a Ha Hc. cbn [t_esz t_cap t_data] in *. assert (a = 0) by lia. subst a. discriminate.
    + rewrite Ei. intros b r cl ch V. cbn [t_shape valid] in V. assert (Hb : b = 0 /\ r = 0 /\ cl = 0 /\ ch = 0) by lia. destruct Hb as (-> & -> & -> & ->). reflexivity.
  - intros F. match type of F with frame_ok ?t _ _ => assert (Eo : t = mkTensor 0 1 1 [1; 1; 1; 1] [1; 1; 1; 1] false (-1) 0) by (vm_compute; reflexivity) end. rewrite Eo in F. clear Eo.
    specialize (F (-1)). assert (N : Some 7 = Some 0 :> option Z).
    { apply F. intros x Hx. cbn [t_shape t_data t_stride] in *. destruct x as [|b [|r [|cl [|ch [|]]]]]; cbn [valid] in Hx; try tauto. cbn [addr]. lia. }
    discriminate.
Qed.
