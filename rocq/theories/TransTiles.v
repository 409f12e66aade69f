(** Tile-by-tile execution of the MLI 3.0 transposed convolution (property C72). *)
From Coq Require Import ZArith List Lia Bool.
From Verif Require Import Base FxMath FxMathProofs Tensor TensorProofs MovProofs Ops3 Quant QuantProofs DotProd DotProdProofs ArgMax Permute PermuteProofs
  Layout Pool PoolProofs PoolKernels Conv ConvSpec ConvProofs ConvValues ConvKernels ConvTheorems ConvInt TransConv TransConvProofs TransConvTheorems
  Iter IterProofs IterTheorems TileRun TileProofs TileConv TileTrans.
Import ListNotations.
Open Scope Z_scope.

(** * One axis *)

(** One axis: [H] inputs cut into tiles of [T], a kernel of [K] taps, stride [S], padding [P] before and [A] behind, [Do] outputs. The
    tiling is harmless when kernel and stride agree, or when there is only one tile: because it has the size of the axis, or because the
    library does not tile an axis whose last tile is smaller than the kernel. *)
Definition trans_fits (H T Do K S P A : Z) : Prop :=
  1 <= T <= H /\ 1 <= S <= K /\ 0 <= P < K /\ 0 <= A < K /\ Do = (H - 1) * S + K - P - A /\ 1 <= Do /\ P <= T * S
  /\ (K = S \/ T = H \/ (H - 1) mod T + 1 < K) /\ (H + 2 * T) * S + K + Do + H < 2 ^ 31.

(** The input axis as GetDeconvTensorIterators leaves it. *)
Definition deconv_axis (o H T K : Z) : idim :=
  let d := tile_dim o H T 0 in if it_last_size d <? K then count_dim (untile_dim d H) 1 else d.

(** Tile [k] starts at input [is] and output [os], with [il] inputs, [on] outputs and [p] padding in front: the same inputs meet the same
    taps in the tile as in the whole axis. *)
Definition trans_view (H K S P os on is il p : Z) : Prop :=
  forall y t, 0 <= y < on -> 0 <= t < K ->
    hits il S p y t = hits H S P (os + y) t /\ (os + y + P - t) / S = is + (y + p - t) / S.

Lemma view_shift H K S P os on is il p : 1 <= S -> os + P = is * S + p -> 0 <= is -> is + il <= H -> 1 <= il ->
  (is = 0 /\ il = H \/ K = S /\ on + p <= il * S /\ 0 <= p) -> trans_view H K S P os on is il p.
Proof.
  intros HS E H0 H1 H2 Hc y t Hy Ht.
  assert (E' : os + y + P - t = (y + p - t) + is * S) by lia.
  assert (Ed : (os + y + P - t) / S = is + (y + p - t) / S) by (rewrite E', Z.div_add by lia; lia).
  split; [|exact Ed]. unfold hits. rewrite Ed. rewrite E' at 1 2. rewrite Z.mod_add by lia.
  destruct (Z.eqb_spec ((y + p - t) mod S) 0) as [Em|]; [|reflexivity]. cbn [andb].
  set (z := y + p - t) in *. pose proof (Z.div_mod z S ltac:(lia)) as Ez. rewrite Em in Ez. set (g := z / S) in *. clearbody g.
  destruct Hc as [[-> ->] | (-> & Hon & Hp)].
  - rewrite !Z.mul_0_l, !Z.add_0_l, Z.add_0_r. reflexivity.
  - assert (Hg : 0 <= g < il).
    { assert (Hz : - S < z < il * S) by lia. clear - Hz Ez HS. assert (-1 < g) by (apply (Z.mul_lt_mono_pos_l S); lia).
      assert (g < il) by (apply (Z.mul_lt_mono_pos_l S); lia). lia. }
    assert (0 <= S * g) by (apply Z.mul_nonneg_nonneg; lia). assert (0 <= is * S) by (apply Z.mul_nonneg_nonneg; lia).
    replace (0 <=? z) with true by (symmetry; apply Z.leb_le; lia). replace (0 <=? z + is * S) with true by (symmetry; apply Z.leb_le; lia).
    replace (g <? il) with true by (symmetry; apply Z.ltb_lt; lia). replace (is + g <? H) with true by (symmetry; apply Z.ltb_lt; lia). reflexivity.
Qed.

(** The conclusions about one axis and one tile. *)
Definition axis_good (H T Do K S P A : Z) (inp out : idim) : Prop :=
  it_count out = it_count inp /\ 1 <= it_count inp /\ cuts Do (it_count out) (tile_start out) (tile_len out Do)
  /\ forall k, 0 <= k < it_count inp ->
     let os := tile_start out k in let on := tile_len out Do k in let is := tile_start inp k in let il := tile_len inp H k in
     let p := if k =? 0 then P else 0 in
     (1 <= on /\ 0 <= os /\ os + on <= Do) /\ (0 <= is /\ 1 <= il /\ is + il <= H)
     /\ (exists q, (q = A \/ q = 0) /\ on = (il - 1) * S + K - p - q) /\ trans_view H K S P os on is il p
     /\ (k <> 0 -> P <= uwrap 32 (it_inc out * k)).

Lemma axis_single H T Do K S P A inp : trans_fits H T Do K S P A -> it_count inp = 1 -> it_last_size inp = H ->
  axis_good H T Do K S P A inp (kernel_dim inp Do K S P).
Proof.
  intros (HT & HS & HP & HA & HDo & HD1 & HPT & _ & Hb) Hc Hl. assert (HDb : Do < 2 ^ 31) by (assert (0 <= (H + 2 * T) * S) by (apply Z.mul_nonneg_nonneg; lia); lia).
  assert (Ec : it_count (kernel_dim inp Do K S P) = 1) by exact Hc.
  assert (El : tile_len (kernel_dim inp Do K S P) Do 0 = Do).
  { unfold tile_len, tile_size. rewrite Ec. cbn [Z.eqb Z.sub Z.add Z.opp Z.pos_sub]. unfold kernel_dim. cbn [it_last_size]. rewrite Hc.
    change (1 <? 1) with false. cbn [negb]. rewrite Z.add_0_r. apply u32_id. lia. }
  assert (Ei : tile_len inp H 0 = H) by (unfold tile_len, tile_size; rewrite Hc; exact Hl).
  unfold axis_good. rewrite Ec, Hc. split; [reflexivity|]. split; [lia|]. split.
  - unfold cuts. split; [reflexivity|]. split; [intros; lia|]. split; [change (1 - 1) with 0; rewrite El; reflexivity|].
    intros k Hk. replace k with 0 by lia. rewrite El. lia.
  - intros k Hk. assert (k = 0) by lia. subst k. cbv zeta. rewrite El, Ei. change (tile_start inp 0) with 0.
    change (tile_start (kernel_dim inp Do K S P) 0) with 0. change (0 =? 0) with true. cbn iota.
    split; [lia|]. split; [lia|]. split; [exists A; split; [auto|lia]|]. split; [|lia].
    apply view_shift; lia.
Qed.

Lemma axis_equal o H T Do S P A : trans_fits H T Do S S P A -> axis_good H T Do S S P A (tile_dim o H T 0) (kernel_dim (tile_dim o H T 0) Do S S P).
Proof.
  intros (HT & HS & HP & HA & HDo & HD1 & HPT & _ & Hb).
  assert (MS : forall a b, a <= b -> a * S <= b * S) by (intros; apply Z.mul_le_mono_nonneg_r; lia).
  assert (MT : forall a b, a <= b -> a * T <= b * T) by (intros; apply Z.mul_le_mono_nonneg_r; lia).
  assert (Hb0 : (H + 2 * T) * 1 <= (H + 2 * T) * S) by (apply Z.mul_le_mono_nonneg_l; lia).
  assert (Hb1 : H + T + T < 2 ^ 31) by lia.
  destruct (tile_dim_val o H T 0 HT ltac:(lia) Hb1) as (E & Hn1 & Hn & Hnb). set (n := ceil_div (H + 0) T) in *.
  set (inp := tile_dim o H T 0) in *.
  destruct (tile_dim_cuts o H T 0 HT ltac:(lia) Hb1) as (_ & Hc & Hlen). fold inp in Hc, Hlen. specialize (Hlen ltac:(lia)).
  assert (Hcn : it_count inp = n) by (rewrite E; reflexivity).
  assert (Hst : forall j, tile_start inp j = j * T).
  { intros j. unfold tile_start. rewrite E. cbn [it_first_inc it_inc]. destruct (Z.eqb_spec j 0); [subst; reflexivity|ring]. }
  assert (HnS : (n - 1) * T * S <= (H - 1) * S) by (apply MS; lia).
  assert (Hn0 : 0 * S <= (n - 1) * T * S) by (apply MS; assert (0 * T <= (n - 1) * T) by (apply MT; lia); lia).
  assert (HT1 : 0 * S <= (T - 1) * S) by (apply MS; lia).
  pose proof (kernel_dim_val o H T 0 Do S S P HT ltac:(lia) Hb1 ltac:(lia) ltac:(lia) ltac:(lia) ltac:(lia) ltac:(lia) ltac:(lia)) as EI.
  cbv zeta in EI. fold inp n in EI. specialize (EI ltac:(rewrite Hst; lia)). set (out := kernel_dim inp Do S S P) in *.
  assert (Hco : it_count out = n) by (rewrite EI; reflexivity).
  assert (Est : forall k, tile_start out k = if k =? 0 then 0 else k * T * S - P).
  { intros k. unfold tile_start. rewrite EI. cbn [it_first_inc it_inc]. destruct (Z.eqb_spec k 0); [reflexivity|ring]. }
  assert (Hk1 : forall k, 0 <= k < n -> 0 * S <= k * T * S <= (n - 1) * T * S).
  { intros k Hk. assert (0 * T <= k * T <= (n - 1) * T) by (split; apply MT; lia). split; apply MS; lia. }
  assert (Hk2 : forall k, 0 < k -> 1 * T * S <= k * T * S) by (intros; apply MS; apply MT; lia).
  assert (Hk3 : forall k, k < n - 1 -> (k + 1) * T * S <= (n - 1) * T * S) by (intros; apply MS; apply MT; lia).
  assert (HTS : 1 * S <= T * S) by (apply MS; lia).
  assert (Elen : forall k, 0 <= k < n -> tile_len out Do k = if k =? n - 1 then Do - tile_start out k else T * S - (if k =? 0 then P else 0)).
  { intros k Hk. specialize (Hk1 k Hk). unfold tile_len, tile_size. rewrite Hco, (Est k). destruct (Z.eqb_spec k (n - 1)) as [Ek|Ek].
    - rewrite EI. cbn [it_last_size]. destruct (Z.eqb_spec k 0) as [E0|E0].
      + replace (1 <? n) with false by (symmetry; apply Z.ltb_ge; lia). lia.
      + replace (1 <? n) with true by (symmetry; apply Z.ltb_lt; lia). rewrite Ek. ring.
    - specialize (Hk3 k ltac:(lia)). rewrite EI. destruct (Z.eqb_spec k 0) as [E0|E0].
      + cbn [it_first_size]. subst k. rewrite Z.min_l; lia.
      + specialize (Hk2 k ltac:(lia)). cbn [it_size]. rewrite (u32_id (k * T * S - P)) by lia. rewrite u32_id by lia. rewrite Z.min_r; lia. }
  assert (Elin : forall k, 0 <= k < n -> tile_len inp H k = if k =? n - 1 then H - k * T else T).
  { intros k Hk. destruct Hc as (_ & Hc2 & Hc3 & _). rewrite Hcn in Hc2, Hc3. destruct (Z.eqb_spec k (n - 1)) as [Ek|Ek].
    - rewrite Hst in Hc3. rewrite Ek. lia.
    - specialize (Hc2 k ltac:(lia) ltac:(lia)). rewrite !Hst in Hc2. lia. }
  assert (Hlast : 1 <= (H - (n - 1) * T)) by lia.
  assert (Hls : 1 * S <= (H - (n - 1) * T) * S) by (apply MS; exact Hlast).
  unfold axis_good. rewrite Hco, Hcn. split; [reflexivity|]. split; [exact Hn1|]. split.
  { unfold cuts. split; [reflexivity|]. split; [|split].
    - intros k Hk Hk'. rewrite (Elen k) by lia. rewrite !Est. replace (k + 1 =? 0) with false by (symmetry; apply Z.eqb_neq; lia).
      replace (k =? n - 1) with false by (symmetry; apply Z.eqb_neq; lia). destruct (Z.eqb_spec k 0) as [->|]; ring.
    - rewrite Elen by lia. rewrite Z.eqb_refl. lia.
    - intros k Hk. rewrite Elen by lia. rewrite Est. specialize (Hk1 k Hk). destruct (k =? n - 1); destruct (Z.eqb_spec k 0); lia. }
  intros k Hk. cbv zeta. rewrite Elen, Elin by exact Hk. rewrite Hst, Est. pose proof (Hk1 k Hk) as B1.
  assert (B2 : k <> 0 -> 1 * T * S <= k * T * S) by (intros; apply Hk2; lia).
  assert (B3 : 0 * T <= k * T <= (n - 1) * T) by (split; apply MT; lia).
  assert (B4 : k <> n - 1 -> (k + 1) * T * S <= (n - 1) * T * S /\ (k + 1) * T <= (n - 1) * T) by (intros; split; [apply Hk3; lia|apply MT; lia]).
  assert (Ek : k = n - 1 -> k * T * S = (n - 1) * T * S) by (intros ->; reflexivity).
  assert (Ek' : k = n - 1 -> k * T = (n - 1) * T) by (intros ->; reflexivity).
  assert (Z0 : k = 0 -> k * T = 0) by (intros ->; reflexivity). assert (Z1 : k = 0 -> k * T * S = 0) by (intros ->; reflexivity).
  assert (X1 : (k + 1) * T * S = k * T * S + T * S) by ring. assert (X0 : (k + 1) * T = k * T + T) by ring.
  assert (X2 : (H - k * T) * S = H * S - k * T * S) by ring. assert (X3 : (H - (n - 1) * T) * S = H * S - (n - 1) * T * S) by ring.
  assert (X4 : (H - 1) * S = H * S - S) by ring.
  assert (X5 : (T - 1) * S = T * S - S) by ring. assert (X6 : (H - k * T - 1) * S = H * S - k * T * S - S) by ring.
  rewrite X1, X0 in B4. clear Hk1 Hk2 Hk3 Elen Elin Est Hst Hc Hlen E Hco Hcn.
  assert (EI' : it_inc out = T * S) by (rewrite EI; reflexivity). clear EI. clearbody out inp. clear MS MT.
  set (kTS := k * T * S) in *. set (kT := k * T) in *. set (nTS := (n - 1) * T * S) in *. set (nT := (n - 1) * T) in *. set (TS := T * S) in *. set (HS' := H * S) in *.
  assert (EkTS : kT * S = kTS) by reflexivity. assert (EkT : TS * k = kTS) by (unfold TS, kTS, kT; ring). 
  assert (C : (k =? n - 1) = true /\ k = n - 1 /\ kT = nT /\ kTS = nTS \/ (k =? n - 1) = false /\ k <> n - 1 /\ kTS + TS <= nTS /\ kT + T <= nT).
  { destruct (Z.eqb_spec k (n - 1)) as [e|e]; [left|right]; (split; [reflexivity|]); (split; [exact e|]); [split; [exact (Ek' e)|exact (Ek e)]|exact (B4 e)]. }
  assert (C0 : (k =? 0) = true /\ k = 0 /\ kT = 0 /\ kTS = 0 \/ (k =? 0) = false /\ k <> 0 /\ TS <= kTS).
  { destruct (Z.eqb_spec k 0) as [e|e]; [left|right]; (split; [reflexivity|]); (split; [exact e|]); [split; [exact (Z0 e)|exact (Z1 e)]|]. specialize (B2 e). rewrite Z.mul_1_l in B2. exact B2. }
  clear Ek Ek' B4 B2 Z0 Z1.
  rewrite X4 in *. rewrite X3 in Hls. rewrite X5 in *. rewrite !Z.mul_0_l in *. rewrite !Z.mul_1_l in *.
  clearbody kTS kT nTS nT TS HS'. clear X0 X1 X3 X4 Hb0 Hb1 Hnb.
  destruct C as [(-> & C1 & C2 & C3) | (-> & C1 & C2 & C3)]; destruct C0 as [(-> & D1 & D2 & D3) | (-> & D1 & D2)];
  (split; [clear X2 X5 X6 EkTS EkT; lia|]); (split; [clear X2 X5 X6 EkTS EkT; lia|]).
  - split; [exists A; split; [auto|rewrite X6; lia]|]. split; [|lia]. apply view_shift; rewrite ?X2, ?EkTS; lia.
  - split; [exists A; split; [auto|rewrite X6; lia]|]. split; [|intros _; rewrite EI', EkT; rewrite u32_id; lia]. apply view_shift; rewrite ?X2, ?EkTS; lia.
  - split; [exists 0; split; [auto|lia]|]. split; [|lia]. apply view_shift; rewrite ?EkTS; lia.
  - split; [exists 0; split; [auto|lia]|]. split; [|intros _; rewrite EI', EkT; rewrite u32_id; lia]. apply view_shift; rewrite ?EkTS; lia.
Qed.

Lemma axis_deconv o H T Do K S P A : trans_fits H T Do K S P A ->
  axis_good H T Do K S P A (deconv_axis o H T K) (kernel_dim (deconv_axis o H T K) Do K S P).
Proof.
  intros Hf. pose proof Hf as (HT & HS & HP & HA & HDo & HD1 & HPT & Hcase & Hb).
  assert (Hb0 : (H + 2 * T) * 1 <= (H + 2 * T) * S) by (apply Z.mul_le_mono_nonneg_l; lia).
  destruct (tile_dim_val o H T 0 HT ltac:(lia) ltac:(lia)) as (E & Hn1 & Hn & Hnb).
  unfold deconv_axis. cbv zeta. destruct (Z.ltb_spec (it_last_size (tile_dim o H T 0)) K) as [L|L].
  - apply axis_single; [exact Hf|reflexivity|reflexivity].
  - rewrite E in L. cbn [it_last_size] in L. rewrite Z.add_0_r in L. destruct Hcase as [-> | [-> | C]]; [| |lia].
    + apply axis_equal. exact Hf.
    + assert (N : ceil_div (H + 0) H = 1). { rewrite Z.add_0_r in *. clear - Hn HT. assert (ceil_div H H - 1 < 1) by nia. assert (0 < ceil_div H H) by nia. lia. }
      apply axis_single; [exact Hf|rewrite E; exact N|]. rewrite E. cbn [it_last_size]. rewrite Z.add_0_r, Z.mod_small by lia. lia.
Qed.

(** * The problem *)

(** The whole transposed convolution at output (H, W, oc): [X r c ch] is the input, [Kf kr kc ic oc] the weights; a tap that meets no input
    sees the zero point [zi]. *)
Definition trans_whole (d : conv_dims) (c : conv_cfg) (zi : Z) (X : Z -> Z -> Z -> Z) (Kf : Z -> Z -> Z -> Z -> Z) (H W oc : Z) : Z :=
  zsum 0 (d_kh d) (fun kr => zsum 0 (d_kw d) (fun kc =>
    if hits (d_hi d) (cv_sh c) (cv_top c) H kr && hits (d_wi d) (cv_sw c) (cv_left c) W kc
    then zsum 0 (d_ci d) (fun ic => X ((H + cv_top c - kr) / cv_sh c) ((W + cv_left c - kc) / cv_sw c) ic * Kf kr kc ic oc)
    else zsum 0 (d_ci d) (fun ic => zi * Kf kr kc ic oc))).

(** Conditions on the sizes; [d_th], [d_tw] are the sizes of the input tiles, [d_tc] the number of output channels of a tile: those of the
    MLI 2.0 checker for the whole operation ([trans_axis]); tiles inside the tensors; the leading padding inside the first tile (asserted by
    the library); along each axis the kernel does not reach beyond the stride, or there is one tile; no 32-bit overflow. *)
Definition trans_dims_ok (d : conv_dims) (c : conv_cfg) : Prop :=
  trans_axis (d_hi d) (d_ho d) (d_kh d) (cv_sh c) (cv_top c) (cv_bottom c)
  /\ trans_axis (d_wi d) (d_wo d) (d_kw d) (cv_sw c) (cv_left c) (cv_right c)
  /\ (1 <= d_th d <= d_hi d /\ 1 <= d_tw d <= d_wi d /\ 1 <= d_tc d <= d_co d)
  /\ (cv_top c <= d_th d * cv_sh c /\ cv_left c <= d_tw d * cv_sw c)
  /\ (d_kh d = cv_sh c \/ d_th d = d_hi d \/ (d_hi d - 1) mod d_th d + 1 < d_kh d)
  /\ (d_kw d = cv_sw c \/ d_tw d = d_wi d \/ (d_wi d - 1) mod d_tw d + 1 < d_kw d)
  /\ Forall (fun x => 1 <= x <= 2 ^ 20) [d_hi d; d_wi d; d_ci d; d_kh d; d_kw d; d_ho d; d_wo d; d_co d]
  /\ Forall (fun x => in_ubits 8 x) [cv_sh c; cv_sw c; cv_top c; cv_left c; cv_bottom c; cv_right c]
  /\ cv_dh c = 1 /\ cv_dw c = 1
  /\ d_ci d * d_kh d * d_kw d * (3 * 2 ^ 14) <= smax 32.

(** The iterators of the three tensors with memory strides [si], [sw], [so], from GetDeconvTensorIterators as called in
    user_tests/tests/mli_krn_transpose_conv2d_30 (lines 466-541). *)
Definition trans_iters (d : conv_dims) (c : conv_cfg) (si sw so : list Z) : option (titer * titer * titer) :=
  let oshape := [1; d_ho d; d_wo d; 1; d_co d] in
  let ishape := [1; d_hi d; d_wi d; 1; d_ci d] in
  let wshape := [1; d_kh d; d_kw d; d_ci d; d_co d] in
  match deconv_cfgs ishape [1; d_th d; d_tw d; 1; d_ci d] oshape (d_tc d) wshape [1; d_kh d; d_kw d; 1; d_co d] [1; cv_sh c; cv_sw c; 1; 1] [0; cv_top c; cv_left c; 0; 0] with
  | Some (inp, wts, out) => Some (ti_new inp ishape si, ti_new wts wshape sw, ti_new out oshape so)
  | None => None
  end.

(** * The axes *)

Definition t_ih (d : conv_dims) : idim := deconv_axis 1 (d_hi d) (d_th d) (d_kh d).
Definition t_iw (d : conv_dims) : idim := deconv_axis 2 (d_wi d) (d_tw d) (d_kw d).
Definition t_oh (d : conv_dims) (c : conv_cfg) : idim := kernel_dim (t_ih d) (d_ho d) (d_kh d) (cv_sh c) (cv_top c).
Definition t_ow (d : conv_dims) (c : conv_cfg) : idim := kernel_dim (t_iw d) (d_wo d) (d_kw d) (cv_sw c) (cv_left c).
Definition t_one (a : Z) : idim := kernel_dim (tile_dim a 1 1 0) 1 1 1 0.
Definition t_oc (d : conv_dims) : idim := tile_dim 4 (d_co d) (d_tc d) 0.
Definition t_out (d : conv_dims) (c : conv_cfg) : list idim := [t_one 0; t_oh d c; t_ow d c; t_one 3; t_oc d].
Definition t_inp (d : conv_dims) : list idim :=
  [tile_dim 0 1 1 0; t_ih d; t_iw d; tile_dim 3 1 1 0; mkIdim 4 (it_count (t_oc d)) 0 0 0 (d_ci d) (d_ci d) (d_ci d)].
Definition t_wts (d : conv_dims) (c : conv_cfg) : list idim :=
  let whole a o D := mkIdim a (it_count o) 0 0 0 D D D in
  [whole 0 (t_one 0) 1; whole 1 (t_oh d c) (d_kh d); whole 2 (t_ow d c) (d_kw d); whole 3 (t_one 3) (d_ci d); t_oc d].

Lemma tfits_h d c : trans_dims_ok d c -> trans_fits (d_hi d) (d_th d) (d_ho d) (d_kh d) (cv_sh c) (cv_top c) (cv_bottom c).
Proof.
  intros ((A1 & A2 & A3 & A4 & A5 & A6 & A7) & _ & (T1 & _) & (P1 & _) & C1 & _ & F & U & _).
  fall. unfold in_ubits in *. change (2 ^ 8) with 256 in *. change (2 ^ 20) with 1048576 in *.
  assert (M2 : (d_hi d + 2 * d_th d) * cv_sh c <= 3145728 * 255) by (apply Z.mul_le_mono_nonneg; lia).
  unfold trans_fits. change (2 ^ 31) with 2147483648. repeat (split; [assumption || lia|]). lia.
Qed.

Lemma tfits_w d c : trans_dims_ok d c -> trans_fits (d_wi d) (d_tw d) (d_wo d) (d_kw d) (cv_sw c) (cv_left c) (cv_right c).
Proof.
  intros (_ & (A1 & A2 & A3 & A4 & A5 & A6 & A7) & (_ & T1 & _) & (_ & P1) & _ & C1 & F & U & _).
  fall. unfold in_ubits in *. change (2 ^ 8) with 256 in *. change (2 ^ 20) with 1048576 in *.
  assert (M2 : (d_wi d + 2 * d_tw d) * cv_sw c <= 3145728 * 255) by (apply Z.mul_le_mono_nonneg; lia).
  unfold trans_fits. change (2 ^ 31) with 2147483648. repeat (split; [assumption || lia|]). lia.
Qed.

(** The channels of the output are tiled as by the tiling constructor. *)
Lemma override_val d c n : trans_dims_ok d c -> n = ceil_div (d_co d) (d_tc d) ->
  override_dim (kernel_dim (count_dim (tile_dim 4 (d_ci d) (d_ci d) 0) n) (d_co d) (d_co d) 1 0) (d_tc d) (d_co d) = t_oc d.
Proof.
  intros Hok ->. destruct Hok as (_ & _ & (_ & _ & T) & _ & _ & _ & F & _). fall. change (2 ^ 20) with 1048576 in *.
  destruct (tile_dim_val 4 (d_co d) (d_tc d) 0 T ltac:(lia) ltac:(change (2 ^ 31) with 2147483648; lia)) as (E & Hn1 & Hn & Hnb).
  unfold t_oc. rewrite E. rewrite Z.add_0_r in *. set (n := ceil_div (d_co d) (d_tc d)) in *. change (2 ^ 31) with 2147483648 in *.
  unfold override_dim, kernel_dim, count_dim. cbn [it_order it_count]. cbn [tile_dim it_order].
  assert (Hl : (d_co d - 1) mod d_tc d + 1 = d_co d - (n - 1) * d_tc d).
  { enough ((d_co d - 1) mod d_tc d = d_co d - 1 - (n - 1) * d_tc d) by lia. symmetry. apply Z.mod_unique_pos with (q := n - 1); lia. }
  rewrite Hl, Z.sub_0_r, Z.add_0_r. rewrite !(u32_id (d_tc d)) by (change (2 ^ 32) with 4294967296; lia).
  assert (L : (if 1 <? n then wrap 32 (d_tc d * (2 - n) - d_tc d) else 0) = d_tc d * (1 - n)).
  { destruct (1 <? n) eqn:N; [apply Z.ltb_lt in N|apply Z.ltb_ge in N; replace n with 1 by lia; ring].
    replace (d_tc d * (2 - n) - d_tc d) with (d_tc d * (1 - n)) by ring. apply w32_id. change (2 ^ 31) with 2147483648. lia. }
  rewrite L. replace (d_co d + d_tc d * (1 - n)) with (d_co d - (n - 1) * d_tc d) by ring.
  rewrite u32_id by (change (2 ^ 32) with 4294967296; lia). reflexivity.
Qed.

Lemma deconv_inp d : no_small_tile 2 [1; d_hi d; d_wi d; 1; d_ci d] [1; d_kh d; d_kw d; d_ci d; d_co d]
    (no_small_tile 1 [1; d_hi d; d_wi d; 1; d_ci d] [1; d_kh d; d_kw d; d_ci d; d_co d]
      (at_dim 4 (fun e => count_dim e (ceil_div (d_co d) (d_tc d))) (tile_cfg [1; d_hi d; d_wi d; 1; d_ci d] [1; d_th d; d_tw d; 1; d_ci d] [0; 1; 2; 3; 4]%nat 0)))
  = [tile_dim 0 1 1 0; t_ih d; t_iw d; tile_dim 3 1 1 0; count_dim (tile_dim 4 (d_ci d) (d_ci d) 0) (ceil_div (d_co d) (d_tc d))].
Proof.
  set (n := ceil_div (d_co d) (d_tc d)).
  change (at_dim 4 _ _) with [tile_dim 0 1 1 0; tile_dim 1 (d_hi d) (d_th d) 0; tile_dim 2 (d_wi d) (d_tw d) 0; tile_dim 3 1 1 0; count_dim (tile_dim 4 (d_ci d) (d_ci d) 0) n].
  unfold no_small_tile at 2. cbn [nth]. unfold t_ih, t_iw, deconv_axis. cbv zeta.
  destruct (it_last_size (tile_dim 1 (d_hi d) (d_th d) 0) <? d_kh d); unfold no_small_tile, at_dim; cbn [nth set_at];
    destruct (it_last_size (tile_dim 2 (d_wi d) (d_tw d) 0) <? d_kw d); reflexivity.
Qed.

(** The iterators exist: the assertion of the constructor holds. *)
Lemma trans_iters_val d c si sw so : trans_dims_ok d c -> trans_iters d c si sw so =
  Some (ti_new (t_inp d) [1; d_hi d; d_wi d; 1; d_ci d] si, ti_new (t_wts d c) [1; d_kh d; d_kw d; d_ci d; d_co d] sw, ti_new (t_out d c) [1; d_ho d; d_wo d; 1; d_co d] so).
Proof.
  intros Hok. unfold trans_iters, deconv_cfgs. cbn [nth]. rewrite deconv_inp. unfold kernel_cfg.
  destruct (tfits_h d c Hok) as (H1 & H2 & H3 & _ & _ & H6 & H4 & _ & H5). destruct (tfits_w d c Hok) as (W1 & W2 & W3 & _ & _ & W6 & W4 & _ & W5).
  match goal with |- context [forallb ?f ?l] => assert (E : forallb f l = true) end.
  { assert (M1 : d_th d * 1 <= d_th d * cv_sh c <= (d_hi d + 2 * d_th d) * cv_sh c) by (split; [apply Z.mul_le_mono_nonneg_l|apply Z.mul_le_mono_nonneg_r]; lia).
    assert (M2 : d_tw d * 1 <= d_tw d * cv_sw c <= (d_wi d + 2 * d_tw d) * cv_sw c) by (split; [apply Z.mul_le_mono_nonneg_l|apply Z.mul_le_mono_nonneg_r]; lia).
    assert (N1 : it_first_inc (t_ih d) = wrap 32 (d_th d - 0) /\ it_order (t_ih d) = 1) by (unfold t_ih, deconv_axis; cbv zeta; destruct (_ <? _); split; reflexivity).
    assert (N2 : it_first_inc (t_iw d) = wrap 32 (d_tw d - 0) /\ it_order (t_iw d) = 2) by (unfold t_iw, deconv_axis; cbv zeta; destruct (_ <? _); split; reflexivity).
    cbn [forallb]. rewrite (proj1 N1), (proj2 N1), (proj1 N2), (proj2 N2). rewrite !andb_true_iff. repeat split; apply Z.leb_le.
    - change (cv_top c <= uwrap 32 (wrap 32 (d_th d - 0) * cv_sh c)). rewrite w32_id by lia. rewrite u32_id; lia.
    - change (cv_left c <= uwrap 32 (wrap 32 (d_tw d - 0) * cv_sw c)). rewrite w32_id by lia. rewrite u32_id; lia.
    - match goal with |- nth (Z.to_nat ?a) _ _ <= _ => change a with 4 end. cbn [Z.to_nat Pos.to_nat Pos.iter_op Nat.add nth]. apply Z.mod_pos_bound. reflexivity. }
  rewrite E. clear E.
  assert (O1 : it_order (t_ih d) = 1) by (unfold t_ih, deconv_axis; cbv zeta; destruct (_ <? _); reflexivity).
  assert (O2 : it_order (t_iw d) = 2) by (unfold t_iw, deconv_axis; cbv zeta; destruct (_ <? _); reflexivity).
  cbn [map]. rewrite O1, O2. set (n := ceil_div (d_co d) (d_tc d)).
  match goal with |- context [at_dim 4 ?f ?l] => match f with fun e => override_dim e _ _ =>
    change (at_dim 4 f l) with [t_one 0; t_oh d c; t_ow d c; t_one 3; override_dim (kernel_dim (count_dim (tile_dim 4 (d_ci d) (d_ci d) 0) n) (d_co d) (d_co d) 1 0) (d_tc d) (d_co d)] end end.
  rewrite (override_val d c n Hok eq_refl).
  assert (Ein : at_dim 4 still_dim [tile_dim 0 1 1 0; t_ih d; t_iw d; tile_dim 3 1 1 0; count_dim (tile_dim 4 (d_ci d) (d_ci d) 0) n] = t_inp d).
  { unfold at_dim. cbn [set_at nth]. unfold t_inp. do 4 f_equal. f_equal. unfold still_dim, count_dim.
    destruct Hok as (_ & _ & (_ & _ & T) & _ & _ & _ & F & _). fall. change (2 ^ 20) with 1048576 in *.
    destruct (tile_dim_val 4 (d_ci d) (d_ci d) 0 ltac:(lia) ltac:(lia) ltac:(change (2 ^ 31) with 2147483648; lia)) as (Ec & _).
    destruct (tile_dim_val 4 (d_co d) (d_tc d) 0 T ltac:(lia) ltac:(change (2 ^ 31) with 2147483648; lia)) as (E & _).
    unfold t_oc. rewrite E, Ec. cbn [it_order it_count it_first_size it_size it_last_size]. rewrite !Z.add_0_r, Z.sub_0_r, Z.mod_small by lia.
    replace (d_ci d - 1 + 1) with (d_ci d) by ring. reflexivity. }
  rewrite Ein. reflexivity.
Qed.

Lemma trans_updates_val n i w o c bi bw bo :
  trans_updates n (trans_create i w o c bi bw bo) = trans_create (ti_run i n) (ti_run w n) (ti_run o n) c bi bw bo.
Proof. induction n as [|n IH]; cbn [trans_updates ti_run]; [reflexivity|]. rewrite IH. reflexivity. Qed.

Lemma t_counts d c : trans_dims_ok d c -> counts_ok (t_out d c) /\ map it_count (t_inp d) = map it_count (t_out d c) /\ map it_count (t_wts d c) = map it_count (t_out d c).
Proof.
  intros Hok. split; [|split; reflexivity]. unfold counts_ok, t_out.
  destruct (axis_deconv 1 _ _ _ _ _ _ _ (tfits_h d c Hok)) as (E1 & N1 & _). destruct (axis_deconv 2 _ _ _ _ _ _ _ (tfits_w d c Hok)) as (E2 & N2 & _).
  apply Forall_cons; [reflexivity || (cbn; lia)|]. apply Forall_cons; [unfold t_oh, t_ih; lia|]. apply Forall_cons; [unfold t_ow, t_iw; lia|].
  apply Forall_cons; [cbn; lia|]. apply Forall_cons; [|constructor].
  destruct Hok as (_ & _ & (T1 & T2 & T3) & _ & _ & _ & F & _). fall. change (2 ^ 20) with 1048576 in *. apply tile_dim_cuts; lia.
Qed.

(** * One tile *)

Lemma sub5 a0 a1 a2 a3 a4 D0 D1 D2 D3 D4 k0 k1 k2 k3 k4 :
  it_order a0 = 0 -> it_order a1 = 1 -> it_order a2 = 2 -> it_order a3 = 3 -> it_order a4 = 4 ->
  sub_tensor [a0; a1; a2; a3; a4] [D0; D1; D2; D3; D4] (at_tile [a0; a1; a2; a3; a4] [k0; k1; k2; k3; k4])
  = ([uwrap 32 (tile_start a0 k0); uwrap 32 (tile_start a1 k1); uwrap 32 (tile_start a2 k2); uwrap 32 (tile_start a3 k3); uwrap 32 (tile_start a4 k4)],
     [tile_len a0 D0 k0; tile_len a1 D1 k1; tile_len a2 D2 k2; tile_len a3 D3 k3; tile_len a4 D4 k4]).
Proof.
  destruct a0 as [o0 n0 f0 i0 l0 x0 y0 z0]. destruct a1 as [o1 n1 f1 i1 l1 x1 y1 z1]. destruct a2 as [o2 n2 f2 i2 l2 x2 y2 z2].
  destruct a3 as [o3 n3 f3 i3 l3 x3 y3 z3]. destruct a4 as [o4 n4 f4 i4 l4 x4 y4 z4]. cbn [it_order]. intros -> -> -> -> ->. reflexivity.
Qed.

Lemma t_orders d c : it_order (t_ih d) = 1 /\ it_order (t_iw d) = 2 /\ it_order (t_oh d c) = 1 /\ it_order (t_ow d c) = 2.
Proof.
  assert (O1 : it_order (t_ih d) = 1) by (unfold t_ih, deconv_axis; cbv zeta; destruct (_ <? _); reflexivity).
  assert (O2 : it_order (t_iw d) = 2) by (unfold t_iw, deconv_axis; cbv zeta; destruct (_ <? _); reflexivity).
  split; [exact O1|]. split; [exact O2|]. split; [exact O1|exact O2].
Qed.

(** What the n-th tile is: shapes, offsets and paddings by axis. *)
Lemma trans_tile_shape d c si sw so i w o bi bw bo n :
  trans_dims_ok d c -> trans_iters d c si sw so = Some (i, w, o) ->
  let ob := trans_updates n (trans_create i w o c bi bw bo) in
  exists h v k, idx_at (t_out d c) n = [0; h; v; 0; k]
    /\ 0 <= h < it_count (t_ih d) /\ 0 <= v < it_count (t_iw d) /\ 0 <= k < it_count (t_oc d)
    /\ t_shape (hwc5 (co_tin ob)) = [tile_len (t_ih d) (d_hi d) h; tile_len (t_iw d) (d_wi d) v; d_ci d]
    /\ t_shape (hwcn5 (co_tw ob)) = [d_kh d; d_kw d; d_ci d; tile_len (t_oc d) (d_co d) k]
    /\ t_shape (hwc5 (co_tout ob)) = [tile_len (t_oh d c) (d_ho d) h; tile_len (t_ow d c) (d_wo d) v; tile_len (t_oc d) (d_co d) k]
    /\ (let '(pi, pw, po) := conv_offsets ob in
        off_hwc pi = (tile_start (t_ih d) h, tile_start (t_iw d) v, 0) /\ off_hwcn pw = (0, 0, 0, tile_start (t_oc d) k)
        /\ off_hwc po = (tile_start (t_oh d c) h, tile_start (t_ow d c) v, tile_start (t_oc d) k))
    /\ exists b r, co_tile_cfg ob = with_pad c (if h =? 0 then cv_top c else 0) (if v =? 0 then cv_left c else 0) b r.
Proof.
  intros Hok Hit ob. rewrite (trans_iters_val d c si sw so Hok) in Hit. injection Hit as <- <- <-.
  unfold ob. rewrite trans_updates_val.
  destruct (t_counts d c Hok) as (Co & Ei & Ew).
  rewrite !ti_run_at by first [exact Co|apply (counts_map _ _ Ei Co)|apply (counts_map _ _ Ew Co)].
  rewrite (idx_at_counts _ _ n Ei), (idx_at_counts _ _ n Ew). pose proof (idx_at_ok (t_out d c) n Co) as Hidx.
  destruct (idx_at (t_out d c) n) as [|b [|h [|v [|g [|k [|]]]]]]; cbn [t_out idx_ok] in Hidx; try tauto.
  destruct Hidx as (Hb & Hh & Hv & Hg & Hk & _). change (it_count (t_one 0)) with 1 in Hb. change (it_count (t_one 3)) with 1 in Hg.
  assert (b = 0) by lia. assert (g = 0) by lia. subst b g. exists h, v, k. split; [reflexivity|].
  change (it_count (t_oh d c)) with (it_count (t_ih d)) in Hh. change (it_count (t_ow d c)) with (it_count (t_iw d)) in Hv.
  assert (R : (1 <= d_ci d < 2 ^ 31) /\ (1 <= d_kh d < 2 ^ 31) /\ (1 <= d_kw d < 2 ^ 31)).
  { destruct Hok as (_ & _ & _ & _ & _ & _ & F & _). clear - F. fall. change (2 ^ 20) with 1048576 in *. change (2 ^ 31) with 2147483648. lia. }
  destruct R as (R1 & R2 & R3).
  split; [exact Hh|]. split; [exact Hv|]. split; [exact Hk|].
  split; [|split; [|split; [|split]]].
  - transitivity [tile_len (t_ih d) (d_hi d) h; tile_len (t_iw d) (d_wi d) v; tile_len (mkIdim 4 (it_count (t_oc d)) 0 0 0 (d_ci d) (d_ci d) (d_ci d)) (d_ci d) k].
    + unfold trans_create, tile_of, hwc5, pick, ti_size, t_inp. cbn [co_tin t_shape ti_cfg ti_shape ti_st].
      rewrite sub5 by (reflexivity || apply (t_orders d c)). reflexivity.
    + rewrite (proj2 (whole_axis 4 _ _ k R1)). reflexivity.
  - transitivity [tile_len (mkIdim 1 (it_count (t_oh d c)) 0 0 0 (d_kh d) (d_kh d) (d_kh d)) (d_kh d) h; tile_len (mkIdim 2 (it_count (t_ow d c)) 0 0 0 (d_kw d) (d_kw d) (d_kw d)) (d_kw d) v;
      tile_len (mkIdim 3 1 0 0 0 (d_ci d) (d_ci d) (d_ci d)) (d_ci d) 0; tile_len (t_oc d) (d_co d) k]; [reflexivity|].
    rewrite !(fun o n D k HD => proj2 (whole_axis o n D k HD)) by assumption. reflexivity.
  - unfold trans_create, tile_of, hwc5, pick, ti_size, t_out. cbn [co_tout t_shape ti_cfg ti_shape ti_st].
    rewrite sub5 by (reflexivity || apply (t_orders d c)). reflexivity.
  - split; [|split].
    + transitivity (tile_start (t_ih d) h, tile_start (t_iw d) v, tile_start (mkIdim 4 (it_count (t_oc d)) 0 0 0 (d_ci d) (d_ci d) (d_ci d)) k); [reflexivity|].
      rewrite (proj1 (whole_axis 4 _ _ k R1)). reflexivity.
    + transitivity (tile_start (mkIdim 1 (it_count (t_oh d c)) 0 0 0 (d_kh d) (d_kh d) (d_kh d)) h, tile_start (mkIdim 2 (it_count (t_ow d c)) 0 0 0 (d_kw d) (d_kw d) (d_kw d)) v,
        tile_start (mkIdim 3 1 0 0 0 (d_ci d) (d_ci d) (d_ci d)) 0, tile_start (t_oc d) k); [reflexivity|].
      rewrite !(fun o n D k HD => proj1 (whole_axis o n D k HD)) by assumption. reflexivity.
    + reflexivity.
  - destruct (axis_deconv 1 _ _ _ _ _ _ _ (tfits_h d c Hok)) as (_ & _ & _ & GH). destruct (axis_deconv 2 _ _ _ _ _ _ _ (tfits_w d c Hok)) as (_ & _ & _ & GW).
    destruct (GH h Hh) as (_ & _ & _ & _ & PH). destruct (GW v Hv) as (_ & _ & _ & _ & PW). fold (t_ih d) in PH. fold (t_oh d c) in PH. fold (t_iw d) in PW. fold (t_ow d c) in PW.
    unfold trans_create. cbn [co_tile_cfg]. unfold trans_tile_cfg, ti_first. cbn [ti_cfg ti_st at_tile nth snd t_out].
    do 2 eexists. f_equal.
    + destruct (Z.eqb_spec h 0) as [e|e]; [reflexivity|]. specialize (PH e). replace (_ <? cv_top c) with false by (symmetry; apply Z.ltb_ge; exact PH). reflexivity.
    + destruct (Z.eqb_spec v 0) as [e|e]; [reflexivity|]. specialize (PW e). replace (_ <? cv_left c) with false by (symmetry; apply Z.ltb_ge; exact PW). reflexivity.
Qed.

Lemma chk_trans_intro tin tw tb tout c :
  chk_tensor tin = ST_OK -> chk_tensor tw = ST_OK -> chk_tensor tb = ST_OK -> chk_tensor tout = ST_OK ->
  t_rank tin = 3 -> t_rank tw = 4 -> t_rank tb = 1 -> t_rank tout = 3 ->
  inner_stride_is_one tin = true -> inner_stride_is_one tw = true -> inner_stride_is_one tb = true -> inner_stride_is_one tout = true ->
  dim tin 2 = dim tw 2 -> dim tout 2 = dim tw 3 -> dim tb 0 = dim tw 3 -> conv_fits tin tw tout c ->
  cv_dh c = 1 -> cv_dw c = 1 ->
  trans_axis (dim tin 0) (dim tout 0) (dim tw 0) (cv_sh c) (cv_top c) (cv_bottom c) ->
  trans_axis (dim tin 1) (dim tout 1) (dim tw 1) (cv_sw c) (cv_left c) (cv_right c) ->
  chk_transpose tin tw tb tout c = ST_OK.
Proof.
  intros C1 C2 C3 C4 R1 R2 R3 R4 I1 I2 I3 I4 D1 D2 D3 F L1 L2 (A1 & A2 & A3 & A4 & A5 & A6 & A7) (B1 & B2 & B3 & B4 & B5 & B6 & B7).
  unfold chk_transpose. rewrite C1, C2, C3, C4, R1, R2, R3, R4, I1, I2, I3, I4.
  change (nth 2 (t_shape tin) 0) with (dim tin 2). change (nth 2 (t_shape tw) 0) with (dim tw 2). change (nth 2 (t_shape tout) 0) with (dim tout 2).
  change (nth 3 (t_shape tw) 0) with (dim tw 3). change (nth 0 (t_shape tb) 0) with (dim tb 0). rewrite D1, D2, D3, !Z.eqb_refl. cbn [andb negb Z.eqb].
  destruct F as (U1 & U2 & U3 & U4 & U5 & U6 & U7 & U8 & U9).
  destruct (U9 tin ltac:(auto)) as [E1 E2]. destruct (U9 tw ltac:(auto)) as [E3 E4]. destruct (U9 tout ltac:(auto)) as [E5 E6]. clear U9.
  unfold in_ubits in *. change (2 ^ 8) with 256 in *. change (2 ^ 22) with 4194304 in *.
  replace (chk_trans_cfg tin tw tout c) with true; [reflexivity|]. symmetry. unfold chk_trans_cfg.
  fold (dim tin 0) (dim tin 1) (dim tw 0) (dim tw 1) (dim tout 0) (dim tout 1). cbv zeta.
  rewrite L1, L2. rewrite !u32_id by (change (2 ^ 32) with 4294967296; lia).
  rewrite !andb_true_iff, !Z.gtb_lt, !Z.ltb_lt, !Z.leb_le, !Z.eqb_eq. lia.
Qed.

(** One tile, given the numbers of the two spatial axes and of the output channels. *)
Lemma trans_tile_core d c rm full zi mi mw m X Kf tin tw tout bt rt qh qv ohs ohn ihs ihl ph ows own iws iwl pv osc ocn :
  trans_dims_ok d c -> legal tin mi -> legal tw mw -> legal tout m -> mem_bits 8 mi -> mem_bits 8 mw -> in_bits 8 zi ->
  trans_view (d_hi d) (d_kh d) (cv_sh c) (cv_top c) ohs ohn ihs ihl ph ->
  trans_view (d_wi d) (d_kw d) (cv_sw c) (cv_left c) ows own iws iwl pv ->
  t_shape tin = [ihl; iwl; d_ci d] -> t_shape tw = [d_kh d; d_kw d; d_ci d; ocn] -> t_shape tout = [ohn; own; ocn] ->
  1 <= ohn <= d_ho d -> 1 <= own <= d_wo d -> 1 <= ocn <= d_co d -> 1 <= ihl <= d_hi d -> 1 <= iwl <= d_wi d ->
  0 <= ph <= cv_top c -> 0 <= pv <= cv_left c -> 0 <= qh <= cv_bottom c -> 0 <= qv <= cv_right c ->
  ohn + ph + qh = (ihl - 1) * cv_sh c + d_kh d -> own + pv + qv = (iwl - 1) * cv_sw c + d_kw d ->
  holds3 mi tin X (ihs, iws, 0) -> holds4 mw tw Kf (0, 0, 0, osc) ->
  exists m', transpose_conv2d rm full (Q_int zi 0) 32 (mkQ 1 0 0) mi mw None tin tw tout (with_pad c ph pv bt rt) m = Some m'
    /\ holds3 m' tout (trans_whole d c zi X Kf) (ohs, ows, osc) /\ frame_ok tout m m'.
Proof.
  intros Hok (Fi & Ci & Ii & Bi) (Fw & Cw & Iw & Bw) (Fo & Co & Io & Bo) Mi Mw Iz VH VW Si Sw So Hoh How Hoc Hih Hiw Hph Hpv Hqh Hqv HH8 HW8 Xi Xw.
  destruct Hok as ((A1 & A2 & A3 & A4 & A5 & A6 & A7) & (B1 & B2 & B3 & B4 & B5 & B6 & B7) & _ & _ & _ & _ & F & U & L1 & L2 & HB).
  set (c' := with_pad c ph pv qh qv).
  change (exists m', transpose_conv2d rm full (Q_int zi 0) 32 (mkQ 1 0 0) mi mw None tin tw tout c' m = Some m'
    /\ holds3 m' tout (trans_whole d c zi X Kf) (ohs, ows, osc) /\ frame_ok tout m m').
  fall. change (2 ^ 20) with 1048576 in *.
  assert (Dm : (dim tin 0 = ihl /\ dim tin 1 = iwl /\ dim tin 2 = d_ci d) /\ (dim tw 0 = d_kh d /\ dim tw 1 = d_kw d /\ dim tw 2 = d_ci d /\ dim tw 3 = ocn)
    /\ (dim tout 0 = ohn /\ dim tout 1 = own /\ dim tout 2 = ocn)) by (unfold dim; rewrite Si, Sw, So; repeat split; reflexivity).
  destruct Dm as ((Di0 & Di1 & Di2) & (Dw0 & Dw1 & Dw2 & Dw3) & (Do0 & Do1 & Do2)).
  assert (Hf : conv_fits tin tw tout c').
  { unfold conv_fits, c', with_pad. cbn [cv_sw cv_sh cv_left cv_right cv_top cv_bottom cv_dw cv_dh]. rewrite L1, L2.
    repeat (split; [first [assumption|unfold in_ubits in *; lia]|]).
    change (2 ^ 22) with 4194304. intros t [-> | [-> | ->]]; [rewrite Di0, Di1|rewrite Dw0, Dw1|rewrite Do0, Do1]; lia. }
  destruct (vec_chk ocn ltac:(change (2 ^ 20) with 1048576; lia)) as [Fb Cb].
  assert (Hs : transpose_shapes tin tw tout c').
  { exists (vec_t ocn). split; [exact Fb|]. apply chk_trans_intro; try assumption; try (unfold t_rank; rewrite ?Si, ?Sw, ?So; reflexivity); try reflexivity;
    rewrite ?Di0, ?Di1, ?Di2, ?Dw0, ?Dw1, ?Dw2, ?Dw3, ?Do0, ?Do1, ?Do2; try reflexivity;
    unfold trans_axis, c', with_pad; cbn [cv_sw cv_sh cv_left cv_right cv_top cv_bottom cv_dw cv_dh]; repeat split; try assumption; lia. }
  destruct (transpose_conv2d_int_correct rm full zi (mkQ 1 0 0) mi mw m tin tw tout c' Hs Hf Fi Fw Fo Bi Bw Bo Mi Mw Iz) as (m' & Em & Hv & Hfr).
  { rewrite Di2, Dw0, Dw1. exact HB. }
  exists m'. split; [exact Em|]. split; [|exact Hfr]. intros y x oc V. rewrite (Hv y x oc V). cbn [fst snd].
  rewrite So in V. destruct V as (Vy & Vx & Vc & _).
  f_equal. unfold transpose_int_sum, trans_whole. rewrite Di0, Di1, Di2, Dw0, Dw1.
  assert (EK : forall kr kc ic, 0 <= kr < d_kh d -> 0 <= kc < d_kw d -> 0 <= ic < d_ci d -> at4 mw tw kr kc ic oc = Kf kr kc ic (osc + oc)).
  { intros kr kc ic R1 R2 R3. unfold at4, rd. rewrite (Xw kr kc ic oc) by (rewrite Sw; cbn [valid]; tauto). reflexivity. }
  change (cv_sh c') with (cv_sh c). change (cv_sw c') with (cv_sw c). change (cv_top c') with ph. change (cv_left c') with pv.
  apply zsum_ext. intros kr Hr. apply zsum_ext. intros kc Hc.
  destruct (VH y kr Vy Hr) as [VH1 VH2]. destruct (VW x kc Vx Hc) as [VW1 VW2]. rewrite <- VH1, <- VW1, VH2, VW2.
  destruct (hits ihl (cv_sh c) ph y kr && hits iwl (cv_sw c) pv x kc) eqn:Eh; apply zsum_ext; intros ic R3; rewrite EK by assumption; [|reflexivity].
  apply andb_true_iff in Eh. destruct Eh as [E1 E2]. unfold hits in E1, E2. rewrite !andb_true_iff, Z.eqb_eq, Z.leb_le, Z.ltb_lt in E1, E2.
  destruct E1 as [[_ G1] G2]. destruct E2 as [[_ G3] G4].
  assert (0 <= (y + ph - kr) / cv_sh c) by (apply Z.div_pos; lia). assert (0 <= (x + pv - kc) / cv_sw c) by (apply Z.div_pos; lia).
  f_equal. unfold at3, rd. unfold holds3, hwc_elem, hwc_addr in Xi. rewrite Xi by (rewrite Si; cbn [valid]; lia). cbn [fst snd]. reflexivity.
Qed.

(** The numbers of one tile. *)
Lemma trans_tile_numbers d c h v k : trans_dims_ok d c -> 0 <= h < it_count (t_ih d) -> 0 <= v < it_count (t_iw d) -> 0 <= k < it_count (t_oc d) ->
  (1 <= tile_len (t_oh d c) (d_ho d) h <= d_ho d /\ 1 <= tile_len (t_ow d c) (d_wo d) v <= d_wo d /\ 1 <= tile_len (t_oc d) (d_co d) k <= d_co d)
  /\ (1 <= tile_len (t_ih d) (d_hi d) h <= d_hi d /\ 1 <= tile_len (t_iw d) (d_wi d) v <= d_wi d).
Proof.
  intros Hok Hh Hv Hk.
  destruct (axis_deconv 1 _ _ _ _ _ _ _ (tfits_h d c Hok)) as (_ & _ & _ & GH). destruct (axis_deconv 2 _ _ _ _ _ _ _ (tfits_w d c Hok)) as (_ & _ & _ & GW).
  destruct (GH h Hh) as (H1 & H2 & _). destruct (GW v Hv) as (W1 & W2 & _).
  fold (t_ih d) in H1, H2. fold (t_oh d c) in H1. fold (t_iw d) in W1, W2. fold (t_ow d c) in W1.
  destruct Hok as (_ & _ & (T1 & T2 & T3) & _ & _ & _ & F & _). fall. change (2 ^ 20) with 1048576 in *.
  destruct (tile_dim_cuts 4 (d_co d) (d_tc d) 0 T3 ltac:(lia)) as (Hc1 & Hc & Hlen); [change (2 ^ 31) with 2147483648; lia|].
  specialize (Hlen ltac:(lia) k Hk). pose proof (cuts_inside _ _ _ _ Hc1 Hc k Hk). unfold t_oc in *. lia.
Qed.

(** C72: one tile. *)
Theorem trans_tile_correct d c si sw so i w o bi bw bo rm full zi mi mw m X Kf n :
  trans_dims_ok d c -> trans_iters d c si sw so = Some (i, w, o) ->
  let ob := trans_updates n (trans_create i w o c bi bw bo) in
  let '(pi, pw, po) := conv_offsets ob in
  let tin := hwc5 (co_tin ob) in let tw := hwcn5 (co_tw ob) in let tout := hwc5 (co_tout ob) in
  legal tin mi -> legal tw mw -> legal tout m -> mem_bits 8 mi -> mem_bits 8 mw -> in_bits 8 zi ->
  holds3 mi tin X (off_hwc pi) -> holds4 mw tw Kf (off_hwcn pw) ->
  exists m', trans_issue rm full zi 0 ob mi mw m = Some m'
    /\ holds3 m' tout (trans_whole d c zi X Kf) (off_hwc po) /\ frame_ok tout m m'.
Proof.
  intros Hok Hit ob. destruct (trans_tile_shape d c si sw so i w o bi bw bo n Hok Hit) as (h & v & k & _ & Hh & Hv & Hk & Si & Sw & So & Hoff & bt & rt & Hcfg).
  fold ob in Si, Sw, So, Hoff, Hcfg. destruct (conv_offsets ob) as [[pi pw] po]. destruct Hoff as (Oi & Ow & Oo). cbv zeta.
  unfold trans_issue. rewrite Hcfg. generalize dependent (hwc5 (co_tin ob)). generalize dependent (hwcn5 (co_tw ob)). generalize dependent (hwc5 (co_tout ob)).
  intros tout So tw Sw tin Si Li Lw Lo Mi Mw Iz Xi Xw.
  rewrite Oi in Xi. rewrite Ow in Xw. rewrite Oo. clear ob Hit Hcfg Oi Ow Oo pi pw po.
  destruct (trans_tile_numbers d c h v k Hok Hh Hv Hk) as ((N1 & N2 & N3) & N4 & N5).
  destruct (axis_deconv 1 _ _ _ _ _ _ _ (tfits_h d c Hok)) as (_ & _ & _ & GH). destruct (axis_deconv 2 _ _ _ _ _ _ _ (tfits_w d c Hok)) as (_ & _ & _ & GW).
  destruct (GH h Hh) as (_ & _ & (qh & QH & EH) & VH & _). destruct (GW v Hv) as (_ & _ & (qv & QV & EV) & VW & _). clear GH GW.
  fold (t_ih d) in EH, VH. fold (t_oh d c) in EH, VH. fold (t_iw d) in EV, VW. fold (t_ow d c) in EV, VW.
  pose proof Hok as ((_ & _ & _ & A3 & A4 & _) & (_ & _ & _ & B3 & B4 & _) & _).
  apply (trans_tile_core d c rm full zi mi mw m X Kf tin tw tout bt rt qh qv) with (8 := VH) (9 := VW) (ocn := tile_len (t_oc d) (d_co d) k); try assumption.
  - clear - A3. destruct (h =? 0); lia.
  - clear - B3. destruct (v =? 0); lia.
  - clear - QH A4. lia.
  - clear - QV B4. lia.
  - clear - EH. lia.
  - clear - EV. lia.
Qed.

(** * All tiles *)

Lemma trans_out_cfg d c si sw so i w o : trans_dims_ok d c -> trans_iters d c si sw so = Some (i, w, o) -> ti_cfg o = t_out d c.
Proof. intros Hok Hit. rewrite (trans_iters_val d c si sw so Hok) in Hit. injection Hit as <- <- <-. reflexivity. Qed.

(** Every output belongs to exactly one tile. *)
Lemma trans_tiles_cover d c si sw so i w o bi bw bo :
  trans_dims_ok d c -> trans_iters d c si sw so = Some (i, w, o) ->
  let ob n := trans_updates n (trans_create i w o c bi bw bo) in
  forall H W oc, 0 <= H < d_ho d -> 0 <= W < d_wo d -> 0 <= oc < d_co d ->
  exists n, (Z.of_nat n < total_count (ti_cfg o) /\ in_out_tile (ob n) H W oc)
    /\ forall n', Z.of_nat n' < total_count (ti_cfg o) -> in_out_tile (ob n') H W oc -> n' = n.
Proof.
  intros Hok Hit ob H W oc RH RW RC. rewrite (trans_out_cfg d c si sw so i w o Hok Hit).
  set (oshape := [1; d_ho d; d_wo d; 1; d_co d]). set (bufs := repeat (mkBdim 0 0 0 0) 5).
  destruct (t_counts d c Hok) as (Hc & _). destruct (t_orders d c) as (_ & _ & O1 & O2).
  destruct (axis_deconv 1 _ _ _ _ _ _ _ (tfits_h d c Hok)) as (E1 & K1 & C1 & GH). destruct (axis_deconv 2 _ _ _ _ _ _ _ (tfits_w d c Hok)) as (E2 & K2 & C2 & GW).
  fold (t_ih d) in E1, K1, C1, GH. fold (t_oh d c) in E1, C1, GH. fold (t_iw d) in E2, K2, C2, GW. fold (t_ow d c) in E2, C2, GW.
  pose proof Hok as (_ & _ & (T1 & T2 & T3) & _ & _ & _ & F & _). fall. change (2 ^ 20) with 1048576 in *.
  destruct (tile_dim_cuts 4 (d_co d) (d_tc d) 0 T3 ltac:(lia)) as (K3 & C3 & _); [change (2 ^ 31) with 2147483648; lia|]. fold (t_oc d) in K3, C3.
  assert (B : forall n, (let '(pos, size) := sub_tensor (t_out d c) oshape (at_tile (t_out d c) (idx_at (t_out d c) n)) in in_box pos size [0; H; W; 0; oc]) <-> in_out_tile (ob n) H W oc).
  { intros n. destruct (trans_tile_shape d c si sw so i w o bi bw bo n Hok Hit) as (h & v & k & Ei & Hh & Hv & Hk & _ & _ & So & Hoff & _).
    fold (ob n) in So, Hoff. unfold in_out_tile. destruct (conv_offsets (ob n)) as [[pi pw] po]. destruct Hoff as (_ & _ & Oo).
    unfold off_hwc in Oo. injection Oo as X1 X2 X3. rewrite So, X1, X2, X3, Ei. unfold t_out, oshape. rewrite sub5 by (reflexivity || assumption).
    change (tile_start (t_one 0) 0) with 0. change (tile_start (t_one 3) 0) with 0. change (tile_len (t_one 0) 1 0) with 1. change (tile_len (t_one 3) 1 0) with 1. change (uwrap 32 0) with 0.
    destruct (GH h Hh) as (G1 & _). destruct (GW v Hv) as (G2 & _).
    pose proof (cuts_inside _ _ _ _ K3 C3 k Hk) as G3. pose proof (proj2 (proj2 (proj2 C3)) k Hk) as G4.
    rewrite !u32_id by (change (2 ^ 32) with 4294967296; lia).
    unfold in_box. split.
    - intros [_ I]. pose proof (I 1%nat ltac:(cbn; lia)) as I1. pose proof (I 2%nat ltac:(cbn; lia)) as I2. pose proof (I 4%nat ltac:(cbn; lia)) as I4.
      cbn [nth] in I1, I2, I4. cbn [valid]. lia.
    - cbn [valid]. intros (I1 & I2 & I4 & _). split; [reflexivity|]. intros [|[|[|[|[|a]]]]] Ha; cbn [nth length] in *; lia. }
  destruct (boxes_partition (t_out d c) oshape) with (c := [0; H; W; 0; oc]) as (idx & [Hidx Hin] & Hu).
  - split; [unfold t_out; cbn [map]; rewrite O1, O2; change (it_order (t_one 0)) with 0; change (it_order (t_one 3)) with 3; change (it_order (t_oc d)) with 4;
      repeat constructor; cbn; intuition lia|].
    unfold t_out, oshape. cbn [length Z.of_nat Pos.of_succ_nat Pos.succ]. repeat constructor; rewrite ?O1, ?O2; cbn; lia.
  - reflexivity.
  - unfold t_out, oshape. change (2 ^ 31) with 2147483648. apply Forall_cons; [|apply Forall_cons; [|apply Forall_cons; [|apply Forall_cons; [|apply Forall_cons; [|constructor]]]]]; cbv zeta.
    + change (Z.to_nat (it_order (t_one 0))) with 0%nat. cbn [nth]. split; [cbn; lia|]. split; [lia|]. unfold cuts. change (it_count (t_one 0)) with 1.
      split; [reflexivity|]. split; [intros; lia|]. split; [reflexivity|]. intros k Hk. replace k with 0 by lia. cbn. lia.
    + rewrite O1. change (Z.to_nat 1) with 1%nat. cbn [nth]. split; [lia|]. split; [lia|exact C1].
    + rewrite O2. change (Z.to_nat 2) with 2%nat. cbn [nth]. split; [lia|]. split; [lia|exact C2].
    + change (Z.to_nat (it_order (t_one 3))) with 3%nat. cbn [nth]. split; [cbn; lia|]. split; [lia|]. unfold cuts. change (it_count (t_one 3)) with 1.
      split; [reflexivity|]. split; [intros; lia|]. split; [reflexivity|]. intros k Hk. replace k with 0 by lia. cbn. lia.
    + change (Z.to_nat (it_order (t_oc d))) with 4%nat. cbn [nth]. split; [exact K3|]. split; [lia|exact C3].
  - unfold oshape. cbn [valid]. lia.
  - destruct (iter_visits_once (t_out d c) bufs 1 idx Hc eq_refl Hidx) as [Hr Hv].
    assert (At : forall n, Z.of_nat n < total_count (t_out d c) -> (at_tile (t_out d c) (idx_at (t_out d c) n) = at_tile (t_out d c) idx <-> Z.of_nat n = tile_no (t_out d c) idx)).
    { intros n Hn. rewrite <- (Hv (Z.of_nat n) ltac:(lia)). rewrite Nat2Z.id. rewrite <- (ti_run_iter (t_out d c) oshape so bufs 1 n Hc) by reflexivity.
      rewrite ti_run_at by exact Hc. reflexivity. }
    exists (Z.to_nat (tile_no (t_out d c) idx)). split; [split; [lia|]|].
    + apply B. rewrite (proj2 (At (Z.to_nat (tile_no (t_out d c) idx)) ltac:(lia))) by lia. exact Hin.
    + intros n' Hn' Hin'. apply B in Hin'. apply Hu in Hin'; [|apply idx_at_ok; exact Hc]. pose proof (proj1 (At n' Hn')) as Q. rewrite Hin' in Q. specialize (Q eq_refl). lia.
Qed.

(** C72: whatever the tile sizes, processing all tiles - each with the input and weight windows at the reported offsets in the local
    buffers - yields the transposed convolution of the whole tensors: every Issue succeeds and every output belongs to exactly one tile,
    which receives its value. *)
Theorem trans_tiles_whole d c si sw so i w o bi bw bo rm full zi X Kf (mi mw m : nat -> mem) :
  trans_dims_ok d c -> trans_iters d c si sw so = Some (i, w, o) -> in_bits 8 zi ->
  let ob n := trans_updates n (trans_create i w o c bi bw bo) in
  let total := total_count (ti_cfg o) in
  (forall n, Z.of_nat n < total -> tile_ready (ob n) X Kf (mi n) (mw n) (m n)) ->
  exists out : nat -> mem,
    (forall n, Z.of_nat n < total -> trans_issue rm full zi 0 (ob n) (mi n) (mw n) (m n) = Some (out n))
    /\ forall H W oc, 0 <= H < d_ho d -> 0 <= W < d_wo d -> 0 <= oc < d_co d ->
       exists n, (Z.of_nat n < total /\ in_out_tile (ob n) H W oc /\ out_value (ob n) (out n) H W oc = Some (trans_whole d c zi X Kf H W oc))
         /\ forall n', Z.of_nat n' < total -> in_out_tile (ob n') H W oc -> n' = n.
Proof.
  intros Hok Hit Iz ob total Hr.
  set (out := fun n => match trans_issue rm full zi 0 (ob n) (mi n) (mw n) (m n) with Some x => x | None => m n end).
  assert (T : forall n, Z.of_nat n < total -> trans_issue rm full zi 0 (ob n) (mi n) (mw n) (m n) = Some (out n)
    /\ holds3 (out n) (hwc5 (co_tout (ob n))) (trans_whole d c zi X Kf) (off_hwc (snd (conv_offsets (ob n))))).
  { intros n Hn. pose proof (trans_tile_correct d c si sw so i w o bi bw bo rm full zi (mi n) (mw n) (m n) X Kf n Hok Hit) as Q. cbv zeta in Q.
    change (trans_updates n (trans_create i w o c bi bw bo)) with (ob n) in Q. specialize (Hr n Hn). unfold tile_ready in Hr.
    unfold out. destruct (conv_offsets (ob n)) as [[pi pw] po]. destruct Hr as (L1 & L2 & L3 & M1 & M2 & X1 & X2).
    destruct (Q L1 L2 L3 M1 M2 Iz X1 X2) as (m' & E & Hh & _). rewrite E. split; [reflexivity|exact Hh]. }
  exists out. split; [intros n Hn; apply T; exact Hn|]. intros H W oc RH RW RC.
  destruct (trans_tiles_cover d c si sw so i w o bi bw bo Hok Hit H W oc RH RW RC) as (n & [Hn Hin] & Hu).
  change (in_out_tile (ob n) H W oc) in Hin. change (forall n', Z.of_nat n' < total -> in_out_tile (ob n') H W oc -> n' = n) in Hu.
  exists n. split; [|exact Hu]. split; [exact Hn|]. split; [exact Hin|]. destruct (T n Hn) as [_ Hv].
  unfold in_out_tile in Hin. unfold out_value. destruct (conv_offsets (ob n)) as [[pi pw] po]. cbn [snd] in Hv.
  rewrite (Hv _ _ _ Hin). unfold off_hwc. cbn [fst snd]. f_equal. f_equal; lia.
Qed.

(** C72, against one call for the whole tensors: the same values. *)
Theorem trans_tiles_untiled d c si sw so i w o bi bw bo rm full zi (mi mw m : nat -> mem) tin tw tout gi gw gm gm' oq :
  trans_dims_ok d c -> trans_iters d c si sw so = Some (i, w, o) -> in_bits 8 zi ->
  t_shape tin = [d_hi d; d_wi d; d_ci d] -> t_shape tw = [d_kh d; d_kw d; d_ci d; d_co d] -> t_shape tout = [d_ho d; d_wo d; d_co d] ->
  legal tin gi -> legal tw gw -> legal tout gm -> mem_bits 8 gi -> mem_bits 8 gw ->
  transpose_conv2d rm full (Q_int zi 0) 32 oq gi gw None tin tw tout c gm = Some gm' ->
  let ob n := trans_updates n (trans_create i w o c bi bw bo) in
  let total := total_count (ti_cfg o) in
  (forall n, Z.of_nat n < total -> tile_ready (ob n) (at3 gi tin) (at4 gw tw) (mi n) (mw n) (m n)) ->
  exists out : nat -> mem,
    (forall n, Z.of_nat n < total -> trans_issue rm full zi 0 (ob n) (mi n) (mw n) (m n) = Some (out n))
    /\ forall H W oc, valid (t_shape tout) [H; W; oc] ->
       exists n, (Z.of_nat n < total /\ in_out_tile (ob n) H W oc /\ out_value (ob n) (out n) H W oc = hwc_elem gm' tout H W oc)
         /\ forall n', Z.of_nat n' < total -> in_out_tile (ob n') H W oc -> n' = n.
Proof.
  intros Hok Hit Iz Si Sw So (Fi & Ci & Ii & Bi) (Fw & Cw & Iw & Bw) (Fo & Co & Io & Bo) Mi Mw Hrun ob total Hr.
  destruct (trans_tiles_whole d c si sw so i w o bi bw bo rm full zi (at3 gi tin) (at4 gw tw) mi mw m Hok Hit Iz Hr) as (out & O1 & O2).
  exists out. split; [exact O1|]. intros H W oc V. pose proof V as V'. rewrite So in V'. destruct V' as (RH & RW & RC & _).
  destruct (O2 H W oc RH RW RC) as (n & (N1 & N2 & N3) & Hu). exists n. split; [|exact Hu]. split; [exact N1|]. split; [exact N2|]. etransitivity; [exact N3|].
  pose proof Hok as (AH & AW & (T1 & T2 & T3) & _ & _ & _ & F & U & L1 & L2 & HB). fall. change (2 ^ 20) with 1048576 in *.
  assert (Dm : (dim tin 0 = d_hi d /\ dim tin 1 = d_wi d /\ dim tin 2 = d_ci d) /\ (dim tw 0 = d_kh d /\ dim tw 1 = d_kw d /\ dim tw 2 = d_ci d /\ dim tw 3 = d_co d)
    /\ (dim tout 0 = d_ho d /\ dim tout 1 = d_wo d /\ dim tout 2 = d_co d)) by (unfold dim; rewrite Si, Sw, So; repeat split; reflexivity).
  destruct Dm as ((Di0 & Di1 & Di2) & (Dw0 & Dw1 & Dw2 & Dw3) & (Do0 & Do1 & Do2)).
  assert (Hf : conv_fits tin tw tout c).
  { unfold conv_fits. rewrite L1, L2. repeat (split; [assumption || (unfold in_ubits; lia)|]).
    change (2 ^ 22) with 4194304. intros t [-> | [-> | ->]]; [rewrite Di0, Di1|rewrite Dw0, Dw1|rewrite Do0, Do1]; lia. }
  destruct (vec_chk (d_co d) ltac:(change (2 ^ 20) with 1048576; lia)) as [Fb Cb].
  assert (Hs : transpose_shapes tin tw tout c).
  { exists (vec_t (d_co d)). split; [exact Fb|]. apply chk_trans_intro; try assumption; try (unfold t_rank; rewrite ?Si, ?Sw, ?So; reflexivity); try reflexivity;
    rewrite ?Di0, ?Di1, ?Di2, ?Dw0, ?Dw1, ?Dw2, ?Dw3, ?Do0, ?Do1, ?Do2; try reflexivity; try lia; assumption. }
  destruct (transpose_conv2d_int_correct rm full zi oq gi gw gm tin tw tout c Hs Hf Fi Fw Fo Bi Bw Bo Mi Mw Iz) as (m' & Em & Hv & _).
  { rewrite Di2, Dw0, Dw1. exact HB. }
  rewrite Hrun in Em. injection Em as <-. rewrite (Hv H W oc V). f_equal. unfold transpose_int_sum, trans_whole. rewrite Di0, Di1, Di2, Dw0, Dw1. reflexivity.
Qed.

(** Buffers with room for the whole tensors are legal for every tile. *)
Theorem trans_tile_legal d c si sw so i w o bi bw bo n mi mw m :
  trans_dims_ok d c -> trans_iters d c si sw so = Some (i, w, o) ->
  legal (hwc5 (mkTensor (lb_data bi) (lb_cap bi) (lb_esz bi) [1; d_hi d; d_wi d; 1; d_ci d] si false (-1) 0)) mi ->
  legal (hwcn5 (mkTensor (lb_data bw) (lb_cap bw) (lb_esz bw) [1; d_kh d; d_kw d; d_ci d; d_co d] sw false (-1) 0)) mw ->
  legal (hwc5 (mkTensor (lb_data bo) (lb_cap bo) (lb_esz bo) [1; d_ho d; d_wo d; 1; d_co d] so false (-1) 0)) m ->
  let ob := trans_updates n (trans_create i w o c bi bw bo) in
  legal (hwc5 (co_tin ob)) mi /\ legal (hwcn5 (co_tw ob)) mw /\ legal (hwc5 (co_tout ob)) m.
Proof.
  intros Hok Hit Li Lw Lo ob.
  destruct (trans_tile_shape d c si sw so i w o bi bw bo n Hok Hit) as (h & v & k & _ & Hh & Hv & Hk & Si & Sw & So & _).
  fold ob in Si, Sw, So. destruct (trans_tile_numbers d c h v k Hok Hh Hv Hk) as ((N1 & N2 & N3) & N4 & N5).
  pose proof Hok as (_ & _ & _ & _ & _ & _ & F & _). fall.
  assert (E : ti_stride (ti_run i n) = si /\ ti_stride (ti_run w n) = sw /\ ti_stride (ti_run o n) = so).
  { rewrite (trans_iters_val d c si sw so Hok) in Hit. injection Hit as <- <- <-.
    assert (Hs : forall j l, ti_stride (ti_run j l) = ti_stride j) by (intros j l; clear; induction l as [|l IH]; cbn [ti_run]; [reflexivity|exact IH]).
    rewrite !Hs. repeat split. }
  destruct E as (Ei & Ew & Eo).
  split; [|split].
  - replace (hwc5 (co_tin ob)) with (with_shape (hwc5 (mkTensor (lb_data bi) (lb_cap bi) (lb_esz bi) [1; d_hi d; d_wi d; 1; d_ci d] si false (-1) 0)) (t_shape (hwc5 (co_tin ob))));
    [|unfold ob; rewrite trans_updates_val; unfold with_shape, hwc5, tile_of, trans_create; cbn [t_data t_cap t_esz t_shape t_stride t_asym t_qdim t_qoff co_tin tile_of]; unfold tile_of; cbn [t_data t_cap t_esz t_shape t_stride]; rewrite Ei; reflexivity].
    rewrite Si. apply legal_smaller; [exact Li|]. unfold hwc5, pick. cbn [t_shape map nth]. repeat constructor; lia.
  - replace (hwcn5 (co_tw ob)) with (with_shape (hwcn5 (mkTensor (lb_data bw) (lb_cap bw) (lb_esz bw) [1; d_kh d; d_kw d; d_ci d; d_co d] sw false (-1) 0)) (t_shape (hwcn5 (co_tw ob))));
    [|unfold ob; rewrite trans_updates_val; unfold with_shape, hwcn5, tile_of, trans_create; cbn [t_data t_cap t_esz t_shape t_stride t_asym t_qdim t_qoff co_tw tile_of]; unfold tile_of; cbn [t_data t_cap t_esz t_shape t_stride]; rewrite Ew; reflexivity].
    rewrite Sw. apply legal_smaller; [exact Lw|]. unfold hwcn5, pick. cbn [t_shape map nth]. repeat constructor; lia.
  - replace (hwc5 (co_tout ob)) with (with_shape (hwc5 (mkTensor (lb_data bo) (lb_cap bo) (lb_esz bo) [1; d_ho d; d_wo d; 1; d_co d] so false (-1) 0)) (t_shape (hwc5 (co_tout ob))));
    [|unfold ob; rewrite trans_updates_val; unfold with_shape, hwc5, tile_of, trans_create; cbn [t_data t_cap t_esz t_shape t_stride t_asym t_qdim t_qoff co_tout tile_of]; unfold tile_of; cbn [t_data t_cap t_esz t_shape t_stride]; rewrite Eo; reflexivity].
    rewrite So. apply legal_smaller; [exact Lo|]. unfold hwc5, pick. cbn [t_shape map nth]. repeat constructor; lia.
Qed.

(** * A concrete case *)

(** 4 x 3 x 2 input, 2 x 3 kernel, stride 2 x 2, padding 1 above, left and right, output 7 x 5 x 3, input tiles of 2 x 2, two output channels
    at a time: rows are cut into two tiles; columns are not, because the last tile would be smaller than the kernel. 2 * 1 * 2 tiles. *)
Definition tex_dims : conv_dims := mkCd 4 3 2 2 3 7 5 3 2 2 2.
Definition tex_cfg : conv_cfg := mkCv RELU_NONE 2 2 1 1 1 0 1 1.
Definition tex_X (r cl ch : Z) : Z := r * 6 + cl * 2 + ch.
Definition tex_K (kr kc ic oc : Z) : Z := kr * 18 + kc * 6 + ic * 3 + oc.
Definition tex_si := [24; 6; 2; 2; 1].
Definition tex_sw := [36; 18; 6; 3; 1].
Definition tex_so := [105; 15; 3; 3; 1].
Definition tex_bases (ob : conv_obj) : Z * Z :=
  let '(pi, pw, _) := conv_offsets ob in (tex_X (nth 1 pi 0) (nth 2 pi 0) (nth 4 pi 0), tex_K (nth 1 pw 0) (nth 2 pw 0) (nth 3 pw 0) (nth 4 pw 0)).

Lemma tex_dims_ok : trans_dims_ok tex_dims tex_cfg.
Proof.
  unfold trans_dims_ok, trans_axis, tex_dims, tex_cfg, in_ubits, smax. cbn [d_hi d_wi d_ci d_kh d_kw d_ho d_wo d_co d_th d_tw d_tc cv_sh cv_sw cv_dh cv_dw cv_top cv_left cv_bottom cv_right].
  change (2 ^ 20) with 1048576. change (2 ^ 8) with 256. change (2 ^ (32 - 1)) with 2147483648. change (2 ^ 14) with 16384.
  change ((3 - 1) mod 2 + 1) with 1. split; [lia|]. split; [lia|]. split; [lia|]. split; [lia|]. split; [left; reflexivity|]. split; [right; right; lia|].
  split; [repeat constructor; lia|]. split; [repeat constructor; lia|]. lia.
Qed.

Lemma ex_mem_bits nn base : 0 <= base -> nn + base <= 127 -> mem_bits 8 (ex_mem nn base).
Proof.
  intros B1 B2 a x. unfold ex_mem. destruct ((0 <=? a) && (a <? nn)) eqn:E; [|discriminate]. intros Hx. injection Hx as <-.
  apply andb_true_iff in E. rewrite Z.leb_le, Z.ltb_lt in E. apply ib8. lia.
Qed.

Lemma ex_mem_get nn base a : 0 <= a < nn -> ex_mem nn base a = Some (base + a).
Proof. intros Ha. unfold ex_mem. replace (0 <=? a) with true by (symmetry; apply Z.leb_le; lia). replace (a <? nn) with true by (symmetry; apply Z.ltb_lt; lia). reflexivity. Qed.

(** All four tiles are ready when the windows are copied into buffers as large as the whole tensors ... *)
Example tex_ready : exists i w o, trans_iters tex_dims tex_cfg tex_si tex_sw tex_so = Some (i, w, o) /\ total_count (ti_cfg o) = 4
  /\ forall n, Z.of_nat n < 4 ->
     let ob := trans_updates n (trans_create i w o tex_cfg (mkLb 0 24 1) (mkLb 0 36 1) (mkLb 0 420 4)) in
     tile_ready ob tex_X tex_K (ex_mem 24 (fst (tex_bases ob))) (ex_mem 36 (snd (tex_bases ob))) (ex_mem 105 0).
Proof.
  do 3 eexists. split; [apply trans_iters_val; exact tex_dims_ok|]. split; [reflexivity|]. intros n Hn ob.
  destruct (trans_tile_legal tex_dims tex_cfg tex_si tex_sw tex_so _ _ _ (mkLb 0 24 1) (mkLb 0 36 1) (mkLb 0 420 4) n (ex_mem 24 (fst (tex_bases ob))) (ex_mem 36 (snd (tex_bases ob))) (ex_mem 105 0)
    tex_dims_ok (trans_iters_val tex_dims tex_cfg tex_si tex_sw tex_so tex_dims_ok)) as (L1 & L2 & L3).
  1-3: apply ex_legal; [fits32_tac|reflexivity|reflexivity|reflexivity|reflexivity|cbn; lia].
  fold ob in L1, L2, L3. unfold tile_ready.
  assert (Hc : In n [0; 1; 2; 3]%nat) by (do 4 (destruct n as [|n]; [cbn; tauto|]); lia).
  cbn [In] in Hc. decompose [or] Hc; clear Hc; try tauto; subst n;
  (let v := eval vm_compute in (conv_offsets ob) in assert (Eo : conv_offsets ob = v) by (vm_compute; reflexivity));
  (let v := eval vm_compute in (tex_bases ob) in assert (Eb : tex_bases ob = v) by (vm_compute; reflexivity));
  (let v := eval vm_compute in (hwc5 (co_tin ob)) in assert (Ei : hwc5 (co_tin ob) = v) by (vm_compute; reflexivity));
  (let v := eval vm_compute in (hwcn5 (co_tw ob)) in assert (Ew : hwcn5 (co_tw ob) = v) by (vm_compute; reflexivity));
  rewrite Eo; rewrite Eb in *; rewrite Ei in *; rewrite Ew in *; clear Eo Eb Ei Ew;
  (split; [exact L1|]); (split; [exact L2|]); (split; [exact L3|]); clear L1 L2 L3;
  (split; [apply ex_mem_bits; cbn; lia|]); (split; [apply ex_mem_bits; cbn; lia|]);
  (split; [intros r cl ch V|intros kr kc ic oc V]);
  cbn [t_shape valid] in V; unfold hwc_elem, hwc_addr;
  cbn [t_data t_stride addr off_hwc off_hwcn fst snd nth]; (rewrite ex_mem_get; [f_equal; unfold tex_X, tex_K|]); lia.
Qed.

(** ... and one of their values. *)
Example tex_value : trans_whole tex_dims tex_cfg 5 tex_X tex_K 3 2 1 <> 0.
Proof. vm_compute. discriminate. Qed.

(** * What does not hold *)

(** Where the kernel reaches beyond the stride the tiles of the output overlap, and each tile has only the part of the sum that comes from
    its own input: 4 rows, 2 taps, stride 1, tiles of 2 rows. Output row 2 belongs to both tiles and is wrong in both. All conditions but
    the one on kernel and stride hold, and the library accepts the tiling. *)
Theorem trans_overlap_refuted :
  exists (d : conv_dims) (c : conv_cfg) (i w o : titer) (mi : nat -> mem) (mw m : mem) X Kf,
    trans_axis (d_hi d) (d_ho d) (d_kh d) (cv_sh c) (cv_top c) (cv_bottom c)
    /\ trans_axis (d_wi d) (d_wo d) (d_kw d) (cv_sw c) (cv_left c) (cv_right c)
    /\ (1 <= d_th d <= d_hi d /\ d_tw d = d_wi d /\ d_tc d = d_co d) /\ cv_top c <= d_th d * cv_sh c /\ cv_dh c = 1 /\ cv_dw c = 1
    /\ trans_iters d c [4; 1; 1; 1; 1] [2; 1; 1; 1; 1] [5; 1; 1; 1; 1] = Some (i, w, o) /\ total_count (ti_cfg o) = 2
    /\ forall n, (n < 2)%nat ->
       let ob := trans_updates n (trans_create i w o c (mkLb 0 4 1) (mkLb 0 2 1) (mkLb 0 20 4)) in
       tile_ready ob X Kf (mi n) mw m /\ in_out_tile ob 2 0 0
       /\ exists m', trans_issue RM_UP true 0 0 ob (mi n) mw m = Some m' /\ out_value ob m' 2 0 0 <> Some (trans_whole d c 0 X Kf 2 0 0).
Proof.
  exists (mkCd 4 1 1 2 1 5 1 1 2 1 1), (mkCv RELU_NONE 1 1 0 0 0 0 1 1). do 3 eexists.
  exists (fun n => ex_mem 4 (1 + 2 * Z.of_nat n)), (ex_mem 2 10), (ex_mem 5 0), (fun r _ _ => 1 + r), (fun kr _ _ _ => 10 + kr).
  cbn [d_hi d_wi d_ci d_kh d_kw d_ho d_wo d_co d_th d_tw d_tc cv_sh cv_sw cv_dh cv_dw cv_top cv_left cv_bottom cv_right].
  split; [unfold trans_axis; lia|]. split; [unfold trans_axis; lia|]. split; [lia|]. split; [lia|]. split; [reflexivity|]. split; [reflexivity|].
  split; [vm_compute; reflexivity|]. split; [reflexivity|]. intros n Hn. cbv zeta.
  assert (R : n = 0%nat \/ n = 1%nat) by lia. clear Hn. destruct R; subst n;
  (match goal with |- context [trans_updates ?k ?x] => set (ob := trans_updates k x) end);
  (let v := eval vm_compute in (conv_offsets ob) in assert (Eo : conv_offsets ob = v) by (vm_compute; reflexivity));
  (let v := eval vm_compute in (hwc5 (co_tin ob)) in assert (Ei : hwc5 (co_tin ob) = v) by (vm_compute; reflexivity));
  (let v := eval vm_compute in (hwcn5 (co_tw ob)) in assert (Ew : hwcn5 (co_tw ob) = v) by (vm_compute; reflexivity));
  (let v := eval vm_compute in (hwc5 (co_tout ob)) in assert (Et : hwc5 (co_tout ob) = v) by (vm_compute; reflexivity));
  (split; [|split; [vm_compute; intuition discriminate|eexists; split; [vm_compute; reflexivity|vm_compute; discriminate]]]);
  unfold tile_ready; rewrite Eo, Ei, Ew, Et; clear Eo Ei Ew Et ob;
  (split; [apply ex_legal; [fits32_tac|reflexivity|reflexivity|reflexivity|reflexivity|cbn; lia]|]);
  (split; [apply ex_legal; [fits32_tac|reflexivity|reflexivity|reflexivity|reflexivity|cbn; lia]|]);
  (split; [apply ex_legal; [fits32_tac|reflexivity|reflexivity|reflexivity|reflexivity|cbn; lia]|]);
  (split; [apply ex_mem_bits; cbn; lia|]); (split; [apply ex_mem_bits; cbn; lia|]);
  (split; [intros r cl ch V|intros kr kc ic oc V]);
  cbn [t_shape valid] in V; unfold hwc_elem, hwc_addr;
  cbn [t_data t_stride addr off_hwc off_hwcn fst snd nth Z.of_nat Pos.of_succ_nat]; (rewrite ex_mem_get; [f_equal|]); lia.
Qed.
