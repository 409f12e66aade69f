(** Pooling on tensors: C27 (maximum), C28 (average), C29 (memory), C54 (sum). *)
From Coq Require Import ZArith List Lia Bool QArith Qabs Lqa.
From Verif Require Import Base FxMath FxMathProofs Tensor TensorProofs Permute PermuteProofs Mov MovProofs ArgMax ArgMaxProofs.
From Verif Require Import QSpec Quant QuantProofs QuantCastProofs DotProd DotProdProofs Layout Pool PoolProofs.
Import ListNotations.
Local Open Scope Z_scope.

(** * Specification vocabulary *)

(** Input row [r] and column [cl] lie in the window of output position ([H], [W]) and inside the input. *)
Definition in_window (c : pool_cfg) (tin : tensor) (H W r cl : Z) : Prop :=
  0 <= r < dim tin 0 /\ 0 <= cl < dim tin 1
  /\ H * pl_sh c - pl_top c <= r < H * pl_sh c - pl_top c + pl_kh c
  /\ W * pl_sw c - pl_left c <= cl < W * pl_sw c - pl_left c + pl_kw c.

(** [v] is the maximum of the elements of channel [ch] in the window. *)
Definition is_window_max (mi : mem) (tin : tensor) (c : pool_cfg) (H W ch v : Z) : Prop :=
  (exists r cl, in_window c tin H W r cl /\ hwc_elem mi tin r cl ch = Some v)
  /\ (forall r cl x, in_window c tin H W r cl -> hwc_elem mi tin r cl ch = Some x -> x <= v).

(** Sum of the elements of channel [ch] in the window: over all input rows and columns, those in the window. *)
Definition inwb (lo n x : Z) : bool := (lo <=? x) && (x <? lo + n).
Definition window_sum (mi : mem) (tin : tensor) (c : pool_cfg) (H W ch : Z) : Z :=
  zsum 0 (dim tin 0) (fun r => zsum 0 (dim tin 1) (fun cl =>
    if inwb (H * pl_sh c - pl_top c) (pl_kh c) r && inwb (W * pl_sw c - pl_left c) (pl_kw c) cl
    then rd mi (hwc_addr tin r cl ch) else 0)).
Definition window_count (tin : tensor) (c : pool_cfg) (H W : Z) : Z :=
  zsum 0 (dim tin 0) (fun r => zsum 0 (dim tin 1) (fun cl =>
    if inwb (H * pl_sh c - pl_top c) (pl_kh c) r && inwb (W * pl_sw c - pl_left c) (pl_kw c) cl then 1 else 0)).

(** Only elements of the output tensor change. *)
Definition frame_ok (t : tensor) (m m' : mem) : Prop :=
  forall a, (forall x, valid (t_shape t) x -> a <> t_data t + addr (t_stride t) x) -> m' a = m a.

(** * Window arithmetic *)

Lemma in_window_iff c tin H W r cl : in_window c tin H W r cl <->
  win_top c H <= r < win_bottom c tin H /\ win_left c W <= cl < win_right c tin W.
Proof. unfold in_window, win_top, win_bottom, win_left, win_right. lia. Qed.

(** A sum over [0,n) restricted to an interval. *)
Lemma zsum_restrict n lo k f : 0 <= n ->
  zsum 0 n (fun x => if inwb lo k x then f x else 0)
  = let a := Z.max 0 lo in let b := Z.min n (lo + k) in zsum 0 (b - a) (fun x => f (a + x)).
Proof.
  intros Hn. cbv zeta. set (a := Z.max 0 lo). set (b := Z.min n (lo + k)). destruct (Z.le_gt_cases b a).
  - replace (zsum 0 (b - a) _) with 0. 2: { unfold zsum. rewrite zrange_nil by lia. reflexivity. }
    apply zsum_zero. intros i Hi. unfold inwb. destruct (Z.leb_spec lo i), (Z.ltb_spec i (lo + k)); cbn [andb]; auto; unfold a, b in *; lia.
  - rewrite (zsum_split 0 a n) by (unfold a, b in *; lia). rewrite (zsum_split a b n) by (unfold a, b in *; lia).
    rewrite (zsum_zero 0 a), (zsum_zero b n).
    + rewrite Z.add_0_l, Z.add_0_r. replace (zsum a b (fun x => if inwb lo k x then f x else 0)) with (zsum (0 + a) (b - a + a) (fun x => if inwb lo k x then f x else 0)) by (f_equal; lia).
      rewrite zsum_shift. apply zsum_ext. intros i Hi. unfold inwb.
      replace (lo <=? i + a) with true by (symmetry; apply Z.leb_le; unfold a in *; lia).
      replace (i + a <? lo + k) with true by (symmetry; apply Z.ltb_lt; unfold a, b in *; lia). cbn [andb]. f_equal; lia.
    + intros i Hi. unfold inwb. replace (i <? lo + k) with false by (symmetry; apply Z.ltb_ge; unfold b in *; lia). now rewrite andb_false_r.
    + intros i Hi. unfold inwb. replace (lo <=? i) with false by (symmetry; apply Z.leb_gt; unfold a in *; lia). reflexivity.
Qed.

Lemma zsum_restrict2 n1 lo1 k1 n2 lo2 k2 (f : Z -> Z -> Z) : 0 <= n1 -> 0 <= n2 ->
  zsum 0 n1 (fun x => zsum 0 n2 (fun y => if inwb lo1 k1 x && inwb lo2 k2 y then f x y else 0))
  = let a1 := Z.max 0 lo1 in let b1 := Z.min n1 (lo1 + k1) in
    let a2 := Z.max 0 lo2 in let b2 := Z.min n2 (lo2 + k2) in
    zsum 0 (b1 - a1) (fun x => zsum 0 (b2 - a2) (fun y => f (a1 + x) (a2 + y))).
Proof.
  intros H1 H2. cbv zeta.
  etransitivity; [apply zsum_ext with (g := fun x => if inwb lo1 k1 x then zsum 0 n2 (fun y => if inwb lo2 k2 y then f x y else 0) else 0)|].
  - intros x _. destruct (inwb lo1 k1 x); cbn [andb]; [reflexivity|]. apply zsum_zero. reflexivity.
  - rewrite zsum_restrict by auto. cbv zeta. apply zsum_ext. intros x _. now rewrite zsum_restrict by auto.
Qed.

Lemma window_sum_eq mi tin c H W ch sr sc : t_stride tin = [sr; sc; 1] -> 0 <= dim tin 0 -> 0 <= dim tin 1 ->
  window_sum mi tin c H W ch = sum2D mi (hwc_addr tin (win_top c H) (win_left c W) ch)
     (win_right c tin W - win_left c W) (win_bottom c tin H - win_top c H) sc sr.
Proof.
  intros Es H0 H1. unfold window_sum. rewrite zsum_restrict2 by auto. cbv zeta. unfold sum2D, win_right, win_left, win_bottom, win_top.
  apply zsum_ext. intros x _. apply zsum_ext. intros y _. f_equal. unfold hwc_addr. rewrite Es. cbn [addr]. ring.
Qed.

Lemma window_count_eq tin c H W : 0 <= dim tin 0 -> 0 <= dim tin 1 -> win_top c H <= win_bottom c tin H -> win_left c W <= win_right c tin W ->
  window_count tin c H W = (win_right c tin W - win_left c W) * (win_bottom c tin H - win_top c H).
Proof.
  intros H0 H1 K1 K2. unfold window_count. rewrite zsum_restrict2 with (f := fun _ _ => 1) by auto. cbv zeta.
  change (Z.max 0 (H * pl_sh c - pl_top c)) with (win_top c H). change (Z.max 0 (W * pl_sw c - pl_left c)) with (win_left c W).
  change (Z.min (dim tin 0) (H * pl_sh c - pl_top c + pl_kh c)) with (win_bottom c tin H).
  change (Z.min (dim tin 1) (W * pl_sw c - pl_left c + pl_kw c)) with (win_right c tin W).
  rewrite !zsum_const by lia. ring.
Qed.

(** * Maximum *)

Lemma max_loop (f : Z -> Z -> option Z) (P : Z -> Z -> Prop) n v : 0 <= n ->
  (forall k v, 0 <= k < n -> exists v', f k v = Some v' /\ v <= v' /\ (forall x, P k x -> x <= v') /\ (v' = v \/ P k v')) ->
  exists v', foldM f (zrange 0 n) v = Some v' /\ v <= v' /\ (forall k x, 0 <= k < n -> P k x -> x <= v')
    /\ (v' = v \/ exists k, 0 <= k < n /\ P k v').
Proof.
  intros Hn Hf.
  apply (zloop_inv f (fun d v' => v <= v' /\ (forall k x, 0 <= k < d -> P k x -> x <= v') /\ (v' = v \/ exists k, 0 <= k < d /\ P k v')) n v Hn).
  - repeat split; auto; try lia.
  - intros d v1 Hd (L1 & M1 & W1). destruct (Hf d v1 Hd) as (v2 & E2 & L2 & M2 & W2). exists v2.
    split; [exact E2|]. split; [lia|]. split.
    + intros k x Hk Px. destruct (Z.eq_dec k d) as [->|]; [auto|]. specialize (M1 k x ltac:(lia) Px). lia.
    + destruct W2 as [->|W2]; [|right; exists d; split; [lia|auto]]. destruct W1 as [->|(k & Hk & Pk)]; [auto|].
      right; exists k; split; [lia|auto].
Qed.

Lemma reduce_max2D_ok mi p w h col row : 1 <= w -> 1 <= h ->
  (forall r cl, 0 <= r < h -> 0 <= cl < w -> allocated mi (p + row * r + col * cl)) ->
  exists v, reduce_max2D mi p w h col row = Some v
    /\ (exists r cl, 0 <= r < h /\ 0 <= cl < w /\ mi (p + row * r + col * cl) = Some v)
    /\ (forall r cl x, 0 <= r < h -> 0 <= cl < w -> mi (p + row * r + col * cl) = Some x -> x <= v).
Proof.
  intros Hw Hh HA. unfold reduce_max2D.
  assert (A0 : allocated mi p). { specialize (HA 0 0 ltac:(lia) ltac:(lia)). replace p with (p + row * 0 + col * 0) by ring. exact HA. }
  rewrite (rd_load _ _ A0). cbn [bind].
  destruct (max_loop (fun r v => foldM (fun cl v => do x <- load mi (p + (row * r + col * cl)); Some (max_fx v x)) (zrange 0 w) v)
    (fun r x => exists cl, 0 <= cl < w /\ mi (p + row * r + col * cl) = Some x) h (rd mi p) ltac:(lia)) as (v & E & L & M & X).
  - intros r v Hr.
    destruct (max_loop (fun cl v => do x <- load mi (p + (row * r + col * cl)); Some (max_fx v x))
      (fun cl x => mi (p + row * r + col * cl) = Some x) w v ltac:(lia)) as (v' & E & L & M & X).
    + intros cl v1 Hc. replace (p + (row * r + col * cl)) with (p + row * r + col * cl) by ring.
      rewrite (rd_load _ _ (HA r cl Hr Hc)). cbn [bind]. eexists. split; [reflexivity|].
      assert (Em : max_fx v1 (rd mi (p + row * r + col * cl)) = Z.max v1 (rd mi (p + row * r + col * cl))).
      { unfold max_fx. rewrite Z.gtb_ltb. destruct (Z.ltb_spec (rd mi (p + row * r + col * cl)) v1); lia. }
      rewrite Em. pose proof (rd_load _ _ (HA r cl Hr Hc)) as Ld. unfold load in Ld.
      split; [lia|]. split; [intros x Ex; rewrite Ld in Ex; injection Ex; lia|].
      destruct (Z.max_spec v1 (rd mi (p + row * r + col * cl))) as [[_ ->]|[_ ->]]; auto.
    + exists v'. split; [exact E|]. split; [exact L|]. split.
      * intros x (cl & Hc & Ex). eapply M; eauto.
      * destruct X as [->|(k & Hk & Ek)]; [auto|]. right. exists k. auto.
  - exists v. split; [exact E|]. split.
    + destruct X as [->|(r & Hr & cl & Hc & Ex)]; [|exists r, cl; auto].
      exists 0, 0. split; [lia|]. split; [lia|]. replace (p + row * 0 + col * 0) with p by ring. apply (rd_load _ _ A0).
    + intros r cl x Hr Hc Ex. apply (M r x Hr). exists cl. auto.
Qed.

Lemma reduce_max2D_rot mi kh kw p w h col row : ok_box mi kh kw p w h col row ->
  reduce_max2D mi (p + col * (w - 1)) h w row (- col) = reduce_max2D mi p w h col row.
Proof.
  intros K. pose proof (ok_box_rot mi kh kw p w h col row K) as K'. destruct K as (Hw & Hh & _ & HA). destruct K' as (_ & _ & _ & HA').
  destruct (reduce_max2D_ok mi p w h col row Hw Hh HA) as (v & E & (r & cl & Hr & Hc & Ev) & M).
  destruct (reduce_max2D_ok mi (p + col * (w - 1)) h w row (- col) Hh Hw HA') as (v' & E' & (r' & cl' & Hr' & Hc' & Ev') & M').
  rewrite E, E'. f_equal. apply Z.le_antisymm.
  - apply (M cl' (w - 1 - r')); [lia|lia|]. rewrite <- Ev'. f_equal. ring.
  - apply (M' (w - 1 - cl) r); [lia|lia|]. rewrite <- Ev. f_equal. ring.
Qed.

(** C27, C29: accepted parameters, sizes below 2^31 and padding no wider than the output times the stride: the kernel
    completes (every access is inside the buffers), every output element is the maximum of the input elements in its
    window and nothing else changes. *)
Theorem maxpool_correct mi m tin tout c fixed :
  chk_pool tin tout c fixed = ST_OK -> pool_fits tin tout c -> pool_padding_small tin tout c ->
  fits32 tin -> fits32 tout -> backed tin mi -> backed tout m ->
  exists m', maxpool mi fixed tin tout c m = Some m'
    /\ (forall H W ch, valid (t_shape tout) [H; W; ch] ->
          exists v, hwc_elem m' tout H W ch = Some v /\ is_window_max mi tin c H W ch v)
    /\ frame_ok tout m m'.
Proof.
  intros Hchk Hf Hs Fi Fo Bi Bo. 
  destruct (pool_run_ok (fun _ : Z => tt) (fun _ p w h col row => reduce_max2D mi p w h col row) mi m tin tout c fixed Hchk Hf Hs Fi Fo Bi Bo)
    as (m' & E & V & F).
  - intros p w h col row (Hw & Hh & _ & HA). destruct (reduce_max2D_ok mi p w h col row Hw Hh HA) as (v & E & _). eauto.
  - intros p w h col row K. eapply reduce_max2D_rot; eauto.
  - destruct (chk_pool_spec tin tout c fixed Hchk Hf Fi Fo) as (Ci & _ & (ih & iw & ic & sr & sc & Es & Et & P1 & P2 & P3) & (oh & ow & sr' & sc' & Es' & Et' & _) & _).
    exists m'. split; [exact E|]. split; [|exact F]. intros H W ch Hv. destruct (V H W ch Hv) as (Kt & Kl & v & Ev & Em).
    exists v. split; [exact Em|]. rewrite Et in Ev. cbn [nth] in Ev.
    assert (Kw : win_right c tin W <= iw) by (unfold win_right, dim; rewrite Es; cbn [nth]; lia).
    assert (Kb : win_bottom c tin H <= ih) by (unfold win_bottom, dim; rewrite Es; cbn [nth]; lia).
    assert (Hch : 0 <= ch < ic). { rewrite Es' in Hv. cbn [valid] in Hv. unfold dim in Hv. rewrite Es in Hv. cbn [nth] in Hv. lia. }
    assert (Ea : forall r cl, hwc_addr tin (win_top c H) (win_left c W) ch + sr * r + sc * cl = hwc_addr tin (win_top c H + r) (win_left c W + cl) ch).
    { intros. unfold hwc_addr. rewrite Et. cbn [addr]. ring. }
    destruct (reduce_max2D_ok mi (hwc_addr tin (win_top c H) (win_left c W) ch) (win_right c tin W - win_left c W) (win_bottom c tin H - win_top c H) sc sr ltac:(lia) ltac:(lia))
      as (v' & Ev' & (r & cl & Hr & Hc & X) & M).
    { intros r cl Hr Hc. rewrite Ea. apply (chk_backed tin mi Fi Ci Bi). rewrite Es. cbn [valid]. lia. }
    rewrite Ev in Ev'. injection Ev' as <-. split.
    + exists (win_top c H + r), (win_left c W + cl). rewrite in_window_iff. split; [lia|]. unfold hwc_elem. now rewrite <- Ea.
    + intros r1 cl1 x Hin Hx1. apply in_window_iff in Hin. apply (M (r1 - win_top c H) (cl1 - win_left c W)); [lia|lia|].
      rewrite Ea. replace (win_top c H + (r1 - win_top c H)) with r1 by ring. replace (win_left c W + (cl1 - win_left c W)) with cl1 by ring. exact Hx1.
Qed.

(** * Sum *)

Lemma zsum_rev n f : zsum 0 n f = zsum 0 n (fun i => f (n - 1 - i)).
Proof.
  assert (G : forall d : nat, forall f, zsum 0 (Z.of_nat d) f = zsum 0 (Z.of_nat d) (fun i => f (Z.of_nat d - 1 - i))).
  { induction d; intros g; [rewrite !zsum_nil by lia; reflexivity|].
    replace (Z.of_nat (S d)) with (Z.of_nat d + 1) by lia.
    rewrite zsum_snoc, IHd, (zsum_cons 0 (Z.of_nat d + 1)) by lia. change (0 + 1) with 1.
    replace (zsum 1 (Z.of_nat d + 1) (fun i => g (Z.of_nat d + 1 - 1 - i))) with (zsum (0 + 1) (Z.of_nat d + 1) (fun i => g (Z.of_nat d + 1 - 1 - i))) by reflexivity.
    rewrite zsum_shift. rewrite (zsum_ext 0 (Z.of_nat d) (fun i => g (Z.of_nat d + 1 - 1 - (i + 1))) (fun i => g (Z.of_nat d - 1 - i))) by (intros; f_equal; lia).
    replace (Z.of_nat d + 1 - 1 - 0) with (Z.of_nat d) by lia. lia. }
  destruct (Z.le_gt_cases 0 n); [|now rewrite !zsum_nil by lia].
  specialize (G (Z.to_nat n) f). now rewrite Z2Nat.id in G by lia.
Qed.

Lemma sum2D_rot m p w h col row : sum2D m (p + col * (w - 1)) h w row (- col) = sum2D m p w h col row.
Proof.
  unfold sum2D. rewrite zsum_rev. rewrite zsum_swap. apply zsum_ext. intros r _. apply zsum_ext. intros cl _. f_equal. ring.
Qed.

Lemma ok_box_area mi kh kw p w h col row : ok_box mi kh kw p w h col row -> area_ok mi p w h col row.
Proof. intros (_ & _ & _ & A) r cl Hr Hc. replace (p + r * row + cl * col) with (p + row * r + col * cl) by ring. now apply A. Qed.

(** The shape of an accepted input, for the theorems below. *)
Lemma pool_in_shape tin tout c fixed : chk_pool tin tout c fixed = ST_OK -> pool_fits tin tout c -> fits32 tin -> fits32 tout ->
  (exists sr sc, t_stride tin = [sr; sc; 1]) /\ 0 < dim tin 0 /\ 0 < dim tin 1.
Proof.
  intros Hchk Hf Fi Fo. destruct (chk_pool_spec tin tout c fixed Hchk Hf Fi Fo) as (_ & _ & (ih & iw & ic & sr & sc & Es & Et & P1 & P2 & P3) & _).
  split; [eauto|]. unfold dim. rewrite Es. cbn. auto.
Qed.

(** C54: sum pooling (8-bit input, 32-bit output). *)
Theorem sumpool_correct mi m tin tout c fixed :
  chk_pool tin tout c fixed = ST_OK -> pool_fits tin tout c -> pool_padding_small tin tout c ->
  fits32 tin -> fits32 tout -> backed tin mi -> backed tout m -> mem_bits 8 mi ->
  exists m', sumpool mi fixed tin tout c m = Some m'
    /\ (forall H W ch, valid (t_shape tout) [H; W; ch] -> hwc_elem m' tout H W ch = Some (window_sum mi tin c H W ch))
    /\ frame_ok tout m m'.
Proof.
  intros Hchk Hf Hs Fi Fo Bi Bo Mb.
  assert (U : 0 <= pl_kw c < 256 /\ 0 <= pl_kh c < 256) by (destruct Hf as (U1 & U2 & _); unfold in_ubits in *; lia).
  assert (R : forall p w h col row, ok_box mi (pl_kh c) (pl_kw c) p w h col row ->
    reduce_sum2D 32 mi p 1 0 w h col row = Some (sum2D mi p w h col row)).
  { intros p w h col row K. pose proof (ok_box_area _ _ _ _ _ _ _ _ K) as A. destruct K as (Hw & Hh & Hk & _).
    destruct (reduce_sum2D_ok 32 mi 0 128 p 1 0 w h col row) as [E _]; auto; try lia.
    - intros a. pose proof (proj1 (ib8 _) (rd_bits 8 mi a ltac:(lia) Mb)). lia.
    - assert (pl_kw c * pl_kh c <= 255 * 255) by (apply Z.mul_le_mono_nonneg; lia). change (smax 32) with 2147483647. lia.
    - rewrite E. f_equal. ring. }
  destruct (pool_run_ok (fun _ : Z => tt) (fun _ p w h col row => reduce_sum2D 32 mi p 1 0 w h col row) mi m tin tout c fixed Hchk Hf Hs Fi Fo Bi Bo)
    as (m' & E & V & F).
  - intros p w h col row K. rewrite (R _ _ _ _ _ K). eauto.
  - intros p w h col row K. rewrite (R _ _ _ _ _ K), (R _ _ _ _ _ (ok_box_rot _ _ _ _ _ _ _ _ K)). f_equal. apply sum2D_rot.
  - destruct (chk_pool_spec tin tout c fixed Hchk Hf Fi Fo) as (Ci & _ & (ih & iw & ic & sr & sc & Es & Et & P1 & P2 & P3) & (oh & ow & sr' & sc' & Es' & Et' & _) & _).
    exists m'. split; [exact E|]. split; [|exact F]. intros H W ch Hv. destruct (V H W ch Hv) as (Kt & Kl & v & Ev & Em).
    rewrite Em. f_equal. rewrite (window_sum_eq mi tin c H W ch sr sc Et) by (unfold dim; rewrite Es; cbn; lia).
    rewrite Et in Ev. cbn [nth] in Ev. rewrite R in Ev; [congruence|].
    assert (Hch : 0 <= ch < ic). { rewrite Es' in Hv. cbn [valid] in Hv. unfold dim in Hv. rewrite Es in Hv. cbn [nth] in Hv. lia. }
    split; [lia|]. split; [lia|]. split.
    { apply Z.mul_le_mono_nonneg; unfold win_right, win_left, win_bottom, win_top in *; lia. }
    intros r cl Hr Hc. replace (_ + sr * r + sc * cl) with (t_data tin + addr (t_stride tin) [win_top c H + r; win_left c W + cl; ch])
      by (unfold hwc_addr; rewrite Et; cbn [addr]; ring).
    apply (chk_backed tin mi Fi Ci Bi). rewrite Es. cbn [valid]. unfold win_right, win_bottom, dim in *. rewrite Es in *. cbn [nth] in *.
    unfold win_left, win_top in *. lia.
Qed.

(** * Average *)

(** Multiplier and shift of a window size: mul / 2^s is 1/K, rounded down, with a relative error below 2^-13. *)
Definition recip_ok (K : Z) : bool :=
  let '(mul, s) := get_mul_shift K in
  (2 ^ 14 <=? mul) && (mul <? 2 ^ 15) && (14 <=? s) && (s <=? 30) && (mul * K <=? 2 ^ s) && (2 ^ s - mul * K <? 2 * K)
  && ((1023 <? K) || ((mul * K * 128 <=? 2 ^ 31 - 1) && (s <=? 24))) && ((511 <? K) || (s <=? 23)).

Lemma recip_small : forallb recip_ok (zrange 1 1024) = true.
Proof. vm_compute. reflexivity. Qed.

Lemma recip_arith K v M N r : 2 ^ 31 = v * K + r -> 0 <= r < K -> 0 <= N <= 2 ^ 17 -> M * 2 ^ 17 <= v * N < (M + 1) * 2 ^ 17 ->
  0 <= 2 ^ 14 * N - M * K < 2 * K.
Proof.
  intros E Hr HN HM. change (2 ^ 31) with (2 ^ 14 * 2 ^ 17) in E. change (2 ^ 17) with 131072 in *. change (2 ^ 14) with 16384 in *.
  assert (X : (16384 * N - M * K) * 131072 = K * (v * N - M * 131072) + r * N) by nia.
  assert (0 <= K * (v * N - M * 131072)) by (apply Z.mul_nonneg_nonneg; lia).
  assert (K * (v * N - M * 131072) <= K * 131071) by (apply Z.mul_le_mono_nonneg_l; lia).
  assert (0 <= r * N) by (apply Z.mul_nonneg_nonneg; lia).
  assert (r * N <= K * 131072) by (apply Z.mul_le_mono_nonneg; lia).
  lia.
Qed.

Lemma recip_large K : 1023 < K <= 65025 ->
  let '(mul, s) := get_mul_shift K in
  2 ^ 14 <= mul < 2 ^ 15 /\ 14 <= s <= 30 /\ 0 <= 2 ^ s - mul * K < 2 * K.
Proof.
  intros HK. unfold get_mul_shift. destruct (Z.ltb_spec K 32); [lia|]. unfold calc_mul.
  destruct (Z.gtb_spec K 1); [|lia]. cbv zeta.
  set (v := 2 ^ 31 / K). pose proof (Z.div_mod (2 ^ 31) K ltac:(lia)) as D. pose proof (Z.mod_pos_bound (2 ^ 31) K ltac:(lia)) as R.
  fold v in D. change (2 ^ 31) with 2147483648 in D at 1.
  assert (Bv : 32768 <= v <= 2147483647). { split; [apply Z.div_le_lower_bound; lia|]. apply Z.lt_succ_r. apply Z.div_lt_upper_bound; lia. }
  assert (Iv : in_bits 32 v) by (apply ib32; lia). rewrite (wrap_id 32 v) by (auto; lia).
  destruct (norm_fx_pos 32 v ltac:(lia) Iv ltac:(lia)) as [A B]. pose proof (norm_fx_range 32 v ltac:(lia) Iv) as Rn.
  set (k := norm_fx 32 v) in *. change (2 ^ (32 - 2)) with 1073741824 in A. change (2 ^ (32 - 1)) with 2147483648 in A.
  rewrite Z.shiftl_mul_pow2 by lia. pose proof (pow2_succ (k + 1) ltac:(lia)) as P. replace (k + 1 - 1) with k in P by lia.
  set (N := 2 ^ (k + 1)) in *. set (n := 2 ^ k) in *.
  assert (U : uwrap 32 (v * N) = v * N). { unfold uwrap. apply Z.mod_small. change (2 ^ 32) with 4294967296. nia. }
  rewrite U, shiftr_div by lia. set (M := v * N / 2 ^ 17).
  assert (HM : M * 2 ^ 17 <= v * N < (M + 1) * 2 ^ 17).
  { pose proof (Z.div_mod (v * N) (2 ^ 17) ltac:(lia)) as D2. pose proof (Z.mod_pos_bound (v * N) (2 ^ 17) ltac:(lia)). fold M in D2. lia. }
  assert (BN : 0 <= N < 2 ^ 17). { change (2 ^ 17) with 131072. assert (0 < n) by (apply pow2_gt0; lia). clear - A Bv P H0. nia. }
  assert (BM : 2 ^ 14 <= M < 2 ^ 15). { change (2 ^ 14) with 16384. change (2 ^ 15) with 32768. change (2 ^ 17) with 131072 in *. clear - A P HM. nia. }
  assert (k + 1 <= 16). { apply Z.nlt_ge. intros X. assert (2 ^ 17 <= N) by (apply pow2_le; lia). lia. }
  rewrite wrap_id; [|lia|apply ib16; change (2 ^ 14) with 16384 in *; change (2 ^ 15) with 32768 in *; lia].
  split; [auto|]. split; [lia|]. rewrite Z.pow_add_r by lia. fold N.
  apply (recip_arith K v M N (2 ^ 31 mod K)); auto; lia.
Qed.

Lemma recip_spec K : 1 <= K <= 65025 ->
  let '(mul, s) := get_mul_shift K in
  2 ^ 14 <= mul < 2 ^ 15 /\ 14 <= s <= 30 /\ 0 <= 2 ^ s - mul * K < 2 * K
  /\ (K <= 1023 -> mul * K * 128 <= 2 ^ 31 - 1 /\ s <= 24) /\ (K <= 511 -> s <= 23).
Proof.
  intros HK. destruct (Z_lt_le_dec 1023 K).
  { pose proof (recip_large K ltac:(lia)) as L. destruct (get_mul_shift K) as [mul s]. destruct L as (L1 & L2 & L3).
    split; [auto|]. split; [auto|]. split; [auto|]. split; lia. }
  assert (I : In K (zrange 1 1024)) by (apply in_zrange; lia).
  pose proof (proj1 (forallb_forall recip_ok (zrange 1 1024)) recip_small K I) as A. clear I.
  unfold recip_ok in A. destruct (get_mul_shift K) as [mul s].
  repeat (apply andb_true_iff in A; let X := fresh "B" in destruct A as [A X]).
  apply Z.leb_le in A. apply Z.ltb_lt in B5. apply Z.leb_le in B4. apply Z.leb_le in B3. apply Z.leb_le in B2. apply Z.ltb_lt in B1.
  split; [auto|]. split; [auto|]. split; [lia|]. split.
  - intros Hk. apply orb_true_iff in B0. destruct B0 as [B0|B0]; [apply Z.ltb_lt in B0; lia|].
    apply andb_true_iff in B0. destruct B0 as [B0 B0']. apply Z.leb_le in B0, B0'. auto.
  - intros Hk. apply orb_true_iff in B. destruct B as [B|B]; [apply Z.ltb_lt in B; lia|]. now apply Z.leb_le in B.
Qed.

(** Mean of the elements of channel [ch] in the window. *)
Definition window_mean (mi : mem) (tin : tensor) (c : pool_cfg) (H W ch : Z) : Q :=
  (inject_Z (window_sum mi tin c H W ch) / inject_Z (window_count tin c H W))%Q.

Lemma sum2D_bounds m p w h col row lo hi : 0 <= w -> 0 <= h -> (forall a, lo <= rd m a <= hi) ->
  w * h * lo <= sum2D m p w h col row <= w * h * hi.
Proof.
  intros Hw Hh B. unfold sum2D. split.
  - apply Z.le_trans with (zsum 0 h (fun _ => zsum 0 w (fun _ => lo))).
    + rewrite !zsum_const by lia. lia.
    + apply zsum_le. intros. apply zsum_le. intros. apply B.
  - apply Z.le_trans with (zsum 0 h (fun _ => zsum 0 w (fun _ => hi))).
    + apply zsum_le. intros. apply zsum_le. intros. apply B.
    + rewrite !zsum_const by lia. lia.
Qed.

Lemma asl_fx_0 n k : 1 <= n -> asl_fx n 0 k = 0.
Proof.
  intros Hn. unfold asl_fx. destruct (Z.ltb_spec k 0).
  - unfold asr_pos_fx. destruct (- k >? n - 1); [reflexivity|]. apply Z.shiftr_0_l.
  - destruct (k >? n - 1); [reflexivity|]. rewrite Z.shiftr_0_l, Z.shiftl_0_l. reflexivity.
Qed.

(** Conversion of the accumulator to the output type. *)
Lemma ave_store rm nacc no x k : 1 <= no -> no < nacc -> in_bits nacc x -> (rnd_safe rm nacc x k \/ k <= nacc - no) ->
  wrap no (sat_fx nacc (asr_rnd_fx rm nacc x k) (nacc - no)) = sat no (scale_rnd rm x k).
Proof.
  intros H1 H2 Hx Hs. rewrite sat_fx_spec; [|lia|apply asr_rnd_in_bits; auto; lia|lia].
  replace (nacc - (nacc - no)) with no by lia. rewrite wrap_id by (try apply sat_in_bits; lia).
  unfold scale_rnd. rewrite <- (cast_narrow_exact rm nacc no x k) by auto. symmetry. apply cast_narrow_spec; auto; lia.
Qed.

(** FX accumulator width, element width, window area and fractional bits for which the accumulator cannot overflow. *)
Definition ave_fx_ok (nacc no area fi fo : Z) : Prop :=
  (nacc = 64 /\ no = 16) \/ (nacc = 32 /\ no = 8 /\ area <= 1023 /\ (fi <= fo \/ area <= 511)).

Lemma ave_fx_value rm nacc no mi kh kw fi fo p w h col row :
  0 <= kw <= 255 -> 0 <= kh <= 255 -> ave_fx_ok nacc no (kw * kh) fi fo -> mem_bits no mi -> ok_box mi kh kw p w h col row ->
  let '(mul, s) := get_mul_shift (w * h) in
  compute_avepool rm nacc no mi (ave_fx (fi - fo) (w * h)) p w h col row
  = Some (sat no (scale_rnd rm (mul * sum2D mi p w h col row) (fi - fo + s))).
Proof.
  intros Hkw Hkh Hok Mb K. pose proof (ok_box_area _ _ _ _ _ _ _ _ K) as A. destruct K as (Hw & Hh & Hk & _).
  assert (KK : kw * kh <= 255 * 255) by (apply Z.mul_le_mono_nonneg; lia).
  assert (K1 : 1 <= w * h) by (clear - Hw Hh; nia).
  pose proof (recip_spec (w * h) ltac:(lia)) as R.
  unfold compute_avepool, ave_fx. destruct (get_mul_shift (w * h)) as [mul s] eqn:Eg. cbn [av_mul av_zp av_shift].
  destruct R as (R1 & R2 & R3 & R4 & R5). set (k := fi - fo + s). set (S := sum2D mi p w h col row).
  change (wrap 16 0) with 0. rewrite asl_fx_0 by (destruct Hok as [[-> _]|[-> _]]; lia).
  destruct Hok as [[-> ->]|(-> & -> & Ha & Hf)].
  - assert (B : forall a, -32768 <= rd mi a <= 32767) by (intros a; apply (proj1 (ib16 _)); apply rd_bits; auto; lia).
    destruct (reduce_sum2D_ok 64 mi 0 (mul * 32768) p mul 0 w h col row) as [E C]; auto; try lia.
    { intros a. specialize (B a). rewrite Z.abs_mul. apply Z.mul_le_mono_nonneg; lia. }
    { change (2 ^ 15) with 32768 in *. change (smax 64) with 9223372036854775807.
      assert (mul * 32768 <= 32768 * 32768) by lia. assert (h * w * (mul * 32768) <= 65025 * (32768 * 32768)) by (apply Z.mul_le_mono_nonneg; lia). lia. }
    rewrite E. cbn [bind]. rewrite Z.add_0_l. f_equal. fold S in C |- *.
    assert (Cb : Z.abs (mul * S) <= 2 ^ 62 - 1).
    { change (2 ^ 15) with 32768 in *. assert (h * w * (mul * 32768) <= 65025 * (32768 * 32768)) by (apply Z.mul_le_mono_nonneg; lia). change (2 ^ 62) with 4611686018427387904. lia. }
    apply ave_store; [lia|lia| |left; apply small_rnd_safe; auto; lia].
    apply ib64. change (2 ^ 62) with 4611686018427387904 in Cb. lia.
  - assert (B : forall a, -128 <= rd mi a <= 127) by (intros a; apply (proj1 (ib8 _)); apply rd_bits; auto; lia).
    destruct (R4 ltac:(lia)) as [R4a R4b].
    destruct (reduce_sum2D_ok 32 mi 0 (mul * 128) p mul 0 w h col row) as [E C]; auto; try lia.
    { intros a. specialize (B a). rewrite Z.abs_mul. apply Z.mul_le_mono_nonneg; lia. }
    { change (smax 32) with (2 ^ 31 - 1). lia. }
    rewrite E. cbn [bind]. rewrite Z.add_0_l. f_equal. fold S in C |- *.
    pose proof (sum2D_bounds mi p w h col row (-128) 127 ltac:(lia) ltac:(lia) B) as SB. fold S in SB.
    apply ave_store; [lia|lia| |].
    { apply ib32. change (2 ^ 31) with 2147483648 in *. lia. }
    destruct Hf as [Hf|Hf]; [right; unfold k; lia|]. left. specialize (R5 ltac:(lia)).
    destruct rm; cbn; auto. destruct (Z_le_gt_dec k 0); [auto|]. destruct (Z_lt_ge_dec 31 k); [auto|]. right; right.
    assert (P1 : 2 ^ (k - 1) <= 2 ^ 30) by (apply pow2_le; lia).
    assert (P2 : 2 ^ s <= 2 ^ 23) by (apply pow2_le; lia).
    assert (mul * S <= mul * (w * h * 127)) by (apply Z.mul_le_mono_nonneg_l; lia).
    change (2 ^ 30) with 1073741824 in P1. change (2 ^ 23) with 8388608 in P2. change (smax 32) with 2147483647. lia.
Qed.

(** The approximate reciprocal. *)
Lemma recip_err K mul s S : 0 < K -> 0 <= s -> 2 ^ 14 <= mul -> 0 <= 2 ^ s - mul * K < 2 * K ->
  let mean := (inject_Z S / inject_Z K)%Q in within (Qabs mean * (1 # 8192)) (fxval s (mul * S)) mean.
Proof.
  intros HK Hs Hm HE mean.
  assert (K' : (0 < inject_Z K)%Q) by (change 0%Q with (inject_Z 0); apply inj_lt; auto).
  assert (Es : (inject_Z S == mean * inject_Z K)%Q) by (unfold mean; field; lra).
  set (P := inject_Z (2 ^ s)). assert (P' : (0 < P)%Q) by (change 0%Q with (inject_Z 0); apply inj_lt; apply pow2_gt0; auto).
  assert (Ev : (fxval s (mul * S) == mean * (inject_Z (mul * K) / P))%Q).
  { unfold fxval. rewrite pow2q_inv, pow2q_nonneg by lia. fold P. rewrite !inject_Z_mult, Es. field. lra. }
  assert (T : (0 <= 1 - inject_Z (mul * K) / P <= 1 # 8192)%Q).
  { assert (X1 : (inject_Z (mul * K) <= P)%Q) by (apply inj_le; lia).
    assert (X2 : (P * (8191 # 8192) <= inject_Z (mul * K))%Q).
    { unfold P. assert (2 ^ s * 8191 <= mul * K * 8192).
      { change (2 ^ 14) with 16384 in Hm. nia. }
      apply (proj2 (inj_le _ _)) in H. rewrite !inject_Z_mult in *. change (inject_Z 8191) with 8191%Q in H. change (inject_Z 8192) with 8192%Q in H. lra. }
    assert (X3 : (inject_Z (mul * K) == inject_Z (mul * K) / P * P)%Q) by (field; lra).
    rewrite X3 in X1, X2. set (q := (inject_Z (mul * K) / P)%Q) in *. split; nra. }
  unfold within. rewrite Ev. set (t := (inject_Z (mul * K) / P)%Q) in *.
  setoid_replace (mean * t - mean)%Q with (- (mean * (1 - t)))%Q by ring. rewrite Qabs_opp, Qabs_Qmult, (Qabs_pos (1 - t)) by lra.
  pose proof (Qabs_nonneg mean). nra.
Qed.

(** Saturation does not increase the distance to a value inside the range. *)
Lemma sat_within n e r x : 1 <= n -> (within e (inject_Z r) x -> within e (inject_Z (sat n r)) (qclamp (inject_Z (smin n)) (inject_Z (smax n)) x))%Q.
Proof.
  intros Hn H. pose proof (smin_le_smax n Hn) as L. unfold within in *. apply Qabs_Qle_condition in H. apply Qabs_Qle_condition.
  unfold sat, clamp, qclamp. set (a := smin n) in *. set (b := smax n) in *. clearbody a b.
  apply (proj2 (inj_le a b)) in L.
  destruct (Qle_bool x (inject_Z a)) eqn:E1; [apply Qle_bool_iff in E1|
    assert (~ (x <= inject_Z a)%Q) by (rewrite <- Qle_bool_iff; congruence); clear E1].
  - destruct (Z.max_spec a (Z.min b r)) as [[M1 ->]|[M1 ->]]; [|lra].
    destruct (Z.min_spec b r) as [[M2 M3]|[M2 M3]]; rewrite M3 in *; [|apply Z.lt_le_incl, (proj2 (inj_le _ _)) in M1; lra].
    apply Z.lt_le_incl, (proj2 (inj_le _ _)) in M1, M2. lra.
  - destruct (Qle_bool (inject_Z b) x) eqn:E2; [apply Qle_bool_iff in E2|
    assert (~ (inject_Z b <= x)%Q) by (rewrite <- Qle_bool_iff; congruence); clear E2].
    + destruct (Z.min_spec b r) as [[M2 M3]|[M2 M3]]; rewrite M3 in *.
      * destruct (Z.max_spec a b) as [[M1 ->]|[M1 ->]]; [lra|]. apply (proj2 (inj_le _ _)) in M1. lra.
      * apply (proj2 (inj_le _ _)) in M2. destruct (Z.max_spec a r) as [[M1 ->]|[M1 ->]]; [lra|]. apply (proj2 (inj_le _ _)) in M1. lra.
    + destruct (Z.min_spec b r) as [[M2 M3]|[M2 M3]]; rewrite M3 in *.
      * apply Z.lt_le_incl, (proj2 (inj_le _ _)) in M2. destruct (Z.max_spec a b) as [[M1 ->]|[M1 ->]]; [lra|]. apply (proj2 (inj_le _ _)) in M1. lra.
      * apply (proj2 (inj_le _ _)) in M2. destruct (Z.max_spec a r) as [[M1 ->]|[M1 ->]]; [lra|]. apply (proj2 (inj_le _ _)) in M1. lra.
Qed.

Lemma within_tri e1 e2 a b c : (within e1 a b -> within e2 b c -> within (e1 + e2) a c)%Q.
Proof.
  unfold within. intros H1 H2. apply Qabs_Qle_condition in H1, H2. apply Qabs_Qle_condition. lra.
Qed.

Lemma within_sym e a b : within e a b -> within e b a.
Proof. unfold within. intros H. apply Qabs_Qle_condition in H. apply Qabs_Qle_condition. lra. Qed.

(** C28, FX: the output is the mean of the window in the output format, clipped to its range, with an error of half
    a unit plus 2^-13 of the mean. *)
Theorem avepool_fx_correct rm nacc no mi m tin tout c fixed fi fo :
  chk_pool tin tout c fixed = ST_OK -> pool_fits tin tout c -> pool_padding_small tin tout c ->
  fits32 tin -> fits32 tout -> backed tin mi -> backed tout m ->
  ave_fx_ok nacc no (pl_kw c * pl_kh c) fi fo -> mem_bits no mi ->
  exists m', avepool_fx rm nacc no mi fixed tin tout c fi fo m = Some m'
    /\ (forall H W ch, valid (t_shape tout) [H; W; ch] ->
          0 < window_count tin c H W /\
          let exact := (window_mean mi tin c H W ch * pow2q (fo - fi))%Q in
          exists v, hwc_elem m' tout H W ch = Some v
            /\ within ((1 # 2) + Qabs exact * (1 # 8192)) (inject_Z v) (qclamp (inject_Z (smin no)) (inject_Z (smax no)) exact))
    /\ frame_ok tout m m'.
Proof.
  intros Hchk Hf Hs Fi Fo Bi Bo Ha Mb.
  assert (U : 0 <= pl_kw c <= 255 /\ 0 <= pl_kh c <= 255) by (destruct Hf as (U1 & U2 & _); unfold in_ubits in *; lia).
  destruct U as [U1 U2].
  pose proof (fun p w h col row => ave_fx_value rm nacc no mi (pl_kh c) (pl_kw c) fi fo p w h col row U1 U2 Ha Mb) as V.
  destruct (pool_run_ok (ave_fx (fi - fo)) (compute_avepool rm nacc no mi) mi m tin tout c fixed Hchk Hf Hs Fi Fo Bi Bo)
    as (m' & E & R & F).
  - intros p w h col row K. specialize (V p w h col row K). destruct (get_mul_shift (w * h)). eauto.
  - intros p w h col row K. pose proof (V _ _ _ _ _ (ok_box_rot _ _ _ _ _ _ _ _ K)) as V'. specialize (V p w h col row K).
    rewrite (Z.mul_comm h w) in V'. destruct (get_mul_shift (w * h)). rewrite V, V'. now rewrite sum2D_rot.
  - destruct (chk_pool_spec tin tout c fixed Hchk Hf Fi Fo) as (Ci & _ & (ih & iw & ic & sr & sc & Es & Et & P1 & P2 & P3) & (oh & ow & sr' & sc' & Es' & Et' & _) & _).
    exists m'. split; [exact E|]. split; [|exact F]. intros H W ch Hv. destruct (R H W ch Hv) as (Kt & Kl & v & Ev & Em).
    rewrite window_count_eq by (try (unfold dim; rewrite Es; cbn [nth]); lia).
    set (w := win_right c tin W - win_left c W) in *. set (h := win_bottom c tin H - win_top c H) in *.
    assert (Hwh : 1 <= w /\ 1 <= h) by (unfold w, h; lia).
    assert (K1 : 0 < w * h) by (clear - Hwh; nia). split; [exact K1|]. intros exact.
    exists v. split; [exact Em|].
    assert (Kb : w <= pl_kw c /\ h <= pl_kh c) by (unfold w, h, win_right, win_left, win_bottom, win_top; lia).
    assert (Kc : w * h <= pl_kw c * pl_kh c) by (apply Z.mul_le_mono_nonneg; lia).
    assert (Box : ok_box mi (pl_kh c) (pl_kw c) (hwc_addr tin (win_top c H) (win_left c W) ch) w h sc sr).
    { assert (Hch : 0 <= ch < ic). { rewrite Es' in Hv. cbn [valid] in Hv. unfold dim in Hv. rewrite Es in Hv. cbn [nth] in Hv. lia. }
      split; [lia|]. split; [lia|]. split; [exact Kc|]. intros r cl Hr Hc.
      replace (_ + sr * r + sc * cl) with (t_data tin + addr (t_stride tin) [win_top c H + r; win_left c W + cl; ch])
        by (unfold hwc_addr; rewrite Et; cbn [addr]; ring).
      apply (chk_backed tin mi Fi Ci Bi). rewrite Es. cbn [valid]. unfold w, h, win_right, win_bottom, dim in *. rewrite Es in *. cbn [nth] in *.
      unfold win_left, win_top in *. lia. }
    rewrite Et in Ev. cbn [nth] in Ev.
    specialize (V _ _ _ _ _ Box).
    pose proof (recip_spec (w * h)) as Rs. destruct (get_mul_shift (w * h)) as [mul s] eqn:Eg. rewrite V in Ev. injection Ev as <-.
    destruct Rs as (R1 & R2 & R3 & _).
    { split; [lia|]. apply Z.le_trans with (1 := Kc). apply (Z.mul_le_mono_nonneg (pl_kw c) 255 (pl_kh c) 255); lia. }
    apply sat_within. { destruct Ha as [[_ ->]|(_ & -> & _)]; lia. }
    set (S := sum2D mi _ w h sc sr) in *.
    assert (ES : window_sum mi tin c H W ch = S).
    { apply window_sum_eq; auto; unfold dim; rewrite Es; cbn; lia. }
    pose proof (recip_err (w * h) mul s S K1 ltac:(lia) ltac:(lia) R3) as Er. cbv zeta in Er.
    assert (Ex : (exact == inject_Z S / inject_Z (w * h) * pow2q (fo - fi))%Q).
    { unfold exact, window_mean. rewrite ES, window_count_eq by (try (unfold dim; rewrite Es; cbn [nth]); lia). reflexivity. }
    set (mean := (inject_Z S / inject_Z (w * h))%Q) in *.
    apply (within_scale _ _ _ (pow2q (fo - fi))) in Er; [|pose proof (pow2q_pos (fo - fi)); lra].
    eapply within_tri. { apply within_sym. apply scale_rnd_within. }
    revert Er. apply within_compat.
    + rewrite Ex, Qabs_Qmult, (Qabs_pos (pow2q (fo - fi))) by (pose proof (pow2q_pos (fo - fi)); lra). ring.
    + unfold fxval. rewrite <- Qmult_assoc, <- pow2q_plus. replace (- s + (fo - fi)) with (- (fi - fo + s)) by lia. reflexivity.
    + symmetry. exact Ex.
Qed.

(** ** SA8 *)

(** Normalization of a product of two 15-bit multipliers to [nb] bits. *)
Lemma norm_to_nb rm nb x : nb = 8 \/ nb = 16 -> 2 ^ 28 <= x < 2 ^ 30 ->
  let '(mul, ns) := norm_cast_fx rm 32 nb x in
  2 ^ (nb - 2) <= mul <= 2 ^ (nb - 1) - 1 /\ 0 <= ns <= 31 /\ Z.abs (mul * 2 ^ ns - x) * (2 ^ (nb - 1) - 1) <= x.
Proof.
  intros Hnb Hx. unfold norm_cast_fx. replace (nb <? 32) with true by (symmetry; apply Z.ltb_lt; lia).
  assert (Ib : in_bits 32 x). { apply ib32. change (2 ^ 28) with 268435456 in Hx. change (2 ^ 30) with 1073741824 in Hx. lia. }
  destruct (norm_fx_pos 32 x ltac:(lia) Ib ltac:(lia)) as [A B]. pose proof (norm_fx_range 32 x ltac:(lia) Ib) as Rn.
  change (32 - 2) with 30 in *. change (32 - 1) with 31 in *. set (k := norm_fx 32 x) in *.
  assert (Hk : k <= 3). { apply Z.nlt_ge. intros X. assert (2 ^ 4 <= 2 ^ k) by (apply pow2_le; lia). change (2 ^ 4) with 16 in *. nia. }
  set (s := 32 - nb - k). rewrite cast_narrow_exact by (try (right; unfold s); auto; lia).
  destruct (Z.leb_spec 0 s); [|unfold s in *; lia].
  assert (P : 2 ^ k * 2 ^ s * 2 ^ nb = 2 ^ 32) by (rewrite <- !pow2_split by (unfold s in *; lia); f_equal; unfold s; lia).
  pose proof (pow2_gt0 s ltac:(lia)) as Ps. pose proof (pow2_gt0 k ltac:(lia)) as Pk.
  pose proof (rnd_nearest rm x s ltac:(lia)) as N.
  assert (N1 : - 2 ^ s <= 2 * (x - rnd rm x s * 2 ^ s) <= 2 ^ s).
  { destruct rm; unfold nearest, nearest_up, nearest_even in N; lia. }
  unfold sat, clamp, smin, smax. set (q := 2 ^ (nb - 2)).
  assert (Q1 : 2 ^ (nb - 1) = 2 * q) by (unfold q; rewrite (pow2_succ (nb - 1)) by lia; do 2 f_equal; lia).
  assert (Q2 : 2 ^ nb = 4 * q). { rewrite (pow2_succ nb) by lia. rewrite Q1. lia. }
  assert (Q3 : 64 <= q). { unfold q. destruct Hnb as [-> | ->]; [change (2 ^ (8 - 2)) with 64|change (2 ^ (16 - 2)) with 16384]; lia. }
  rewrite Q1. rewrite Q2 in P. clearbody q. set (p := 2 ^ s) in *. set (m := 2 ^ k) in *. set (v := rnd rm x s) in *.
  change (2 ^ 30) with 1073741824 in A. change (2 ^ 31) with 2147483648 in A. change (2 ^ 32) with 4294967296 in P.
  assert (A1 : q * p <= x < 2 * q * p). { clear - A P Pk Ps Q3. nia. }
  assert (V : q <= v <= 2 * q). { clear - A1 N1 Ps. nia. }
  split; [lia|]. split; [unfold s in *; lia|].
  destruct (Z.eq_dec v (2 * q)) as [e|ne].
  - replace (Z.max (- (2 * q)) (Z.min (2 * q - 1) v)) with (2 * q - 1) by lia. rewrite e in N1. clear - A1 N1 Ps Q3. nia.
  - replace (Z.max (- (2 * q)) (Z.min (2 * q - 1) v)) with v by lia.
    assert (Z.abs (v * p - x) * 2 <= p) by lia. clear - H0 A1 Ps Q3. nia.
Qed.

(** Relative errors of positive quantities. *)
Definition rel (e a b : Q) : Prop := (0 < b /\ within (e * b) a b)%Q.

Lemma rel_bounds e a b : (rel e a b <-> 0 < b /\ (1 - e) * b <= a /\ a <= (1 + e) * b)%Q.
Proof.
  unfold rel, within. rewrite Qabs_Qle_condition. split.
  - intros (H & H1 & H2). split; [auto|]. lra.
  - intros (H & H1 & H2). split; [auto|]. lra.
Qed.

Lemma rel_mul e1 e2 a b a' b' : (0 <= e1 <= 1 -> 0 <= e2 <= 1 -> rel e1 a b -> rel e2 a' b' -> rel (e1 + e2 + e1 * e2) (a * a') (b * b'))%Q.
Proof.
  intros H1 H2 R1 R2. apply rel_bounds in R1. apply rel_bounds in R2. apply rel_bounds.
  destruct R1 as (P & A & B). destruct R2 as (P' & A' & B').
  assert (L1 : (0 <= (1 - e1) * b)%Q) by (apply Qmult_le_0_compat; lra).
  assert (L2 : (0 <= (1 - e2) * b')%Q) by (apply Qmult_le_0_compat; lra).
  split; [nra|]. split.
  - apply Qle_trans with (((1 - e1) * b) * ((1 - e2) * b'))%Q.
    + setoid_replace ((1 - e1) * b * ((1 - e2) * b'))%Q with ((1 - e1) * (1 - e2) * (b * b'))%Q by ring.
      apply Qmult_le_compat_r; [|nra]. nra.
    + apply Qle_trans with (a * ((1 - e2) * b'))%Q; [apply Qmult_le_compat_r; auto|].
      rewrite !(Qmult_comm a). apply Qmult_le_compat_r; lra.
  - apply Qle_trans with (((1 + e1) * b) * ((1 + e2) * b'))%Q.
    + apply Qle_trans with (a * ((1 + e2) * b'))%Q.
      * rewrite !(Qmult_comm a). apply Qmult_le_compat_r; lra.
      * apply Qmult_le_compat_r; [auto|]. nra.
    + setoid_replace ((1 + e1) * b * ((1 + e2) * b'))%Q with ((1 + e1) * (1 + e2) * (b * b'))%Q by ring.
      apply Qmult_le_compat_r; [|nra]. nra.
Qed.

Lemma rel_trans e1 e2 a b c : (0 <= e1 <= 1 -> 0 <= e2 <= 1 -> rel e1 a b -> rel e2 b c -> rel (e1 + e2 + e1 * e2) a c)%Q.
Proof.
  intros H1 H2 R1 R2. apply rel_bounds in R1. apply rel_bounds in R2. apply rel_bounds.
  destruct R1 as (P & A & B). destruct R2 as (P' & A' & B'). split; [auto|].
  split.
  - apply Qle_trans with ((1 - e1) * ((1 - e2) * c))%Q; [|apply Qle_trans with ((1 - e1) * b)%Q; [|auto]].
    + setoid_replace ((1 - e1) * ((1 - e2) * c))%Q with ((1 - e1) * (1 - e2) * c)%Q by ring. apply Qmult_le_compat_r; [nra|lra].
    + rewrite !(Qmult_comm (1 - e1)). apply Qmult_le_compat_r; lra.
  - apply Qle_trans with ((1 + e1) * ((1 + e2) * c))%Q; [apply Qle_trans with ((1 + e1) * b)%Q; [auto|]|].
    + rewrite !(Qmult_comm (1 + e1)). apply Qmult_le_compat_r; lra.
    + setoid_replace ((1 + e1) * ((1 + e2) * c))%Q with ((1 + e1) * (1 + e2) * c)%Q by ring. apply Qmult_le_compat_r; [nra|lra].
Qed.

Lemma rel_weaken e e' a b : (e <= e' -> rel e a b -> rel e' a b)%Q.
Proof.
  intros He [P W]. split; [auto|]. revert W. unfold within. intros W. apply Qle_trans with (1 := W). apply Qmult_le_compat_r; lra.
Qed.

Lemma rel_compat e a b a' b' : (a == a' -> b == b' -> rel e a b -> rel e a' b')%Q.
Proof. unfold rel, within. intros -> ->. auto. Qed.

(** Accuracy of the multiplier: 8-bit (the default) or 16-bit. *)
Definition ave_rel (mul16 : bool) : Q := if mul16 then 1 # 4096 else 1 # 100.
(** Limit on area * (1 / ratio + 2) below which nothing saturates. *)
Definition ave_lim (mul16 : bool) : Q := if mul16 then 234 else 60000.

Lemma fxval_pos f x : 0 < x -> (0 < fxval f x)%Q.
Proof.
  intros H. unfold fxval. pose proof (pow2q_pos (- f)). assert (0 < inject_Z x)%Q by (change 0%Q with (inject_Z 0); apply inj_lt; auto). nra.
Qed.

Lemma fxval_mul f g x y : (fxval (f + g) (x * y) == fxval f x * fxval g y)%Q.
Proof.
  unfold fxval. rewrite inject_Z_mult. replace (- (f + g)) with (- f + - g) by lia. rewrite pow2q_plus. ring.
Qed.

Definition scale_ratio (i o : qpar) : Q := (real_scale (q_scale i) (q_frac i) / real_scale (q_scale o) (q_frac o))%Q.

Lemma scale_ratio_pos i o : qpar_ok i -> qpar_ok o -> (0 < scale_ratio i o)%Q.
Proof.
  intros (Hi & _) (Ho & _). unfold scale_ratio, real_scale. apply Qlt_shift_div_l; [apply fxval_pos; lia|].
  rewrite Qmult_0_l. apply fxval_pos; lia.
Qed.

Lemma norm_rel mul ns x M t : 0 < M -> 0 < x -> 0 <= ns -> Z.abs (mul * 2 ^ ns - x) * M <= x ->
  rel (1 / inject_Z M) (fxval (t - ns) mul) (fxval t x).
Proof.
  intros HM Hx Hn HE. split; [now apply fxval_pos|].
  pose proof (pow2q_pos (- t)) as ZP.
  assert (MQ : (0 < inject_Z M)%Q) by (change 0%Q with (inject_Z 0); apply inj_lt; lia).
  pose proof (within_ratio (mul * 2 ^ ns) x 1 M ltac:(lia) HM ltac:(rewrite Z.mul_1_r; lia)) as WR.
  apply (within_scale _ _ _ (pow2q (- t))) in WR; [|lra]. revert WR. unfold fxval.
  apply within_compat.
  - change (inject_Z 1) with 1%Q. field. lra.
  - assert (E : (pow2q (- (t - ns)) == inject_Z (2 ^ ns) * pow2q (- t))%Q).
    { replace (- (t - ns)) with (ns + - t) by lia. rewrite pow2q_plus, (pow2q_nonneg ns) by lia. reflexivity. }
    rewrite inject_Z_mult. rewrite <- Qmult_assoc. rewrite E. reflexivity.
  - change (inject_Z 1) with 1%Q. field.
Qed.

(** The multiplier and shift of SA8 average pooling represent ratio / K. *)
Lemma ave_sa_factor rm (mul16 : bool) i o K : qpar_ok i -> qpar_ok o -> 1 <= K <= 65025 ->
  let nb := if mul16 then 16 else 8 in
  let par := ave_sa rm mul16 (define_requant_params rm i o) K in
  2 ^ (nb - 2) <= av_mul par <= 2 ^ (nb - 1) - 1 /\ av_zp par = rq_offset (define_requant_params rm i o)
  /\ rel (ave_rel mul16) (fxval (av_shift par) (av_mul par)) (scale_ratio i o / inject_Z K).
Proof.
  intros Hi Ho HK nb par.
  pose proof (requant_ratio rm i o Hi Ho) as RR. cbv zeta in RR. fold (scale_ratio i o) in RR. destruct RR as [RB RW].
  pose proof (recip_spec K HK) as RK. unfold par, ave_sa. set (rq := define_requant_params rm i o) in *.
  destruct (get_mul_shift K) as [mul0 s]. destruct RK as (K1 & K2 & K3 & _).
  assert (Bx : 2 ^ 28 <= rq_scale rq * mul0 < 2 ^ 30).
  { change (2 ^ 28) with (2 ^ 14 * 2 ^ 14). change (2 ^ 30) with (2 ^ 15 * 2 ^ 15). split; [apply Z.mul_le_mono_nonneg; lia|apply Z.mul_lt_mono_nonneg; lia]. }
  pose proof (norm_to_nb rm nb (rq_scale rq * mul0) ltac:(unfold nb; destruct mul16; lia) Bx) as NN. fold nb.
  destruct (norm_cast_fx rm 32 nb (rq_scale rq * mul0)) as [mul ns]. cbn [av_mul av_zp av_shift]. destruct NN as (N1 & N2 & N3).
  split; [exact N1|]. split; [reflexivity|].
  pose proof (scale_ratio_pos i o Hi Ho) as RP.
  assert (KQ : (0 < inject_Z K)%Q) by (change 0%Q with (inject_Z 0); apply inj_lt; lia).
  set (x := rq_scale rq * mul0) in *.
  assert (XP : (0 < inject_Z x)%Q) by (change 0%Q with (inject_Z 0); apply inj_lt; change (2 ^ 28) with 268435456 in Bx; lia).
  (* rounding of the multiplier *)
  assert (E1 : rel (1 / inject_Z (2 ^ (nb - 1) - 1)) (fxval (rq_shift rq + s - ns) mul) (fxval (rq_shift rq + s) x)).
  { apply norm_rel; try lia.
    unfold nb; destruct mul16; [change (2 ^ (16 - 1)) with 32768|change (2 ^ (8 - 1)) with 128]; lia. }
  (* requantization factor *)
  assert (E2 : rel (1 # 16384) (fxval (rq_shift rq) (rq_scale rq)) (scale_ratio i o)).
  { split; [auto|]. revert RW. apply within_compat; try reflexivity. ring. }
  (* reciprocal of the area *)
  assert (E3 : rel (1 # 8192) (fxval s mul0) (1 / inject_Z K)).
  { pose proof (recip_err K mul0 s 1 ltac:(lia) ltac:(lia) ltac:(lia) K3) as R. cbv zeta in R. change (inject_Z 1) with 1%Q in R.
    assert (G : (0 < 1 / inject_Z K)%Q) by (apply Qlt_shift_div_l; lra).
    split; [exact G|]. revert R. apply within_compat.
    - rewrite Qabs_pos by lra. ring.
    - now rewrite Z.mul_1_r.
    - reflexivity. }
  pose proof (rel_mul (1 # 16384) (1 # 8192) _ _ _ _ ltac:(lra) ltac:(lra) E2 E3) as E4.
  assert (E5 : rel ((1 # 16384) + (1 # 8192) + (1 # 16384) * (1 # 8192)) (fxval (rq_shift rq + s) x) (scale_ratio i o / inject_Z K)).
  { revert E4. apply rel_compat.
    - symmetry. apply fxval_mul.
    - unfold Qdiv. ring. }
  assert (Eb : (0 <= 1 / inject_Z (2 ^ (nb - 1) - 1) <= 1)%Q).
  { unfold nb. destruct mul16; split; vm_compute; discriminate. }
  pose proof (rel_trans _ ((1 # 16384) + (1 # 8192) + (1 # 16384) * (1 # 8192)) _ _ _ Eb ltac:(split; vm_compute; discriminate) E1 E5) as E6.
  revert E6. apply rel_weaken. unfold nb, ave_rel. destruct mul16; vm_compute; discriminate.
Qed.

(** Output zero point and range of the accumulator. *)
Lemma sa_acc_bound (R K A g mul P zp szp zi : Q) (mul16 : bool) :
  (0 < R <= 32 -> 1 <= K <= A -> A * (1 / R + 2) <= ave_lim mul16 ->
   0 < mul <= (if mul16 then 32767 else 127) -> 0 < P -> g * P == mul ->
   rel (ave_rel mul16) g (R / K) ->
   within ((1 # 2)) (szp + zp) zi -> Qabs zi <= 128 -> Qabs szp <= R * (128 + (1 # 100)) ->
   Qabs zp * P + mul * 128 * K <= 1073741823)%Q.
Proof.
  intros HR HK HA Hm HP Hg Hrel Hz Hzi Hs.
  apply rel_bounds in Hrel. destruct Hrel as (G0 & G1 & _).
  unfold within in Hz. apply Qabs_Qle_condition in Hz, Hzi, Hs.
  assert (Z : (Qabs zp <= 128 + (1 # 2) + R * (128 + (1 # 100)))%Q) by (apply Qabs_Qle_condition; lra).
  assert (R' : (0 < R)%Q) by lra. assert (K' : (0 < K)%Q) by lra.
  set (u := (1 / R)%Q) in *. assert (U : (u * R == 1)%Q) by (unfold u; field; lra).
  assert (U0 : (0 < u)%Q) by (unfold u; apply Qlt_shift_div_l; lra).
  (* P <= mul * K * u / (1 - e) *)
  assert (PB : ((99 # 100) * P <= mul * K * u)%Q).
  { assert (E99 : (99 # 100 <= 1 - ave_rel mul16)%Q) by (destruct mul16; vm_compute; discriminate).
    assert (G2 : ((99 # 100) * (R / K) <= g)%Q).
    { apply Qle_trans with (2 := G1). apply Qmult_le_compat_r; [exact E99|]. lra. }
    assert (RK : (R / K * (K * u) == 1)%Q) by (unfold u; field; split; lra).
    assert (G3 : ((99 # 100) * (R / K) * P <= mul)%Q) by (rewrite <- Hg; apply Qmult_le_compat_r; lra).
    assert (KU : (0 < K * u)%Q) by nra.
    apply (Qmult_le_compat_r _ _ (K * u)) in G3; [|lra].
    setoid_replace ((99 # 100) * (R / K) * P * (K * u))%Q with ((99 # 100) * P * (R / K * (K * u)))%Q in G3 by ring.
    rewrite RK in G3. lra. }
  assert (Z2 : (Qabs zp * P <= (128 + (1 # 2) + R * (128 + (1 # 100))) * P)%Q) by (apply Qmult_le_compat_r; lra).
  assert (MK : (0 <= mul * K)%Q) by nra.
  set (w := (mul * K)%Q) in *.
  assert (RP : ((99 # 100) * (R * P) <= w)%Q).
  { apply (Qmult_le_compat_r _ _ R) in PB; [|lra]. setoid_replace (w * u * R)%Q with (w * (u * R))%Q in PB by ring. rewrite U in PB. lra. }
  assert (WA : (w * (u + 2) <= (if mul16 then 32767 else 127) * ave_lim mul16)%Q).
  { unfold w. setoid_replace (mul * K * (u + 2))%Q with (mul * (K * (u + 2)))%Q by ring.
    apply Qle_trans with (mul * (A * (u + 2)))%Q.
    - rewrite !(Qmult_comm mul). apply Qmult_le_compat_r; [|lra]. apply Qmult_le_compat_r; lra.
    - apply Qle_trans with (mul * ave_lim mul16)%Q; [rewrite !(Qmult_comm mul); apply Qmult_le_compat_r; lra|].
      apply Qmult_le_compat_r; [lra|]. destruct mul16; vm_compute; discriminate. }
  assert (WB : (w * (u + 2) <= 7680000)%Q) by (apply Qle_trans with (1 := WA); destruct mul16; vm_compute; discriminate).
  setoid_replace (mul * 128 * K)%Q with (128 * w)%Q by (unfold w; ring). lra.
Qed.

Lemma rq_offset_bits rm i o : qpar_ok i -> qpar_ok o -> in_bits 16 (rq_offset (define_requant_params rm i o)).
Proof.
  intros Hi Ho. destruct (requant_eq rm i o Hi Ho) as (_ & _ & E). cbv zeta in E. rewrite E.
  pose proof (requant_ratio rm i o Hi Ho) as RR. cbv zeta in RR. destruct RR as [RB _].
  destruct Hi as (_ & _ & Zi). destruct Ho as (_ & _ & Zo). apply (proj1 (ib8 _)) in Zi. apply (proj1 (ib8 _)) in Zo.
  rewrite sub_fx_spec; [apply sat_in_bits; lia|lia|apply ib16; lia|].
  apply cast_narrow_in_bits; try lia. apply ib32. change (2 ^ 14) with 16384 in RB. change (2 ^ 15) with 32768 in RB. nia.
Qed.

(** The conditions on an SA8 average pooling: the scale ratio is at most 32 and the accumulator cannot overflow. *)
Definition ave_sa_ok (mul16 : bool) (area : Z) (i o : qpar) : Prop :=
  qpar_ok i /\ qpar_ok o /\ (scale_ratio i o <= 32)%Q /\ (inject_Z area * (1 / scale_ratio i o + 2) <= ave_lim mul16)%Q.

Lemma fxval_mul_l f a b : (fxval f (a * b) == fxval f a * inject_Z b)%Q.
Proof. unfold fxval. rewrite inject_Z_mult. ring. Qed.

Lemma acc_bound_Z zp P mul K : (Qabs (inject_Z zp) * inject_Z P + inject_Z mul * 128 * inject_Z K <= 1073741823)%Q ->
  Z.abs zp * P + mul * 128 * K <= 1073741823.
Proof.
  intros Bd. apply inj_le. rewrite inject_Z_plus, !inject_Z_mult.
  change (inject_Z 128) with 128%Q. change (inject_Z 1073741823) with 1073741823%Q.
  assert (EA : (Qabs (inject_Z zp) == inject_Z (Z.abs zp))%Q) by (unfold Qabs, inject_Z; destruct zp; reflexivity).
  rewrite EA in Bd. exact Bd.
Qed.

Lemma ave_sa_value rm mul16 mi kh kw i o p w h col row :
  0 <= kw <= 255 -> 0 <= kh <= 255 -> ave_sa_ok mul16 (kw * kh) i o -> mem_bits 8 mi -> ok_box mi kh kw p w h col row ->
  let par := ave_sa rm mul16 (define_requant_params rm i o) (w * h) in
  0 <= av_shift par /\
  compute_avepool rm 32 8 mi par p w h col row
  = Some (sat 8 (scale_rnd rm (av_zp par * 2 ^ av_shift par + av_mul par * sum2D mi p w h col row) (av_shift par))).
Proof.
  intros Hkw Hkh (Hi & Ho & H32 & Hlim) Mb K par. pose proof (ok_box_area _ _ _ _ _ _ _ _ K) as Ar. destruct K as (Hw & Hh & Hk & _).
  assert (KK : kw * kh <= 255 * 255) by (apply Z.mul_le_mono_nonneg; lia).
  assert (K1 : 1 <= w * h) by (clear - Hw Hh; nia).
  destruct (ave_sa_factor rm mul16 i o (w * h) Hi Ho ltac:(lia)) as (F1 & F2 & F3). fold par in F1, F2, F3.
  pose proof (scale_ratio_pos i o Hi Ho) as RP.
  pose proof (rq_offset_bits rm i o Hi Ho) as ZB. rewrite <- F2 in ZB.
  assert (M64 : 64 <= av_mul par <= (if mul16 then 32767 else 127)).
  { destruct mul16; [change (2 ^ (16 - 2)) with 16384 in F1; change (2 ^ (16 - 1) - 1) with 32767 in F1|
      change (2 ^ (8 - 2)) with 64 in F1; change (2 ^ (8 - 1) - 1) with 127 in F1]; lia. }
  pose proof (requant_ratio rm i o Hi Ho) as RR. cbv zeta in RR. fold (scale_ratio i o) in RR. destruct RR as [RB RW].
  pose proof (requant_zero_point rm i o Hi Ho) as RZ. cbv zeta in RZ. rewrite <- F2 in RZ.
  set (rq := define_requant_params rm i o) in *. set (R := scale_ratio i o) in *.
  assert (Zi : -128 <= q_zp i <= 127) by (apply (proj1 (ib8 _)); apply Hi).
  assert (Zo : -128 <= q_zp o <= 127) by (apply (proj1 (ib8 _)); apply Ho).
  assert (KQ : (1 <= inject_Z (w * h) <= inject_Z (kw * kh))%Q) by (change 1%Q with (inject_Z 1); rewrite !inj_le; lia).
  clearbody par R rq. destruct par as [mul zp sh]. cbn [av_mul av_zp av_shift] in *.
  assert (KQ' : (0 < inject_Z (w * h))%Q) by lra.
  assert (RK : (R / inject_Z (w * h) <= 32)%Q). { apply Qle_shift_div_r; nra. }
  assert (MQ : (64 <= inject_Z mul <= (if mul16 then 32767 else 127))%Q).
  { destruct mul16; [change 32767%Q with (inject_Z 32767)|change 127%Q with (inject_Z 127)]; change 64%Q with (inject_Z 64); rewrite !inj_le; lia. }
  assert (Sh : 0 <= sh).
  { destruct (Z_le_gt_dec 0 sh); [auto|]. exfalso. apply rel_bounds in F3. destruct F3 as (_ & _ & F3).
    assert ((1 + ave_rel mul16) * (R / inject_Z (w * h)) <= 33)%Q.
    { assert (1 + ave_rel mul16 <= 1 + (1 # 100))%Q by (destruct mul16; vm_compute; discriminate).
      assert (0 <= R / inject_Z (w * h))%Q by (apply Qle_shift_div_l; lra). nra. }
    rewrite fxval_neg in F3 by lia. assert (inject_Z (mul * 2 ^ (- sh)) <= inject_Z 33)%Q by (change (inject_Z 33) with 33%Q; lra).
    apply (proj1 (inj_le _ _)) in H0. pose proof (pow2_gt0 (- sh) ltac:(lia)). nia. }
  split; [exact Sh|].
  assert (P0 : 0 < 2 ^ sh) by (apply pow2_gt0; lia).
  assert (PQ : (0 < inject_Z (2 ^ sh))%Q) by (change 0%Q with (inject_Z 0); apply inj_lt; auto).
  assert (GP : (fxval sh mul * inject_Z (2 ^ sh) == inject_Z mul)%Q).
  { unfold fxval. rewrite pow2q_inv, pow2q_nonneg by lia. field. lra. }
  set (szp := fxval (rq_shift rq) (rq_scale rq * q_zp i)) in *.
  assert (ES : (szp == fxval (rq_shift rq) (rq_scale rq) * inject_Z (q_zp i))%Q).
  { apply fxval_mul_l. }
  assert (ZiQ : (Qabs (inject_Z (q_zp i)) <= 128)%Q) by (change 128%Q with (inject_Z 128); apply Qabs_inj_le; lia).
  assert (ZoQ : (Qabs (inject_Z (q_zp o)) <= 128)%Q) by (change 128%Q with (inject_Z 128); apply Qabs_inj_le; lia).
  assert (SB : (Qabs szp <= R * (128 + (1 # 100)))%Q).
  { rewrite ES, Qabs_Qmult. unfold within in RW. apply Qabs_Qle_condition in RW.
    set (f := fxval (rq_shift rq) (rq_scale rq)) in *. set (z := Qabs (inject_Z (q_zp i))) in *.
    pose proof (Qabs_nonneg (inject_Z (q_zp i))) as Zn. fold z in Zn. rewrite (Qabs_pos f) by lra.
    apply Qle_trans with (R * (16385 # 16384) * z)%Q; [apply Qmult_le_compat_r; lra|]. nra. }
  assert (SB2 : (Qabs szp <= 32000 # 1)%Q) by (apply Qle_trans with (1 := SB); lra).
  specialize (RZ SB2).
  pose proof (sa_acc_bound R (inject_Z (w * h)) (inject_Z (kw * kh)) (fxval sh mul) (inject_Z mul) (inject_Z (2 ^ sh)) (inject_Z zp) szp
    (inject_Z (q_zp o)) mul16 ltac:(lra) ltac:(lra) Hlim ltac:(lra) PQ GP F3 RZ ZoQ SB) as Bd.
  assert (BZ : Z.abs zp * 2 ^ sh + mul * 128 * (w * h) <= 1073741823).
  { now apply acc_bound_Z. }
  assert (AZ : Z.abs (zp * 2 ^ sh) = Z.abs zp * 2 ^ sh) by (rewrite Z.abs_mul, (Z.abs_eq (2 ^ sh)) by lia; reflexivity).
  assert (MW : 0 <= mul * 128 * (w * h)) by (apply Z.mul_nonneg_nonneg; lia).
  unfold compute_avepool. cbn [av_mul av_zp av_shift].
  rewrite wrap_id by (auto; lia). rewrite asl_fx_pos; [|lia|revert ZB; apply in_bits_mono; lia|auto].
  rewrite sat_id by (apply ib32; lia).
  assert (B : forall a, -128 <= rd mi a <= 127) by (intros a; apply (proj1 (ib8 _)); apply rd_bits; auto; lia).
  destruct (reduce_sum2D_ok 32 mi (Z.abs zp * 2 ^ sh) (mul * 128) p mul (zp * 2 ^ sh) w h col row) as [E C]; auto; try lia.
  { intros a. specialize (B a). rewrite Z.abs_mul. apply Z.mul_le_mono_nonneg; lia. }
  { change (smax 32) with 2147483647. lia. }
  rewrite E. cbn [bind]. f_equal. apply ave_store; [lia|lia| |].
  - apply ib32. lia.
  - left. apply small_rnd_safe; lia.
Qed.

Lemma half_half a b : ((1 # 2) + ((1 # 2) + a + b) == 1 + a + b)%Q.
Proof. ring. Qed.

Lemma fxval_acc zp sh mul S : 0 <= sh -> (fxval sh (zp * 2 ^ sh + mul * S) == inject_Z zp + fxval sh mul * inject_Z S)%Q.
Proof.
  intros Hs. unfold fxval. rewrite inject_Z_plus, !inject_Z_mult, <- (pow2q_nonneg sh) by lia.
  pose proof (pow2q_opp sh) as E. generalize dependent (pow2q sh). generalize (pow2q (- sh)). intros a b E.
  setoid_replace ((inject_Z zp * b + inject_Z mul * inject_Z S) * a)%Q with (inject_Z zp * (b * a) + inject_Z mul * a * inject_Z S)%Q by ring.
  rewrite E. ring.
Qed.

Lemma sa_err (R K g S zp f zi zo e x : Q) :
  (0 < K -> rel e g (R / K) -> within (R * (1 # 16384)) f R -> within (1 # 2) (f * zi + zp) zo -> Qabs zi <= 128 ->
   x == zp + g * S ->
   within ((1 # 2) + R * Qabs (S / K) * e + R * (1 # 128)) x (zo + R * (S / K - zi)))%Q.
Proof.
  intros HK [P G] F Z Hzi Hx. unfold within in *.
  setoid_replace (x - (zo + R * (S / K - zi)))%Q with ((f * zi + zp - zo) + ((g - R / K) * S + (- ((f - R) * zi))))%Q
    by (rewrite Hx; field; lra).
  assert (D2 : (Qabs ((g - R / K) * S) <= R * Qabs (S / K) * e)%Q).
  { rewrite Qabs_Qmult. setoid_replace (R * Qabs (S / K) * e)%Q with (e * (R / K) * Qabs S)%Q.
    - apply Qmult_le_compat_r; [exact G|apply Qabs_nonneg].
    - unfold Qdiv. rewrite Qabs_Qmult, (Qabs_pos (/ K)) by (apply Qlt_le_weak, Qinv_lt_0_compat; auto). ring. }
  assert (D3 : (Qabs (- ((f - R) * zi)) <= R * (1 # 128))%Q).
  { rewrite Qabs_opp, Qabs_Qmult. pose proof (Qabs_nonneg zi). pose proof (Qabs_nonneg (f - R)).
    apply Qle_trans with (R * (1 # 16384) * Qabs zi)%Q; [apply Qmult_le_compat_r; auto|].
    apply Qle_trans with (R * (1 # 16384) * 128)%Q; [|lra]. rewrite !(Qmult_comm (R * (1 # 16384))). apply Qmult_le_compat_r; lra. }
  eapply Qle_trans; [apply Qabs_triangle|].
  eapply Qle_trans; [apply Qplus_le_compat; [exact Z|apply Qle_trans with (1 := Qabs_triangle _ _); apply Qplus_le_compat; [exact D2|exact D3]]|].
  lra.
Qed.

(** C28, SA8: the output is the requantized mean of the window, clipped; the error is one unit plus the error of the
    multipliers. *)
Theorem avepool_sa8_correct rm mul16 mi m tin tout c fixed qi qo :
  chk_pool tin tout c fixed = ST_OK -> pool_fits tin tout c -> pool_padding_small tin tout c ->
  fits32 tin -> fits32 tout -> backed tin mi -> backed tout m ->
  ave_sa_ok mul16 (pl_kw c * pl_kh c) qi qo -> mem_bits 8 mi ->
  exists m', avepool_sa8 rm mul16 mi fixed tin tout c qi qo m = Some m'
    /\ (forall H W ch, valid (t_shape tout) [H; W; ch] ->
          0 < window_count tin c H W /\
          let mean := window_mean mi tin c H W ch in
          let ratio := scale_ratio qi qo in
          let exact := (inject_Z (q_zp qo) + ratio * (mean - inject_Z (q_zp qi)))%Q in
          exists v, hwc_elem m' tout H W ch = Some v
            /\ within (1 + ratio * Qabs mean * ave_rel mul16 + ratio * (1 # 128)) (inject_Z v) (qclamp (- (128)) 127 exact))
    /\ frame_ok tout m m'.
Proof.
  intros Hchk Hf Hs Fi Fo Bi Bo Ha Mb.
  assert (U : 0 <= pl_kw c <= 255 /\ 0 <= pl_kh c <= 255) by (destruct Hf as (U1 & U2 & _); unfold in_ubits in *; lia).
  destruct U as [U1 U2].
  pose proof (fun p w h col row => ave_sa_value rm mul16 mi (pl_kh c) (pl_kw c) qi qo p w h col row U1 U2 Ha Mb) as V. cbv zeta in V.
  destruct (pool_run_ok (ave_sa rm mul16 (define_requant_params rm qi qo)) (compute_avepool rm 32 8 mi) mi m tin tout c fixed Hchk Hf Hs Fi Fo Bi Bo)
    as (m' & E & R & F).
  - intros p w h col row K. destruct (V p w h col row K) as [_ ->]. eauto.
  - intros p w h col row K. destruct (V _ _ _ _ _ (ok_box_rot _ _ _ _ _ _ _ _ K)) as [_ V']. destruct (V p w h col row K) as [_ V0].
    rewrite (Z.mul_comm h w) in V'. rewrite V0, V'. now rewrite sum2D_rot.
  - destruct (chk_pool_spec tin tout c fixed Hchk Hf Fi Fo) as (Ci & _ & (ih & iw & ic & sr & sc & Es & Et & P1 & P2 & P3) & (oh & ow & sr' & sc' & Es' & Et' & _) & _).
    exists m'. split; [exact E|]. split; [|exact F]. intros H W ch Hv. destruct (R H W ch Hv) as (Kt & Kl & v & Ev & Em).
    cbv zeta. unfold window_mean. rewrite window_count_eq by (try (unfold dim; rewrite Es; cbn [nth]); lia).
    rewrite (window_sum_eq mi tin c H W ch sr sc Et) by (unfold dim; rewrite Es; cbn [nth]; lia).
    set (w := win_right c tin W - win_left c W) in *. set (h := win_bottom c tin H - win_top c H) in *.
    assert (Hwh : 1 <= w /\ 1 <= h) by (unfold w, h; lia).
    assert (K1 : 0 < w * h) by (clear - Hwh; nia). split; [exact K1|].
    set (ratio := scale_ratio qi qo). set (mean := (inject_Z (sum2D mi _ w h sc sr) / inject_Z (w * h))%Q).
    set (exact := (inject_Z (q_zp qo) + ratio * (mean - inject_Z (q_zp qi)))%Q).
    exists v. split; [exact Em|].
    assert (Kb : w <= pl_kw c /\ h <= pl_kh c) by (unfold w, h, win_right, win_left, win_bottom, win_top; lia).
    assert (Kc : w * h <= pl_kw c * pl_kh c) by (apply Z.mul_le_mono_nonneg; lia).
    assert (Box : ok_box mi (pl_kh c) (pl_kw c) (hwc_addr tin (win_top c H) (win_left c W) ch) w h sc sr).
    { assert (Hch : 0 <= ch < ic). { rewrite Es' in Hv. cbn [valid] in Hv. unfold dim in Hv. rewrite Es in Hv. cbn [nth] in Hv. lia. }
      split; [lia|]. split; [lia|]. split; [exact Kc|]. intros r cl Hr Hc.
      replace (_ + sr * r + sc * cl) with (t_data tin + addr (t_stride tin) [win_top c H + r; win_left c W + cl; ch])
        by (unfold hwc_addr; rewrite Et; cbn [addr]; ring).
      apply (chk_backed tin mi Fi Ci Bi). rewrite Es. cbn [valid]. unfold w, h, win_right, win_bottom, dim in *. rewrite Es in *. cbn [nth] in *.
      unfold win_left, win_top in *. lia. }
    rewrite Et in Ev. cbn [nth] in Ev. destruct (V _ _ _ _ _ Box) as [Vs V']. rewrite V' in Ev. injection Ev as <-.
    change (- (128))%Q with (inject_Z (smin 8)). change 127%Q with (inject_Z (smax 8)). apply sat_within; [lia|].
    set (S := sum2D mi _ w h sc sr) in *.
    assert (WH : 1 <= w * h <= 65025). { split; [lia|]. apply Z.le_trans with (1 := Kc). apply (Z.mul_le_mono_nonneg (pl_kw c) 255 (pl_kh c) 255); lia. }
    clear - Ha Vs WH K1. destruct Ha as (Hi & Ho & H32 & _).
    destruct (ave_sa_factor rm mul16 qi qo (w * h) Hi Ho WH) as (_ & F2 & F3).
    set (par := ave_sa rm mul16 (define_requant_params rm qi qo) (w * h)) in *.
    pose proof (requant_ratio rm qi qo Hi Ho) as RR. cbv zeta in RR. fold (scale_ratio qi qo) in RR. destruct RR as [RB RW].
    pose proof (requant_zero_point rm qi qo Hi Ho) as RZ. cbv zeta in RZ. rewrite <- F2 in RZ.
    pose proof (scale_ratio_pos qi qo Hi Ho) as RP.
    set (rq := define_requant_params rm qi qo) in *. fold ratio in RP, RW, F3, H32.
    assert (Zi : -128 <= q_zp qi <= 127) by (apply (proj1 (ib8 _)); apply Hi).
    assert (ZiQ : (Qabs (inject_Z (q_zp qi)) <= 128)%Q) by (change 128%Q with (inject_Z 128); apply Qabs_inj_le; lia).
    assert (SB : (Qabs (fxval (rq_shift rq) (rq_scale rq * q_zp qi)) <= 32000 # 1)%Q).
    { assert (ES : (fxval (rq_shift rq) (rq_scale rq * q_zp qi) == fxval (rq_shift rq) (rq_scale rq) * inject_Z (q_zp qi))%Q).
      { apply fxval_mul_l. }
      rewrite ES, Qabs_Qmult. pose proof RW as RW'. unfold within in RW'. apply Qabs_Qle_condition in RW'.
      generalize dependent (fxval (rq_shift rq) (rq_scale rq)). intros f _ _ RW'.
      pose proof (Qabs_nonneg (inject_Z (q_zp qi))). rewrite (Qabs_pos f) by lra.
      apply Qle_trans with (33 * Qabs (inject_Z (q_zp qi)))%Q; [apply Qmult_le_compat_r; lra|lra]. }
    specialize (RZ SB).
    apply (within_compat ((1 # 2) + ((1 # 2) + ratio * Qabs mean * ave_rel mul16 + ratio * (1 # 128))) (inject_Z (scale_rnd rm (av_zp par * 2 ^ av_shift par + av_mul par * S) (av_shift par))) exact);
      [apply half_half|apply Qeq_refl|apply Qeq_refl|].
    eapply within_tri. { apply within_sym. apply scale_rnd_within. }
    apply (sa_err ratio (inject_Z (w * h)) (fxval (av_shift par) (av_mul par)) (inject_Z S) (inject_Z (av_zp par))
       (fxval (rq_shift rq) (rq_scale rq)) (inject_Z (q_zp qi)) (inject_Z (q_zp qo)) (ave_rel mul16)); auto.
    + change 0%Q with (inject_Z 0). now apply inj_lt.
    + revert RZ. apply within_compat; try apply Qeq_refl. now rewrite fxval_mul_l.
    + apply fxval_acc. exact Vs.
Qed.

(** * Examples and limits *)

Definition hwc_t (h w ch : Z) : tensor := mkTensor 0 (h * w * ch) 1 [h; w; ch] [w * ch; ch; 1] false (-1) 0.

Lemma list_backed t l : t_data t = 0 -> t_esz t = 1 -> t_cap t <= Z.of_nat (length l) -> backed t (list_mem l).
Proof.
  intros D S C a H0 H1. rewrite S in H1. rewrite D. unfold allocated, list_mem. destruct (Z.ltb_spec (0 + a) 0); [lia|].
  apply nth_error_Some. lia.
Qed.

Ltac fits32_tac := unfold fits32; cbn; repeat split; try lia; repeat constructor; unfold in_bits; vm_compute; congruence.

(** 3x4 input, 2 channels, 3x3 kernel, stride 2, padding on all sides. *)
Definition pool_ex_in : tensor := hwc_t 3 4 2.
Definition pool_ex_out : tensor := hwc_t 2 2 2.
Definition pool_ex_cfg : pool_cfg := mkPool 3 3 2 2 1 1 1 1.
Definition pool_ex_mem : mem := list_mem [1; 2; 3; 4; 5; 6; 7; 8;  -1; -2; -3; -4; -5; -6; -7; -8;  10; -20; 30; -40; 50; -60; 70; -80].
Definition pool_ex_omem : mem := list_mem [0; 0; 0; 0; 0; 0; 0; 0].

Lemma pool_ex_bits : mem_bits 8 pool_ex_mem.
Proof.
  intros a v E. unfold pool_ex_mem, list_mem in E. destruct (a <? 0); [discriminate|]. apply nth_error_In in E. cbn in E.
  apply ib8. repeat (destruct E as [E|E]; [lia|]). tauto.
Qed.

Example pool_ex_ok :
  chk_pool pool_ex_in pool_ex_out pool_ex_cfg 3 = ST_OK /\ pool_fits pool_ex_in pool_ex_out pool_ex_cfg
  /\ pool_padding_small pool_ex_in pool_ex_out pool_ex_cfg /\ fits32 pool_ex_in /\ fits32 pool_ex_out
  /\ backed pool_ex_in pool_ex_mem /\ backed pool_ex_out pool_ex_omem /\ mem_bits 8 pool_ex_mem
  /\ ave_fx_ok 32 8 (pl_kw pool_ex_cfg * pl_kh pool_ex_cfg) 7 6
  /\ ave_sa_ok false (pl_kw pool_ex_cfg * pl_kh pool_ex_cfg) (mkQ 20000 14 5) (mkQ 30000 14 (-3)).
Proof.
  split; [reflexivity|]. split. { unfold pool_fits, in_ubits, dim. cbn. lia. }
  split. { unfold pool_padding_small, dim. cbn. lia. }
  split; [fits32_tac|]. split; [fits32_tac|]. split; [apply list_backed; cbn; lia|]. split; [apply list_backed; cbn; lia|].
  split; [apply pool_ex_bits|]. split; [right; cbn; lia|].
  split. { unfold qpar_ok. cbn [q_scale q_frac q_zp]. rewrite !ib8. lia. }
  split. { unfold qpar_ok. cbn [q_scale q_frac q_zp]. rewrite !ib8. lia. }
  split; vm_compute; discriminate.
Qed.

Definition mem_list (n : Z) (m : mem) : list (option Z) := map m (zrange 0 n).

Example maxpool_ex : option_map (mem_list 8) (maxpool pool_ex_mem 3 pool_ex_in pool_ex_out pool_ex_cfg pool_ex_omem)
  = Some [Some 3; Some 4; Some 7; Some 8; Some 30; Some (-2); Some 70; Some (-4)].
Proof. vm_compute. reflexivity. Qed.

Example sumpool_ex : option_map (mem_list 8) (sumpool pool_ex_mem 3 pool_ex_in pool_ex_out pool_ex_cfg pool_ex_omem)
  = Some [Some 0; Some 0; Some 0; Some 0; Some 36; Some (-66); Some 135; Some (-198)].
Proof. vm_compute. reflexivity. Qed.

Example avepool_ex : option_map (mem_list 8) (avepool_fx RM_UP 32 8 pool_ex_mem 3 pool_ex_in pool_ex_out pool_ex_cfg 7 6 pool_ex_omem)
  = Some [Some 0; Some 0; Some 0; Some 0; Some 5; Some (-8); Some 11; Some (-16)].
Proof. vm_compute. reflexivity. Qed.

Example avepool_sa8_ex : option_map (mem_list 8) (avepool_sa8 RM_UP false pool_ex_mem 3 pool_ex_in pool_ex_out pool_ex_cfg (mkQ 20000 14 5) (mkQ 30000 14 (-3)) pool_ex_omem)
  = Some [Some (-6); Some (-6); Some (-6); Some (-6); Some 0; Some (-17); Some 9; Some (-28)].
Proof. vm_compute. reflexivity. Qed.

(** C29 fails when the padding after the input is wider than the output times the stride: a 1x1 input, 3x3 kernel and 2
    rows and columns of padding at the end are accepted, and the kernel writes outside the output buffer. *)
Theorem pool_padding_refuted : exists tin tout c mi m,
  chk_pool tin tout c 0 = ST_OK /\ pool_fits tin tout c /\ fits32 tin /\ fits32 tout /\ backed tin mi /\ backed tout m
  /\ maxpool mi 0 tin tout c m = None.
Proof.
  exists (hwc_t 1 1 1), (hwc_t 1 1 1), (mkPool 3 3 1 1 0 2 0 2), (list_mem [5]), (list_mem [0]).
  split; [reflexivity|]. split. { unfold pool_fits, in_ubits, dim. cbn. lia. }
  split; [fits32_tac|]. split; [fits32_tac|]. split; [apply list_backed; cbn; lia|]. split; [apply list_backed; cbn; lia|].
  vm_compute. reflexivity.
Qed.

(** The same for padding before the input. *)
Theorem pool_padding_before_refuted : exists tin tout c mi m,
  chk_pool tin tout c 0 = ST_OK /\ pool_fits tin tout c /\ fits32 tin /\ fits32 tout /\ backed tin mi /\ backed tout m
  /\ maxpool mi 0 tin tout c m = None.
Proof.
  exists (hwc_t 1 1 1), (hwc_t 1 1 1), (mkPool 3 3 1 1 2 0 2 0), (list_mem [5]), (list_mem [0]).
  split; [reflexivity|]. split. { unfold pool_fits, in_ubits, dim. cbn. lia. }
  split; [fits32_tac|]. split; [fits32_tac|]. split; [apply list_backed; cbn; lia|]. split; [apply list_backed; cbn; lia|].
  vm_compute. reflexivity.
Qed.

(** C28 fails for large windows of FX8 data: a 40x40 window of the value 127 overflows the 32-bit accumulator (the mean
    is 127, the sum of the products is not representable). *)
Definition const_mem (n v : Z) : mem := fun a => if (0 <=? a) && (a <? n) then Some v else None.
Theorem avepool_fx8_area_refuted : exists tin tout c mi m,
  chk_pool tin tout c 0 = ST_OK /\ pool_fits tin tout c /\ pool_padding_small tin tout c
  /\ fits32 tin /\ fits32 tout /\ backed tin mi /\ backed tout m /\ mem_bits 8 mi
  /\ avepool_fx RM_UP 32 8 mi 0 tin tout c 7 7 m = None.
Proof.
  exists (hwc_t 40 40 1), (hwc_t 1 1 1), (mkPool 40 40 1 1 0 0 0 0), (const_mem 1600 127), (list_mem [0]).
  split; [reflexivity|]. split. { unfold pool_fits, in_ubits, dim. cbn. lia. }
  split. { unfold pool_padding_small, dim. cbn. lia. }
  split; [fits32_tac|]. split; [fits32_tac|].
  split. { intros a H0 H1. cbn [hwc_t t_esz t_cap t_data] in *. unfold allocated, const_mem.
    replace (0 <=? 0 + a) with true by (symmetry; apply Z.leb_le; lia). replace (0 + a <? 1600) with true by (symmetry; apply Z.ltb_lt; lia). discriminate. }
  split; [apply list_backed; cbn; lia|].
  split. { intros a v E. unfold const_mem in E. destruct ((0 <=? a) && (a <? 1600)); [injection E as <-|discriminate]. apply ib8. lia. }
  vm_compute. reflexivity.
Qed.
