(** One axis and one step of the tile-by-tile execution of MLI 3.0 kernels. *)
From Coq Require Import ZArith List Lia Bool.
From Verif Require Import Base FxMath Tensor Quant Layout Pool Conv Iter IterProofs IterTheorems TileRun.
Import ListNotations.
Open Scope Z_scope.

(** * One axis *)

(** One axis of a convolution-like kernel: [Do] outputs cut into tiles of [T], [D] inputs, a window of [K] positions moved by [S],
    [P] positions of padding before the input and at most [A] behind. *)
Definition axis_fits (Do T D K S P A : Z) : Prop :=
  1 <= T <= Do /\ 1 <= D /\ 1 <= S /\ 0 <= P < K /\ 0 <= A < K /\ (Do - 1) * S + K <= D + P + A /\ P <= T * S
  /\ (Do + 2 * T) * S + K + D < 2 ^ 31.

Lemma axis_tile o Do T D K S P A k : axis_fits Do T D K S P A ->
  let out := tile_dim o Do T 0 in let inp := kernel_dim out D K S P in
  0 <= k < it_count out ->
  let os := tile_start out k in let on := tile_len out Do k in
  let is := tile_start inp k in let il := tile_len inp D k in
  let p := if k =? 0 then P else 0 in
  it_count inp = it_count out
  /\ (1 <= on <= T /\ 0 <= os /\ os + on <= Do) /\ (0 <= is /\ 1 <= il /\ is + il <= D)
  /\ is - p = os * S - P /\ (on - 1) * S + K <= il + p + A
  /\ forall y x, 0 <= y < on -> is - p + y * S <= x < is - p + y * S + K -> (0 <= x < D <-> is <= x < is + il).
Proof.
  intros (HT & HD & HS & HP & HA & Hw & HPT & Hb) out inp Hk os on is il p.
  assert (MS : forall a b, a <= b -> a * S <= b * S) by (intros; apply Z.mul_le_mono_nonneg_r; lia).
  assert (MT : forall a b, a <= b -> a * T <= b * T) by (intros; apply Z.mul_le_mono_nonneg_r; lia).
  assert (Hb0 : (Do + 2 * T) * 1 <= (Do + 2 * T) * S) by (apply Z.mul_le_mono_nonneg_l; lia).
  assert (Hb1 : Do + T + T < 2 ^ 31) by lia. assert (HD31 : D < 2 ^ 31) by lia.
  destruct (tile_dim_val o Do T 0 HT ltac:(lia) Hb1) as (E & Hn1 & Hn & Hnb). fold out in E.
  set (n := ceil_div (Do + 0) T) in *.
  destruct (tile_dim_cuts o Do T 0 HT ltac:(lia) Hb1) as (_ & Hc & Hlen). fold out in Hc, Hlen. specialize (Hlen ltac:(lia)).
  assert (Hcn : it_count out = n) by (rewrite E; reflexivity).
  pose proof (cuts_inside Do (it_count out) _ _ ltac:(rewrite Hcn; exact Hn1) Hc k Hk) as Hin. pose proof (Hlen k Hk) as Hon. fold os on in Hin, Hon.
  assert (Hst : forall j, tile_start out j = j * T).
  { intros j. unfold tile_start. rewrite E. cbn [it_first_inc it_inc]. destruct (Z.eqb_spec j 0); [subst; reflexivity|ring]. }
  assert (HnS : (n - 1) * T * S <= (Do - 1) * S) by (apply MS; lia).
  assert (Hlast : tile_start out (n - 1) * S - P <= D) by (rewrite Hst; lia).
  assert (HT1 : 0 * S <= (T - 1) * S) by (apply MS; lia).
  pose proof (kernel_dim_val o Do T 0 D K S P HT ltac:(lia) Hb1 HS ltac:(lia) HD ltac:(lia) ltac:(lia) Hb) as EI.
  cbv zeta in EI. fold out n in EI. specialize (EI Hlast). fold inp in EI.
  assert (Hci : it_count inp = n) by (rewrite EI; reflexivity).
  rewrite Hcn in Hk. clear Hc Hlen.
  assert (Eos : os = k * T) by apply Hst.
  assert (Hk1 : k * T <= (n - 1) * T) by (apply MT; lia).
  assert (HkS : 0 * S <= k * T * S <= (n - 1) * T * S) by (split; apply MS; lia).
  assert (HkT : k <> n - 1 -> (k + 1) * T <= (n - 1) * T) by (intros; apply MT; lia).
  assert (Hk0 : k <> 0 -> 1 * T * S <= k * T * S) by (intros; apply MS; apply MT; lia).
  assert (Hon' : on = Z.min T (Do - os)).
  { unfold on, tile_len, tile_size. rewrite Hcn. fold os. rewrite E. cbn [it_first_size it_size it_last_size].
    assert (Hl : (Do + 0 - 1) mod T + 1 = Do - (n - 1) * T).
    { enough ((Do + 0 - 1) mod T = Do - 1 - (n - 1) * T) by lia. symmetry. apply Z.mod_unique_pos with (q := n - 1); lia. }
    rewrite Hl. destruct (Z.eqb_spec k (n - 1)) as [Ek|Hne]; [rewrite Eos, Ek; lia|]. specialize (HkT Hne).
    destruct (Z.eqb_spec k 0) as [Ek|Hk0']; [lia|].
    rewrite (u32_id os) by lia. rewrite u32_id by lia. lia. }
  assert (Eis : is = if k =? 0 then 0 else k * T * S - P).
  { unfold is, tile_start. rewrite EI. cbn [it_first_inc it_inc]. destruct (Z.eqb_spec k 0); [reflexivity|ring]. }
  assert (Hisp : is - p = os * S - P).
  { rewrite Eis, Eos. unfold p. destruct (Z.eqb_spec k 0) as [->|]; ring. }
  assert (H0is : 0 <= is /\ is < D).
  { rewrite Eis. destruct (Z.eqb_spec k 0); lia. }
  assert (Hil : il = if k =? n - 1 then D - is else Z.min ((on - 1) * S + K - p) (D - is)).
  { unfold il, tile_len, tile_size. rewrite Hci. fold is. destruct (Z.eqb_spec k (n - 1)) as [Ek|Ek].
    - rewrite EI. cbn [it_last_size]. rewrite Eis. destruct (1 <? n) eqn:E1.
      + destruct (Z.eqb_spec k 0); [lia|]. rewrite Ek. ring.
      + destruct (Z.eqb_spec k 0); lia.
    - specialize (HkT Ek). assert (EonT : on = T) by lia.
      unfold p. rewrite EI. destruct (Z.eqb_spec k 0) as [Ek0|Ek0].
      + cbn [it_first_size]. rewrite EonT, Eis. f_equal; lia.
      + cbn [it_size]. rewrite (u32_id is) by lia. rewrite u32_id by lia.
        rewrite EonT. rewrite Z.min_comm. f_equal; lia. }
  assert (Hp : 0 <= p <= P) by (unfold p; destruct (k =? 0); lia).
  assert (HonS : 0 * S <= (on - 1) * S) by (apply MS; lia).
  assert (Hend : (os + on - 1) * S <= (Do - 1) * S) by (apply MS; lia).
  assert (Hi1 : 1 <= il).
  { rewrite Hil. destruct (k =? n - 1); [lia|]. apply Z.min_glb; lia. }
  split; [congruence|]. split; [lia|]. split.
  { split; [lia|]. split; [exact Hi1|]. rewrite Hil. destruct (k =? n - 1); lia. }
  split; [exact Hisp|].
  assert (HD1 : (on - 1) * S + K <= (D - is) + p + A) by lia.
  split.
  { rewrite Hil. destruct (k =? n - 1); [exact HD1|]. destruct (Z.min_spec ((on - 1) * S + K - p) (D - is)) as [[_ ->]|[_ ->]]; lia. }
  intros y x Hy Hx.
  assert (HyS : 0 * S <= y * S <= (on - 1) * S) by (split; apply MS; lia).
  assert (Hl : 0 <= x -> is <= x).
  { intros Hx0. clear - Eis Hx HyS Hx0. rewrite Eis in *. unfold p in *. destruct (k =? 0); lia. }
  assert (Hu : x < is + ((on - 1) * S + K - p)) by (clear - HyS Hx; lia).
  clear - Hil Hl Hu H0is. generalize dependent ((on - 1) * S + K - p). intros z Hil Hu. rewrite Hil. split.
  - intros Hr. split; [lia|]. destruct (k =? n - 1); lia.
  - intros Hr. destruct (k =? n - 1); lia.
Qed.

(** The axis that is not tiled on the input side: stride 0, the window is the whole axis. *)
Lemma axis_whole o Do T D k : 1 <= D < 2 ^ 31 -> let inp := kernel_dim (tile_dim o Do T 0) D D 0 0 in
  it_count inp = it_count (tile_dim o Do T 0) /\ tile_start inp k = 0 /\ tile_len inp D k = D.
Proof.
  intros HD inp. split; [reflexivity|]. assert (Hs : tile_start inp k = 0).
  { unfold tile_start. destruct (k =? 0); [reflexivity|]. unfold inp, kernel_dim. cbn [it_first_inc it_inc]. rewrite !Z.mul_0_r. change (wrap 32 0) with 0. change (wrap 32 (0 - 0)) with 0. lia. }
  split; [exact Hs|]. unfold tile_len, tile_size. rewrite Hs.
  unfold inp, kernel_dim. cbn [it_count it_first_size it_size it_last_size]. rewrite !Z.mul_0_r.
  change (wrap 32 0) with 0. change (wrap 32 (0 - 0)) with 0. rewrite Z.mul_0_l.
  replace (if 1 <? it_count (tile_dim o Do T 0) then wrap 32 (0 - 0) else 0) with 0 by (destruct (1 <? it_count (tile_dim o Do T 0)); reflexivity).
  rewrite Z.sub_0_r, Z.add_0_l, Z.add_0_r. change (uwrap 32 0) with 0. rewrite Z.sub_0_r. rewrite (u32_id D) by lia.
  destruct (k =? _); [|destruct (k =? 0)]; lia.
Qed.

(** * Several iterators in step *)

Lemma next_tile_counts : forall cfg cfg' idx, map it_count cfg = map it_count cfg' -> next_tile cfg idx = next_tile cfg' idx.
Proof.
  induction cfg as [|d cfg IH]; intros [|d' cfg'] [|k idx] H; try discriminate; try reflexivity.
  cbn [map] in H. injection H as H1 H2. cbn [next_tile]. rewrite H1, (IH cfg' idx H2). reflexivity.
Qed.

Lemma idx_ok_counts : forall cfg cfg' idx, map it_count cfg = map it_count cfg' -> idx_ok cfg idx -> idx_ok cfg' idx.
Proof.
  induction cfg as [|d cfg IH]; intros [|d' cfg'] [|k idx] H Hk; try discriminate; cbn [idx_ok] in *; try tauto.
  cbn [map] in H. injection H as H1 H2. rewrite <- H1. split; [tauto|]. apply IH; tauto.
Qed.

(** The tile indices after [n] calls of Next. *)
Fixpoint idx_at (cfg : list idim) (n : nat) : list Z := match n with O => zero_idx cfg | S k => next_tile cfg (idx_at cfg k) end.

Lemma idx_at_ok cfg n : counts_ok cfg -> idx_ok cfg (idx_at cfg n).
Proof. intros Hc. induction n as [|n IH]; cbn [idx_at]; [apply zero_ok; exact Hc|apply next_tile_ok; assumption]. Qed.

Lemma idx_at_counts cfg cfg' n : map it_count cfg = map it_count cfg' -> idx_at cfg n = idx_at cfg' n.
Proof.
  intros H. induction n as [|n IH]; cbn [idx_at].
  - unfold zero_idx. assert (L : length cfg = length cfg') by (rewrite <- (map_length it_count cfg), H, map_length; reflexivity).
    clear H. revert cfg' L. induction cfg as [|d cfg IH]; intros [|d' cfg'] L; try discriminate; [reflexivity|]. cbn [map]. f_equal. apply IH. cbn in L. lia.
  - rewrite IH. apply next_tile_counts. exact H.
Qed.

(** [n] calls of Next of an iterator. *)
Fixpoint ti_run (i : titer) (n : nat) : titer := match n with O => i | S k => ti_next (ti_run i k) end.

Lemma ti_run_at cfg shape stride n : counts_ok cfg ->
  ti_run (ti_new cfg shape stride) n = mkTi cfg shape stride (at_tile cfg (idx_at cfg n)).
Proof.
  intros Hc. induction n as [|n IH]; cbn [ti_run].
  - unfold ti_new. cbn [idx_at]. rewrite at_zero. reflexivity.
  - rewrite IH. unfold ti_next. cbn [ti_cfg ti_shape ti_stride ti_st idx_at]. f_equal.
    pose proof (iter_next_tile cfg (repeat (mkBdim 0 0 0 0) (length cfg)) 1 (idx_at cfg n) 0 (repeat_length _ _) (idx_at_ok cfg n Hc)) as H.
    destruct (iter_next _ _ _ _ _) as [[st o] dn]. cbn [fst]. tauto.
Qed.

Lemma ti_run_iter cfg shape stride bufs bsize n : counts_ok cfg -> length bufs = length cfg ->
  ti_st (ti_run (ti_new cfg shape stride) n) = fst (iter_run cfg bufs bsize n).
Proof.
  intros Hc Hl. rewrite ti_run_at by exact Hc. cbn [ti_st]. induction n as [|n IH]; cbn [idx_at iter_run]; [apply at_zero|].
  destruct (iter_run cfg bufs bsize n) as [st o]. cbn [fst] in IH. subst st.
  pose proof (iter_next_tile cfg bufs bsize (idx_at cfg n) o Hl (idx_at_ok cfg n Hc)) as H.
  destruct (iter_next cfg bufs bsize _ o) as [[st' o'] dn]. cbn [fst]. symmetry. tauto.
Qed.

(** The tile and its position, when the axes are iterated in their own order. *)
Fixpoint sizes_at (cfg : list idim) (shape idx : list Z) : list Z :=
  match cfg, shape, idx with d :: cfg', D :: shape', k :: idx' => tile_len d D k :: sizes_at cfg' shape' idx' | _, _, _ => [] end.

Lemma ti_pos_at cfg shape stride idx : ti_pos (mkTi cfg shape stride (at_tile cfg idx)) = starts cfg idx.
Proof. unfold ti_pos. cbn [ti_st]. revert idx. induction cfg as [|d cfg IH]; intros [|k idx]; cbn [at_tile map starts]; try reflexivity. f_equal. apply IH. Qed.
