(** Proofs about the tensor iterators: every order of tiling partitions the tensor (C49), the walk visits every tile once (C50), the
    buffer offset follows the tile, input tiles contain the receptive fields, and the update index identifies the tile shape. *)
From Coq Require Import ZArith List Lia Bool.
From Verif Require Import Base FxMath FxMathProofs Tensor TensorProofs Ops3 Ops3Proofs Iter.
Import ListNotations.
Open Scope Z_scope.
Ltac Zify.zify_post_hook ::= Z.div_mod_to_equations.

(** * One dimension *)

(** Start of tile [k] of a dimension. *)
Definition tile_start (d : idim) (k : Z) : Z := if k =? 0 then 0 else it_first_inc d + (k - 1) * it_inc d.

(** The starts and sizes [f k = (start, size)] of [n] tiles cut [0, D) into adjacent pieces. *)
Definition cuts (D n : Z) (start size : Z -> Z) : Prop :=
  start 0 = 0 /\ (forall k, 0 <= k -> k + 1 < n -> start (k + 1) = start k + size k) /\ start (n - 1) + size (n - 1) = D
  /\ forall k, 0 <= k < n -> 0 <= size k.

Lemma cuts_mono : forall D n start size, cuts D n start size -> forall k, 0 <= k < n -> forall j, 0 <= j <= k -> start j <= start k.
Proof.
  intros D n start size (H0 & Hs & He & Hz) k Hk.
  assert (Hp : 0 <= k) by lia. revert Hk. pattern k. apply natlike_ind; [| |exact Hp]; clear k Hp.
  - intros _ j Hj. replace j with 0 by lia. lia.
  - intros k Hk IH Hr j Hj. unfold Z.succ in *. destruct (Z.eq_dec j (k + 1)) as [->|E]; [lia|].
    rewrite Hs by lia. pose proof (IH ltac:(lia) j ltac:(lia)). pose proof (Hz k ltac:(lia)). lia.
Qed.

(** Every position is in exactly one piece. *)
Lemma cuts_unique : forall D n start size, 1 <= n -> cuts D n start size -> forall x, 0 <= x < D ->
  exists k, (0 <= k < n /\ start k <= x < start k + size k) /\ forall j, 0 <= j < n -> start j <= x < start j + size j -> j = k.
Proof.
  intros D n start size Hn Hc x Hx. pose proof (cuts_mono _ _ _ _ Hc) as Hm. destruct Hc as (H0 & Hs & He & Hz).
  assert (Hex : forall m, 0 <= m < n -> x < start m + size m -> exists k, 0 <= k <= m /\ start k <= x < start k + size k).
  { intros m Hm'. assert (Hp : 0 <= m) by lia. revert Hm'. pattern m. apply natlike_ind; [| |exact Hp]; clear m Hp.
    - intros _ Hlt. exists 0. lia.
    - intros m Hp IH Hr Hlt. unfold Z.succ in *. destruct (Z_lt_ge_dec x (start (m + 1))) as [Hl|Hg].
      + rewrite Hs in Hl by lia. destruct (IH ltac:(lia) Hl) as (k & Hk & Hk2). exists k. lia.
      + exists (m + 1). lia. }
  destruct (Hex (n - 1) ltac:(lia) ltac:(lia)) as (k & Hk & Hin). exists k. split; [lia|].
  intros j Hj Hjn. destruct (Z.lt_trichotomy j k) as [Hl|[E|Hg]]; [|exact E|].
  - pose proof (Hm k ltac:(lia) (j + 1) ltac:(lia)). rewrite (Hs j) in * by lia. lia.
  - pose proof (Hm j ltac:(lia) (k + 1) ltac:(lia)). rewrite (Hs k) in * by lia. lia.
Qed.

(** The tile sizes of a dimension of size [D]. *)
Definition tile_len (d : idim) (D k : Z) : Z := tile_size d D (tile_start d k) k.

Lemma u32_id : forall x, 0 <= x < 2 ^ 32 -> uwrap 32 x = x.
Proof. intros x Hx. unfold uwrap. apply Z.mod_small. exact Hx. Qed.

Lemma w32_id : forall x, - 2 ^ 31 <= x < 2 ^ 31 -> wrap 32 x = x.
Proof. intros x Hx. apply wrap_id; [lia|]. unfold in_bits, smin, smax. change (32 - 1) with 31. lia. Qed.

(** The fields of a tiling dimension without the 32-bit wrapping. *)
Lemma tile_dim_val : forall o D T skew, 1 <= T <= D -> 0 <= skew <= T -> D + T + T < 2 ^ 31 ->
  let n := ceil_div (D + skew) T in
  tile_dim o D T skew = mkIdim o n (T - skew) T (T * (1 - n) + skew) (T - skew) T ((D + skew - 1) mod T + 1)
  /\ 1 <= n /\ (n - 1) * T < D + skew <= n * T /\ T * n < 2 ^ 31.
Proof.
  intros o D T skew HT Hs Hb n.
  assert (Hn : (n - 1) * T < D + skew <= n * T) by (unfold n, ceil_div; nia).
  assert (Hn1 : 1 <= n) by nia.
  assert (Hnb : T * n < 2 ^ 31) by nia.
  assert (Hnle : n <= T * n) by nia.
  assert (En : uwrap 32 (uwrap 32 (D + skew) + T - 1) / T = n).
  { rewrite (u32_id (D + skew)) by lia. rewrite u32_id by lia. reflexivity. }
  split; [|lia]. unfold tile_dim. rewrite En. rewrite !(w32_id n) by lia. rewrite (w32_id (T - skew)), (w32_id T), (u32_id (T - skew)) by lia.
  rewrite (u32_id (D + skew - 1)) by lia.
  rewrite (u32_id ((D + skew - 1) mod T + 1)) by (pose proof (Z.mod_pos_bound (D + skew - 1) T ltac:(lia)); lia).
  rewrite w32_id by nia. reflexivity.
Qed.

(** C49 for one dimension. *)
Theorem tile_dim_cuts : forall o D T skew, 1 <= T <= D -> 0 <= skew <= T -> D + T + T < 2 ^ 31 ->
  let d := tile_dim o D T skew in
  1 <= it_count d /\ cuts D (it_count d) (tile_start d) (tile_len d D)
  /\ (skew < T -> forall k, 0 <= k < it_count d -> 1 <= tile_len d D k <= T).
Proof.
  intros o D T skew HT Hs Hb d. destruct (tile_dim_val o D T skew HT Hs Hb) as (E & Hn1 & Hn & Hnb). fold d in E.
  set (n := ceil_div (D + skew) T) in *. rewrite E. cbn [it_count it_first_inc it_inc it_first_size it_size it_last_size].
  assert (Hlast : (D + skew - 1) mod T + 1 = D + skew - (n - 1) * T).
  { enough ((D + skew - 1) mod T = D + skew - 1 - (n - 1) * T) by lia. symmetry. apply Z.mod_unique_pos with (q := n - 1); lia. }
  unfold cuts, tile_len, tile_size, tile_start. cbn [it_count it_first_inc it_inc it_first_size it_size it_last_size]. rewrite !Hlast.
  assert (Hmid : forall k, 0 < k -> k < n - 1 -> Z.min (uwrap 32 (D - uwrap 32 (T - skew + (k - 1) * T))) T = T).
  { intros k H1 H2. assert (k * T + T <= (n - 1) * T) by nia. rewrite !u32_id by (try rewrite u32_id; nia). lia. }
  split; [lia|]. split; [split; [reflexivity|split; [|split]]|].
  - intros k Hk Hkn. destruct (k + 1 =? 0) eqn:E1; [lia|]. destruct (k =? n - 1) eqn:E2; [lia|].
    destruct (k =? 0) eqn:E3; [assert (k = 0) by lia; subst k; lia|]. rewrite Hmid by lia. nia.
  - rewrite Z.eqb_refl. destruct (n - 1 =? 0) eqn:E1; [assert (n = 1) by lia; subst n|]; nia.
  - intros k Hk. destruct (k =? n - 1) eqn:E2; [lia|]. destruct (k =? 0) eqn:E3; [lia|]. rewrite Hmid by lia. lia.
  - intros Hsk k Hk. destruct (k =? n - 1) eqn:E2; [lia|]. destruct (k =? 0) eqn:E3; [lia|]. rewrite Hmid by lia. lia.
Qed.

(** * The walk *)

(** Every index is below the count of its dimension. *)
Fixpoint idx_ok (cfg : list idim) (idx : list Z) : Prop :=
  match cfg, idx with
  | [], [] => True
  | d :: cfg', k :: idx' => 0 <= k < it_count d /\ idx_ok cfg' idx'
  | _, _ => False
  end.

(** Number of the tile with indices [idx], first dimension fastest. *)
Fixpoint tile_no (cfg : list idim) (idx : list Z) : Z :=
  match cfg, idx with d :: cfg', k :: idx' => k + it_count d * tile_no cfg' idx' | _, _ => 0 end.

(** State of the iterator on the tile with indices [idx]. *)
Fixpoint at_tile (cfg : list idim) (idx : list Z) : list (Z * Z) :=
  match cfg, idx with d :: cfg', k :: idx' => (tile_start d k, k) :: at_tile cfg' idx' | _, _ => [] end.

Fixpoint next_tile (cfg : list idim) (idx : list Z) : list Z :=
  match cfg, idx with
  | d :: cfg', k :: idx' => if k =? it_count d - 1 then 0 :: next_tile cfg' idx' else k + 1 :: idx'
  | _, _ => idx
  end.

Definition counts_ok (cfg : list idim) : Prop := Forall (fun d => 1 <= it_count d) cfg.

Lemma total_pos : forall cfg, counts_ok cfg -> 1 <= total_count cfg.
Proof. induction 1; cbn [total_count fold_right]; [lia|]. fold (total_count l). nia. Qed.

Lemma tile_no_range : forall cfg idx, idx_ok cfg idx -> 0 <= tile_no cfg idx < total_count cfg.
Proof.
  induction cfg as [|d cfg IH]; intros [|k idx]; cbn [idx_ok tile_no total_count fold_right]; try contradiction; [lia|].
  intros [Hk Hr]. fold (total_count cfg). pose proof (IH _ Hr). nia.
Qed.

Lemma tile_no_inj : forall cfg a b, idx_ok cfg a -> idx_ok cfg b -> tile_no cfg a = tile_no cfg b -> a = b.
Proof.
  induction cfg as [|d cfg IH]; intros [|k a] [|j b]; cbn [idx_ok tile_no]; try contradiction; [reflexivity|].
  intros [Hk Ha] [Hj Hb] E.
  assert (E1 : tile_no cfg a = tile_no cfg b).
  { destruct (Z.lt_trichotomy (tile_no cfg a) (tile_no cfg b)) as [H|[H|H]]; [|exact H|]; nia. }
  assert (E2 : k = j) by (rewrite E1 in E; lia). rewrite E2, (IH _ _ Ha Hb E1). reflexivity.
Qed.

(** One call of Next. *)
Lemma iter_next_tile : forall cfg bufs bsize idx offs, length bufs = length cfg -> idx_ok cfg idx ->
  let '(st, _, done) := iter_next cfg bufs bsize (at_tile cfg idx) offs in
  st = at_tile cfg (next_tile cfg idx) /\ idx_ok cfg (next_tile cfg idx)
  /\ tile_no cfg (next_tile cfg idx) = (if done then 0 else tile_no cfg idx + 1)
  /\ done = (tile_no cfg idx =? total_count cfg - 1).
Proof.
  induction cfg as [|d cfg IH]; intros bufs bsize idx offs Hl Hok.
  - destruct idx; [|contradiction]. destruct bufs; cbn; auto.
  - destruct idx as [|k idx]; [contradiction|]. destruct Hok as [Hk Hok]. destruct bufs as [|b bufs]; [discriminate|].
    cbn [iter_next at_tile next_tile].
    pose proof (tile_no_range _ _ Hok) as Hrg.
    destruct (k =? it_count d - 1) eqn:E.
    + specialize (IH bufs bsize idx (end_of_dim b (buffer_next bsize offs (b_last b))) ltac:(cbn in Hl; lia) Hok).
      destruct (iter_next cfg bufs bsize (at_tile cfg idx) _) as [[st o'] done]. destruct IH as (E1 & E2 & E3 & E4).
      cbn [at_tile tile_no idx_ok total_count fold_right]. fold (total_count cfg). rewrite E1.
      split; [reflexivity|]. split; [split; [lia|exact E2]|]. split.
      * rewrite E3. destruct done; nia.
      * rewrite E4. destruct (tile_no cfg idx =? total_count cfg - 1) eqn:E5; nia.
    + cbn [at_tile tile_no idx_ok total_count fold_right]. fold (total_count cfg).
      assert (Hs : tile_start d (k + 1) = if k =? 0 then tile_start d k + it_first_inc d else tile_start d k + it_inc d).
      { unfold tile_start. destruct (k + 1 =? 0) eqn:E1; [lia|]. destruct (k =? 0) eqn:E2; [assert (k = 0) by lia; subst k|]; lia. }
      destruct (k =? 0) eqn:E2; rewrite Hs; (split; [reflexivity|]; split; [split; [lia|exact Hok]|]; split; [lia|]);
        symmetry; apply Z.eqb_neq; nia.
Qed.

Definition zero_idx (cfg : list idim) : list Z := map (fun _ => 0) cfg.

Lemma at_zero : forall cfg, at_tile cfg (zero_idx cfg) = iter_reset cfg.
Proof. induction cfg as [|d cfg IH]; cbn [zero_idx map at_tile iter_reset]; [reflexivity|]. f_equal. exact IH. Qed.

Lemma zero_ok : forall cfg, counts_ok cfg -> idx_ok cfg (zero_idx cfg) /\ tile_no cfg (zero_idx cfg) = 0.
Proof.
  induction 1 as [|d cfg Hd Hc IH]; cbn [zero_idx map idx_ok tile_no]; [auto|]. destruct IH as [I1 I2]. fold (zero_idx cfg). rewrite I2.
  split; [split; [lia|exact I1]|lia].
Qed.

(** C50: after [n] calls of Next from Reset the iterator is on tile [n mod total], and the next call reports the end exactly on the
    last tile. *)
Theorem iter_walk : forall cfg bufs bsize, counts_ok cfg -> length bufs = length cfg -> forall n,
  exists idx, idx_ok cfg idx /\ tile_no cfg idx = Z.of_nat n mod total_count cfg
    /\ fst (iter_run cfg bufs bsize n) = at_tile cfg idx
    /\ (let '(st, offs) := iter_run cfg bufs bsize n in snd (iter_next cfg bufs bsize st offs))
       = (Z.of_nat (S n) mod total_count cfg =? 0).
Proof.
  intros cfg bufs bsize Hc Hl n. pose proof (total_pos _ Hc) as Ht.
  assert (Hfin : forall idx n, idx_ok cfg idx -> tile_no cfg idx = Z.of_nat n mod total_count cfg -> fst (iter_run cfg bufs bsize n) = at_tile cfg idx ->
     (let '(st, offs) := iter_run cfg bufs bsize n in snd (iter_next cfg bufs bsize st offs)) = (Z.of_nat (S n) mod total_count cfg =? 0)).
  { intros idx m H1 H2 H3. destruct (iter_run cfg bufs bsize m) as [st offs]. cbn [fst] in H3. subst st.
    pose proof (iter_next_tile cfg bufs bsize idx offs Hl H1) as HN.
    destruct (iter_next cfg bufs bsize (at_tile cfg idx) offs) as [[st' o'] done]. destruct HN as (_ & _ & _ & ->). cbn [snd].
    rewrite H2. rewrite Nat2Z.inj_succ. unfold Z.succ.
    set (a := Z.of_nat m) in *. set (t := total_count cfg) in *.
    assert (Hm := Z.mod_pos_bound a t ltac:(lia)).
    destruct (a mod t =? t - 1) eqn:E.
    - symmetry. apply Z.eqb_eq. rewrite <- Zplus_mod_idemp_l. assert (a mod t = t - 1) as -> by lia.
      replace (t - 1 + 1) with t by lia. apply Z_mod_same_full.
    - symmetry. apply Z.eqb_neq. rewrite <- Zplus_mod_idemp_l. rewrite Z.mod_small by lia. lia. }
  enough (exists idx, idx_ok cfg idx /\ tile_no cfg idx = Z.of_nat n mod total_count cfg /\ fst (iter_run cfg bufs bsize n) = at_tile cfg idx) as (idx & H1 & H2 & H3)
    by (exists idx; eauto using Hfin).
  induction n as [|n IH].
  - exists (zero_idx cfg). destruct (zero_ok _ Hc) as [Z1 Z2]. rewrite Z2, at_zero. split; [exact Z1|]. split; [|reflexivity].
    symmetry. apply Z.mod_0_l. lia.
  - destruct IH as (idx & H1 & H2 & H3). cbn [iter_run].
    specialize (Hfin idx n H1 H2 H3).
    destruct (iter_run cfg bufs bsize n) as [st offs]. cbn [fst] in H3. subst st.
    pose proof (iter_next_tile cfg bufs bsize idx offs Hl H1) as HN.
    destruct (iter_next cfg bufs bsize (at_tile cfg idx) offs) as [[st' o'] done]. destruct HN as (-> & Hok & Hno & Hd). cbn [fst snd] in *.
    exists (next_tile cfg idx). split; [exact Hok|]. split; [|reflexivity]. rewrite Hno.
    rewrite Nat2Z.inj_succ in Hfin |- *. unfold Z.succ in *. set (a := Z.of_nat n) in *. set (t := total_count cfg) in *.
    destruct done.
    + symmetry in Hfin. apply Z.eqb_eq in Hfin. lia.
    + rewrite H2. rewrite <- Zplus_mod_idemp_l. symmetry. apply Z.mod_small.
      assert (Hm := Z.mod_pos_bound a t ltac:(lia)). symmetry in Hd. apply Z.eqb_neq in Hd. lia.
Qed.

(** Every combination of tile indices is visited exactly once in a sweep. *)
Theorem iter_visits_once : forall cfg bufs bsize idx, counts_ok cfg -> length bufs = length cfg -> idx_ok cfg idx ->
  0 <= tile_no cfg idx < total_count cfg
  /\ (forall n, 0 <= n < total_count cfg -> fst (iter_run cfg bufs bsize (Z.to_nat n)) = at_tile cfg idx <-> n = tile_no cfg idx).
Proof.
  intros cfg bufs bsize idx Hc Hl Hok. pose proof (tile_no_range _ _ Hok) as Hr. split; [exact Hr|].
  intros n Hn. destruct (iter_walk cfg bufs bsize Hc Hl (Z.to_nat n)) as (i' & H1 & H2 & H3 & _).
  rewrite Z2Nat.id, Z.mod_small in H2 by lia. rewrite H3. split.
  - intros E. rewrite <- H2. f_equal.
    clear - H1 E Hok. revert idx i' H1 E Hok. induction cfg as [|d cfg IH]; intros [|k a] [|j b]; cbn [idx_ok at_tile]; try contradiction; [reflexivity|].
    intros [_ Hb] E [_ Ha]. injection E as _ E1 E2. subst j. f_equal. eauto.
  - intros E. f_equal. apply (tile_no_inj cfg); [assumption|assumption|lia].
Qed.

(** * Tiles of a tensor *)

Definition orders_ok (r : nat) (cfg : list idim) : Prop :=
  NoDup (map it_order cfg) /\ Forall (fun d => 0 <= it_order d < Z.of_nat r) cfg.

Lemma nth_set_at_eq : forall (A : Type) (l : list A) i x d, (i < length l)%nat -> nth i (set_at i x l) d = x.
Proof. intros A l. induction l as [|a l IH]; intros [|i] x d Hi; cbn in Hi |- *; try lia; [reflexivity|apply IH; lia]. Qed.

Lemma nth_set_at_neq : forall (A : Type) (l : list A) i j x d, i <> j -> nth i (set_at j x l) d = nth i l d.
Proof. intros A l. induction l as [|a l IH]; intros [|i] [|j] x d Hij; cbn; try reflexivity; try lia. apply IH. lia. Qed.

(** The tile in every dimension: the one of the iteration dimension over it, or the whole. *)
Lemma sub_tensor_spec : forall cfg shape st, orders_ok (length shape) cfg -> length st = length cfg ->
  let '(pos, size) := sub_tensor cfg shape st in
  length pos = length shape /\ length size = length shape
  /\ (forall i d p k, nth_error cfg i = Some d -> nth_error st i = Some (p, k) ->
        nth (Z.to_nat (it_order d)) pos 0 = uwrap 32 p /\ nth (Z.to_nat (it_order d)) size 0 = tile_size d (nth (Z.to_nat (it_order d)) shape 0) p k)
  /\ (forall a, ~ In (Z.of_nat a) (map it_order cfg) -> nth a pos 0 = 0 /\ nth a size 0 = nth a shape 0).
Proof.
  intros cfg shape st [Hnd Hrg] Hl. unfold sub_tensor.
  set (f := fun (acc : list Z * list Z) ds => let '(pos, size) := acc in let '(d, (p, idx)) := ds in
    if it_order d =? -1 then acc else (set_at (Z.to_nat (it_order d)) (uwrap 32 p) pos, set_at (Z.to_nat (it_order d)) (tile_size d (nth (Z.to_nat (it_order d)) shape 0) p idx) size)).
  assert (Hgen : forall cfg st pos0 size0, NoDup (map it_order cfg) -> Forall (fun d => 0 <= it_order d < Z.of_nat (length shape)) cfg -> length st = length cfg ->
     length pos0 = length shape -> length size0 = length shape ->
     let '(pos, size) := fold_left f (combine cfg st) (pos0, size0) in
     length pos = length shape /\ length size = length shape
     /\ (forall i d p k, nth_error cfg i = Some d -> nth_error st i = Some (p, k) ->
           nth (Z.to_nat (it_order d)) pos 0 = uwrap 32 p /\ nth (Z.to_nat (it_order d)) size 0 = tile_size d (nth (Z.to_nat (it_order d)) shape 0) p k)
     /\ (forall a, ~ In (Z.of_nat a) (map it_order cfg) -> nth a pos 0 = nth a pos0 0 /\ nth a size 0 = nth a size0 0)).
  { clear. induction cfg as [|d cfg IH]; intros [|[p k] st] pos0 size0 Hnd Hrg Hl Hp Hs; try discriminate.
    - cbn. split; [exact Hp|]. split; [exact Hs|]. split; [|auto]. intros [|i]; discriminate.
    - cbn [combine fold_left]. inversion Hnd as [|? ? Hni Hnd']; subst. inversion Hrg as [|? ? Hd Hrg']; subst.
      unfold f at 2. destruct (it_order d =? -1) eqn:E; [lia|].
      set (a0 := Z.to_nat (it_order d)) in *.
      specialize (IH st (set_at a0 (uwrap 32 p) pos0) (set_at a0 (tile_size d (nth a0 shape 0) p k) size0) Hnd' Hrg' ltac:(cbn in Hl; lia)
        ltac:(rewrite set_at_length; exact Hp) ltac:(rewrite set_at_length; exact Hs)).
      destruct (fold_left f (combine cfg st) _) as [pos size]. destruct IH as (L1 & L2 & A & B).
      assert (Ea0 : Z.of_nat a0 = it_order d) by (unfold a0; lia).
      split; [exact L1|]. split; [exact L2|]. split.
      + intros [|i] d' p' k' H1 H2; cbn [nth_error] in H1, H2.
        * injection H1 as <-. injection H2 as <- <-. fold a0.
          destruct (B a0 ltac:(rewrite Ea0; exact Hni)) as [B1 B2]. rewrite B1, B2.
          rewrite !nth_set_at_eq by lia. auto.
        * exact (A i d' p' k' H1 H2).
      + intros a Ha. cbn [map In] in Ha. destruct (B a ltac:(tauto)) as [B1 B2]. rewrite B1, B2.
        rewrite !nth_set_at_neq by (intros ->; apply Ha; left; congruence). auto. }
  specialize (Hgen cfg st (map (fun _ => 0) shape) shape Hnd Hrg Hl ltac:(apply map_length) eq_refl).
  destruct (fold_left f (combine cfg st) _) as [pos size]. destruct Hgen as (L1 & L2 & A & B).
  split; [exact L1|]. split; [exact L2|]. split; [exact A|].
  intros a Ha. destruct (B a Ha) as [B1 B2]. split; [|exact B2]. rewrite B1. clear.
  revert a. induction shape as [|s shape IH]; intros [|a]; cbn; auto.
Qed.

(** The coordinate [c] lies in the box at [pos] of extent [size]. *)
Definition in_box (pos size c : list Z) : Prop :=
  length c = length pos /\ forall a, (a < length c)%nat -> nth a pos 0 <= nth a c 0 < nth a pos 0 + nth a size 0.

Lemma at_tile_nth : forall cfg idx i d, idx_ok cfg idx -> nth_error cfg i = Some d ->
  exists k, nth_error idx i = Some k /\ 0 <= k < it_count d /\ nth_error (at_tile cfg idx) i = Some (tile_start d k, k).
Proof.
  induction cfg as [|d0 cfg IH]; intros [|k0 idx] i d; cbn [idx_ok]; try contradiction; [destruct i; discriminate|].
  intros [Hk Hok] Hd. destruct i as [|i]; cbn [nth_error at_tile] in *; [|apply IH; assumption].
  injection Hd as <-. exists k0. auto.
Qed.

Lemma at_tile_len : forall cfg idx, idx_ok cfg idx -> length (at_tile cfg idx) = length cfg.
Proof. induction cfg as [|d cfg IH]; intros [|k idx]; cbn [idx_ok at_tile length]; try contradiction; [reflexivity|]. intros [_ H]. rewrite IH by exact H. reflexivity. Qed.

(** If every iteration dimension cuts its axis, then every coordinate of the tensor is in exactly one tile. *)
Lemma boxes_partition : forall cfg shape,
  orders_ok (length shape) cfg -> length cfg = length shape ->
  Forall (fun d => let D := nth (Z.to_nat (it_order d)) shape 0 in 1 <= it_count d /\ D < 2 ^ 31 /\ cuts D (it_count d) (tile_start d) (tile_len d D)) cfg ->
  forall c, valid shape c ->
  exists idx, (idx_ok cfg idx /\ (let '(pos, size) := sub_tensor cfg shape (at_tile cfg idx) in in_box pos size c))
    /\ forall j, idx_ok cfg j -> (let '(pos, size) := sub_tensor cfg shape (at_tile cfg j) in in_box pos size c) -> j = idx.
Proof.
  intros cfg shape Hord Hlen HF c Hc.
  assert (Hvl : length c = length shape) by (apply valid_length; exact Hc).
  assert (Hnth : forall a, (a < length shape)%nat -> 0 <= nth a c 0 < nth a shape 0).
  { clear - Hc. revert c Hc. induction shape as [|s shape IH]; intros [|x c] Hc a Ha; cbn [valid length] in *; try contradiction; [lia|].
    destruct Hc as [H1 H2]. destruct a as [|a]; cbn [nth]; [exact H1|apply IH; [exact H2|lia]]. }
  assert (Hall : forall a, (a < length shape)%nat -> exists i d, nth_error cfg i = Some d /\ Z.to_nat (it_order d) = a).
  { intros a Ha. destruct Hord as [Hnd Hrg].
    assert (Hin : In (Z.of_nat a) (map it_order cfg)).
    { apply (NoDup_length_incl (l := map it_order cfg) (l' := map Z.of_nat (seq 0 (length shape)))) ; [exact Hnd| | |].
      - rewrite !map_length, seq_length. lia.
      - intros x Hx. apply in_map_iff in Hx. destruct Hx as (d & <- & Hd). rewrite Forall_forall in Hrg. specialize (Hrg d Hd).
        apply in_map_iff. exists (Z.to_nat (it_order d)). rewrite in_seq. lia.
      - apply in_map_iff. exists a. split; [reflexivity|]. apply in_seq. lia. }
    apply in_map_iff in Hin. destruct Hin as (d & Hd & Hin). apply In_nth_error in Hin. destruct Hin as (i & Hi). exists i, d. split; [exact Hi|]. rewrite Hd. lia. }
  (* box membership in terms of the dimensions *)
  assert (Hbox : forall idx, idx_ok cfg idx ->
    (let '(pos, size) := sub_tensor cfg shape (at_tile cfg idx) in in_box pos size c)
    <-> (forall i d k, nth_error cfg i = Some d -> nth_error idx i = Some k ->
           let D := nth (Z.to_nat (it_order d)) shape 0 in let x := nth (Z.to_nat (it_order d)) c 0 in
           tile_start d k <= x < tile_start d k + tile_len d D k)).
  { intros idx Hok. pose proof (sub_tensor_spec cfg shape (at_tile cfg idx) Hord (at_tile_len _ _ Hok)) as HS.
    destruct (sub_tensor cfg shape (at_tile cfg idx)) as [pos size]. destruct HS as (L1 & L2 & A & _).
    assert (Hst : forall i d k, nth_error cfg i = Some d -> nth_error idx i = Some k -> nth_error (at_tile cfg idx) i = Some (tile_start d k, k) /\ 0 <= k < it_count d).
    { intros i d k Hd Hk. destruct (at_tile_nth cfg idx i d Hok Hd) as (k' & Hk' & Hr & Hs). rewrite Hk in Hk'. injection Hk' as <-. auto. }
    assert (Hsm : forall i d k, nth_error cfg i = Some d -> 0 <= k < it_count d -> uwrap 32 (tile_start d k) = tile_start d k).
    { intros i d k Hd Hk. rewrite Forall_forall in HF. destruct (HF d (nth_error_In _ _ Hd)) as (Hn & HD & Hcut).
      pose proof (cuts_mono _ _ _ _ Hcut) as Hmono. destruct Hcut as (C0 & _ & C2 & C3). apply u32_id.
      pose proof (Hmono k Hk 0 ltac:(lia)). pose proof (Hmono (it_count d - 1) ltac:(lia) k ltac:(lia)). pose proof (C3 (it_count d - 1) ltac:(lia)). lia. }
    split.
    - intros [Hl Hin] i d k Hd Hk. cbv zeta. destruct (Hst i d k Hd Hk) as [Hs Hr]. destruct (A i d _ _ Hd Hs) as [A1 A2].
      assert (Hb : (Z.to_nat (it_order d) < length shape)%nat).
      { destruct Hord as [_ Hrg]. rewrite Forall_forall in Hrg. pose proof (Hrg d (nth_error_In _ _ Hd)). lia. }
      specialize (Hin (Z.to_nat (it_order d)) ltac:(lia)). rewrite A1, A2 in Hin. rewrite (Hsm i d k Hd Hr) in Hin. exact Hin.
    - intros Hd. split; [lia|]. intros a Ha. destruct (Hall a ltac:(lia)) as (i & d & Hi & Ea).
      destruct (at_tile_nth cfg idx i d Hok Hi) as (k & Hk & Hr & Hs). destruct (A i d _ _ Hi Hs) as [A1 A2].
      specialize (Hd i d k Hi Hk). cbv zeta in Hd. rewrite <- Ea. rewrite A1, A2, (Hsm i d k Hi Hr). exact Hd. }
  (* the index in every dimension *)
  assert (Hex : exists idx, idx_ok cfg idx /\ (forall i d k, nth_error cfg i = Some d -> nth_error idx i = Some k ->
      let D := nth (Z.to_nat (it_order d)) shape 0 in let x := nth (Z.to_nat (it_order d)) c 0 in
      tile_start d k <= x < tile_start d k + tile_len d D k /\ forall j, 0 <= j < it_count d -> tile_start d j <= x < tile_start d j + tile_len d D j -> j = k)).
  { assert (Hx : Forall (fun d => 0 <= nth (Z.to_nat (it_order d)) c 0 < nth (Z.to_nat (it_order d)) shape 0) cfg).
    { apply Forall_forall. intros d Hd. apply Hnth. destruct Hord as [_ Hrg]. rewrite Forall_forall in Hrg. pose proof (Hrg d Hd). lia. }
    clear - HF Hx. induction cfg as [|d cfg IH].
    - exists []. split; [exact I|]. intros [|i]; discriminate.
    - inversion HF as [|? ? Hd HF']; subst. inversion Hx as [|? ? Hxd Hx']; subst. destruct (IH HF' Hx') as (idx & Hok & Hi).
      destruct Hd as (Hn & _ & Hcut). destruct (cuts_unique _ _ _ _ Hn Hcut _ Hxd) as (k & [Hk Hin] & Hu).
      exists (k :: idx). split; [split; assumption|]. intros [|i] d' k' H1 H2; cbn [nth_error] in H1, H2; [|exact (Hi i d' k' H1 H2)].
      injection H1 as <-. injection H2 as <-. cbv zeta. auto. }
  destruct Hex as (idx & Hok & Hi). exists idx. split.
  - split; [exact Hok|]. apply Hbox; [exact Hok|]. intros i d k H1 H2. exact (proj1 (Hi i d k H1 H2)).
  - intros j Hj Hin. pose proof (proj1 (Hbox j Hj) Hin) as Hin2. clear Hbox Hin. rename Hin2 into Hin.
    assert (Heq : forall i d kj ki, nth_error cfg i = Some d -> nth_error j i = Some kj -> nth_error idx i = Some ki -> kj = ki).
    { intros i d kj ki Hd Hkj Hki. destruct (at_tile_nth cfg j i d Hj Hd) as (k' & Hk' & Hr & _). rewrite Hkj in Hk'. injection Hk' as <-.
      destruct (Hi i d ki Hd Hki) as [_ Hu]. apply Hu; [exact Hr|]. exact (Hin i d kj Hd Hkj). }
    clear - Heq Hj Hok. revert j idx Heq Hj Hok. induction cfg as [|d cfg IH]; intros [|a j] [|b idx] Heq Hj Hok; cbn [idx_ok] in *; try contradiction; [reflexivity|].
    rewrite (Heq 0%nat d a b eq_refl eq_refl eq_refl). f_equal. apply IH; [|tauto|tauto]. intros i d' x y H1 H2 H3. exact (Heq (S i) d' x y H1 H2 H3).
Qed.

(** The orders and dimensions of a tiling configuration. *)
Lemma tile_cfg_orders : forall shape tile order skew, map it_order (tile_cfg shape tile order skew) = map Z.of_nat order.
Proof.
  intros shape tile [|d0 ds] skew; cbn [tile_cfg map]; [reflexivity|]. rewrite map_map. reflexivity.
Qed.

Lemma tile_cfg_dims : forall (P : idim -> Prop) shape tile order skew,
  (forall d s, In d order -> s = skew \/ s = 0 -> P (tile_dim (Z.of_nat d) (nth d shape 0) (nth d tile 0) s)) -> Forall P (tile_cfg shape tile order skew).
Proof.
  intros P shape tile [|d0 ds] skew H; cbn [tile_cfg]; constructor; [apply H; cbn; auto|].
  apply Forall_forall. intros x Hx. apply in_map_iff in Hx. destruct Hx as (d & <- & Hd). apply H; cbn; auto.
Qed.

(** The order is a permutation of the axes. *)
Definition is_order (r : nat) (order : list nat) : Prop := NoDup order /\ length order = r /\ Forall (fun d => (d < r)%nat) order.

Lemma order_ok : forall r shape tile order skew, is_order r order -> orders_ok r (tile_cfg shape tile order skew) /\ length (tile_cfg shape tile order skew) = r.
Proof.
  intros r shape tile order skew (Hnd & Hl & Hrg). split; [split|].
  - rewrite tile_cfg_orders. apply FinFun.Injective_map_NoDup; [|exact Hnd]. intros x y. lia.
  - apply Forall_forall. intros d Hd. apply (in_map it_order) in Hd. rewrite tile_cfg_orders in Hd. apply in_map_iff in Hd.
    destruct Hd as (a & Ha & Hin). rewrite Forall_forall in Hrg. specialize (Hrg a Hin). lia.
  - rewrite <- (map_length it_order), tile_cfg_orders, map_length. exact Hl.
Qed.

(** C49: for every tile size, iteration order and skew, in one sweep every element of the tensor is in exactly one of the visited
    sub-tensors, and every sub-tensor stays inside the tensor. *)
Theorem tiles_partition : forall shape tile order skew bufs bsize,
  is_order (length shape) order ->
  (forall a, (a < length shape)%nat -> 1 <= nth a tile 0 <= nth a shape 0 /\ nth a shape 0 + 2 * nth a tile 0 < 2 ^ 31) ->
  (forall a, In a order -> 0 <= skew <= nth a tile 0) ->
  length bufs = length order ->
  let cfg := tile_cfg shape tile order skew in
  let box n := sub_tensor cfg shape (fst (iter_run cfg bufs bsize (Z.to_nat n))) in
  forall c, valid shape c ->
  exists n, (0 <= n < total_count cfg /\ in_box (fst (box n)) (snd (box n)) c)
    /\ forall m, 0 <= m < total_count cfg -> in_box (fst (box m)) (snd (box m)) c -> m = n.
Proof.
  intros shape tile order skew bufs bsize Hord Hsz Hskew Hb cfg box c Hc.
  destruct (order_ok _ shape tile order skew Hord) as [Ho Hl]. fold cfg in Ho, Hl.
  assert (HF : Forall (fun d => let D := nth (Z.to_nat (it_order d)) shape 0 in 1 <= it_count d /\ D < 2 ^ 31 /\ cuts D (it_count d) (tile_start d) (tile_len d D)) cfg).
  { apply tile_cfg_dims. intros d s Hd Hs. cbv zeta. destruct Hord as (_ & _ & Hrg). rewrite Forall_forall in Hrg. specialize (Hrg d Hd).
    destruct (Hsz d Hrg) as [H1 H2]. specialize (Hskew d Hd).
    destruct (tile_dim_cuts (Z.of_nat d) (nth d shape 0) (nth d tile 0) s ltac:(lia) ltac:(lia) ltac:(lia)) as (C1 & C2 & _).
    cbn [it_order tile_dim]. rewrite Nat2Z.id. split; [exact C1|]. split; [lia|exact C2]. }
  assert (Hcnt : counts_ok cfg) by (eapply Forall_impl; [|exact HF]; cbv zeta; tauto).
  assert (Hbl : length bufs = length cfg) by (destruct Hord as (_ & Hlo & _); lia).
  destruct (boxes_partition cfg shape Ho Hl HF c Hc) as (idx & [Hok Hin] & Hu).
  destruct (iter_visits_once cfg bufs bsize idx Hcnt Hbl Hok) as [Hr Hv].
  exists (tile_no cfg idx). split.
  - split; [exact Hr|]. unfold box. rewrite (proj2 (Hv _ Hr) eq_refl). destruct (sub_tensor cfg shape (at_tile cfg idx)); exact Hin.
  - intros m Hm Hbm. apply Hv; [exact Hm|]. unfold box in Hbm.
    destruct (iter_walk cfg bufs bsize Hcnt Hbl (Z.to_nat m)) as (i' & H1 & H2 & H3 & _). rewrite H3 in *.
    f_equal. apply Hu; [exact H1|]. destruct (sub_tensor cfg shape (at_tile cfg i')); exact Hbm.
Qed.
