(** The MLI 3.0 runtime object Permute (lib/src/kernels/diverse/mli_krn_permute_runtime.cc): model and tile-by-tile execution (property C76). *)
From Coq Require Import ZArith List Lia Bool Permutation Sorting.Sorted.
From Verif Require Import Base FxMath FxMathProofs Tensor TensorProofs MovProofs Quant QuantProofs DotProdProofs ArgMax Permute PermuteProofs PoolKernels Eltwise EltwiseProofs Relu ReluProofs
  Prelu3Proofs Ops3 Ops3Proofs Iter IterProofs IterTheorems TileRun TileProofs TileConv TileDw TileElt TilePoint TileStep.
Import ListNotations.
Open Scope Z_scope.

(** * Model *)

(** mli_krn_permute_runtime.cc:95-134 Issue. The constructor (:21-93) and Update (:138-146) are those of the pointwise operators
    ([un_create], [un_update]): shapes from GetSubTensor, strides of the buffers, both iterators move on. Elements of 4 or 1 bytes only; any
    other size ends in MLI_ASSERT(0). Simplification: the axes beyond the rank, whose size is set to 1, are left out; the element format,
    which the kernel copies from input to output tile tensor, is not stored. *)
Definition perm_issue (perm : list nat) (ob : un_obj) (mi m : mem) : option mem :=
  let esz := t_esz (uo_tin ob) in
  if (esz =? 4) || (esz =? 1) then permute_run (uo_tin ob) (uo_tout ob) perm mi m else None.

(** mli_krn_permute_runtime.cc:148-159 GetIOSizesAndOffsets: sizes and offsets of input and output *)
Definition perm_io (ob : un_obj) : list Z * list Z * list Z * list Z := (ti_size (uo_in ob), ti_size (uo_out ob), ti_pos (uo_in ob), ti_pos (uo_out ob)).

(** * Tile numbers *)

Lemma idx_at_no cfg n : counts_ok cfg -> Z.of_nat n < total_count cfg -> tile_no cfg (idx_at cfg n) = Z.of_nat n.
Proof.
  intros Hc. induction n as [|n IH]; intros Hn.
  - cbn [idx_at]. apply (zero_ok cfg Hc).
  - cbn [idx_at]. specialize (IH ltac:(lia)). pose proof (idx_at_ok cfg n Hc) as Hok.
    pose proof (iter_next_tile cfg (repeat (mkBdim 0 0 0 0) (length cfg)) 1 (idx_at cfg n) 0 (repeat_length _ _) Hok) as HN.
    destruct (iter_next _ _ _ _ _) as [[st o] done]. destruct HN as (_ & _ & E & D). rewrite E, IH in *. destruct done; [|lia].
    symmetry in D. apply Z.eqb_eq in D. lia.
Qed.

(** Pairs of the number of tiles and the tile index of the axes. *)
Definition pairs_no (l : list (Z * Z)) : Z := fold_right (fun p acc => snd p + fst p * acc) 0 l.
Definition pairs_all (l : list (Z * Z)) : Z := fold_right (fun p acc => fst p * acc) 1 l.

Lemma tile_no_pairs : forall cfg idx, length idx = length cfg -> tile_no cfg idx = pairs_no (combine (map it_count cfg) idx) /\ total_count cfg = pairs_all (combine (map it_count cfg) idx).
Proof.
  induction cfg as [|d cfg IH]; intros [|k idx] L; try discriminate; [split; reflexivity|]. injection L as L. destruct (IH idx L) as [A B].
  cbn [tile_no total_count map combine pairs_no pairs_all fold_right fst snd]. fold (total_count cfg). rewrite A, B. auto.
Qed.

Lemma pairs_filter (g : nat -> Z * Z) (h : nat -> bool) : forall l, (forall a, In a l -> h a = false -> g a = (1, 0)) ->
  pairs_no (map g l) = pairs_no (map g (filter h l)) /\ pairs_all (map g l) = pairs_all (map g (filter h l)).
Proof.
  induction l as [|a l IH]; intros H; [split; reflexivity|]. destruct IH as [A B]; [intros b Hb; apply H; right; exact Hb|]. cbn [filter].
  destruct (h a) eqn:E; cbn [map pairs_no pairs_all fold_right]; fold (pairs_no (map g l)) (pairs_all (map g l)).
  - rewrite A, B. split; reflexivity.
  - rewrite (H a (or_introl eq_refl) E). cbn [fst snd]. rewrite A, B. split; lia.
Qed.

(** Two increasing lists with the same elements are equal. *)
Lemma sorted_unique : forall l l' : list nat, StronglySorted lt l -> StronglySorted lt l' -> Permutation l l' -> l = l'.
Proof.
  induction l as [|a l IH]; intros [|b l'] S S' P; [reflexivity|apply Permutation_nil in P; discriminate|symmetry in P; apply Permutation_nil in P; discriminate|].
  apply StronglySorted_inv in S as [S F]. apply StronglySorted_inv in S' as [S' F']. rewrite Forall_forall in F, F'.
  assert (a = b).
  { assert (Ia : In a (b :: l')) by (eapply Permutation_in; [exact P|left; reflexivity]). assert (Ib : In b (a :: l)) by (eapply Permutation_in; [symmetry; exact P|left; reflexivity]).
    destruct Ia as [Ia|Ia]; [auto|]. destruct Ib as [Ib|Ib]; [auto|]. specialize (F b Ib). specialize (F' a Ia). lia. }
  subst b. f_equal. apply IH; [exact S|exact S'|]. eapply Permutation_cons_inv. exact P.
Qed.

Lemma filter_sorted (h : nat -> bool) : forall l,
  (forall i j, (i < j < length l)%nat -> h (nth i l 0%nat) = true -> h (nth j l 0%nat) = true -> (nth i l 0 < nth j l 0)%nat) -> StronglySorted lt (filter h l).
Proof.
  induction l as [|a l IH]; intros H; cbn [filter]; [apply SSorted_nil|].
  assert (Hs : StronglySorted lt (filter h l)) by (apply IH; intros i j Hij; apply (H (S i) (S j)); cbn [length]; lia).
  destruct (h a) eqn:E; [|exact Hs]. apply SSorted_cons; [exact Hs|]. apply Forall_forall. intros b Hb. apply filter_In in Hb as [Hb Eb].
  destruct (In_nth _ _ 0%nat Hb) as (j & Hj & <-). apply (H 0%nat (S j)); cbn [length nth]; [lia|exact E|exact Eb].
Qed.

Lemma filter_perm (h : nat -> bool) l l' : Permutation l l' -> Permutation (filter h l) (filter h l').
Proof.
  intros P. induction P; cbn [filter].
  - apply perm_nil.
  - destruct (h x); [apply perm_skip|]; assumption.
  - destruct (h x), (h y); try apply perm_swap; apply Permutation_refl.
  - eapply perm_trans; eassumption.
Qed.

(** * Axes by position *)

Lemma axes_nth shape tile : tiling shape tile -> forall k a d, (a < length shape)%nat -> nth a (axes k shape tile) d = tile_dim (Z.of_nat (k + a)) (nth a shape 0) (nth a tile 0) 0.
Proof.
  intros H. induction H as [|D T shape tile HT H IH]; intros k [|a] d Ha; cbn [length axes nth] in *; try lia.
  - rewrite Nat.add_0_r. reflexivity.
  - rewrite IH by lia. do 2 f_equal. lia.
Qed.

Lemma axes_length shape tile : tiling shape tile -> forall k, length (axes k shape tile) = length shape.
Proof. intros H. induction H; intros k; cbn [axes length]; auto. Qed.

Lemma tiling_nth shape tile : tiling shape tile -> forall a, (a < length shape)%nat -> 1 <= nth a tile 0 <= nth a shape 0 /\ nth a shape 0 + 2 * nth a tile 0 < 2 ^ 31.
Proof. intros H. induction H as [|D T shape tile HT H IH]; intros [|a] Ha; cbn [length nth] in *; try lia. apply IH. lia. Qed.

Lemma idx_ok_nth d0 : forall cfg idx, idx_ok cfg idx <-> length idx = length cfg /\ forall a, (a < length cfg)%nat -> 0 <= nth a idx 0 < it_count (nth a cfg d0).
Proof.
  induction cfg as [|d cfg IH]; intros [|k idx]; cbn [idx_ok length].
  - split; [intros _; split; [reflexivity|intros; lia]|auto].
  - split; [intros []|intros [? _]; discriminate].
  - split; [intros []|intros [? _]; discriminate].
  - rewrite IH. split.
    + intros (Hk & L & H). split; [lia|]. intros [|a] Ha; cbn [nth]; [exact Hk|apply H; lia].
    + intros [L H]. split; [apply (H 0%nat); lia|]. split; [lia|]. intros a Ha. apply (H (S a)). lia.
Qed.

Lemma starts_nth d0 : forall cfg idx a, length idx = length cfg -> (a < length cfg)%nat -> nth a (starts cfg idx) 0 = tile_start (nth a cfg d0) (nth a idx 0).
Proof. induction cfg as [|d cfg IH]; intros [|k idx] [|a] L Ha; cbn [length starts nth] in *; try lia. all: try reflexivity; apply IH; lia. Qed.

Lemma sizes_nth d0 : forall cfg shape idx a, length idx = length cfg -> length shape = length cfg -> (a < length cfg)%nat ->
  nth a (sizes_at cfg shape idx) 0 = tile_len (nth a cfg d0) (nth a shape 0) (nth a idx 0).
Proof. induction cfg as [|d cfg IH]; intros [|D shape] [|k idx] [|a] L1 L2 Ha; cbn [length sizes_at nth] in *; try lia. all: try reflexivity; apply IH; lia. Qed.

(** * Both iterators in step *)

(** Axes that are cut into several tiles come in the same order in the output as in the input. *)
Definition cut_axes_ordered (perm : list nat) (shape tile : list Z) : Prop :=
  let cut a := nth a tile 0 < nth a shape 0 in
  forall i j, (i < j < length perm)%nat -> cut (nth i perm 0%nat) -> cut (nth j perm 0%nat) -> (nth i perm 0 < nth j perm 0)%nat.

Definition d0 : idim := tile_dim 0 1 1 0.

Lemma nth_map_at (f : nat -> Z) : forall l d, (d < length l)%nat -> nth d (map f l) 0 = f (nth d l 0%nat).
Proof. induction l as [|a l IH]; intros [|d] Hd; cbn [length map nth] in *; try lia. all: try reflexivity; apply IH; lia. Qed.

Lemma permuted_map perm c p : permuted perm c p -> c = map (fun a => nth a p 0) perm.
Proof.
  intros (L1 & L2 & H). apply (nth_ext _ _ 0 0); [rewrite map_length; exact L2|]. intros d Hd. rewrite nth_map_at by lia. symmetry. apply H. lia.
Qed.

Lemma in_perm perm r a : Permutation perm (seq 0 r) -> In a perm -> (a < r)%nat.
Proof. intros P Ha. apply (Permutation_in _ P) in Ha. apply in_seq in Ha. lia. Qed.

Lemma perm_length perm r : Permutation perm (seq 0 r) -> length perm = r.
Proof. intros P. rewrite (Permutation_length P). apply seq_length. Qed.

Lemma perm_nth perm r d : Permutation perm (seq 0 r) -> (d < r)%nat -> (nth d perm 0 < r)%nat.
Proof. intros P Hd. apply (in_perm perm); [exact P|]. apply nth_In. rewrite (perm_length _ _ P). exact Hd. Qed.

Lemma perm_tiling perm si ti so to : tiling si ti -> Permutation perm (seq 0 (length si)) -> permuted perm so si -> permuted perm to ti -> tiling so to.
Proof.
  intros H P Hs Ht. rewrite (permuted_map _ _ _ Hs), (permuted_map _ _ _ Ht). clear Hs Ht so to.
  assert (G : forall l, (forall a, In a l -> (a < length si)%nat) -> tiling (map (fun a => nth a si 0) l) (map (fun a => nth a ti 0) l)).
  { induction l as [|a l IH]; intros Hl; cbn [map]; [apply Forall2_nil|]. apply Forall2_cons; [|apply IH; intros b Hb; apply Hl; right; exact Hb].
    apply (tiling_nth _ _ H). apply Hl. left. reflexivity. }
  apply G. intros a. apply in_perm. exact P.
Qed.

Theorem perm_in_step perm si ti so to n : tiling si ti -> Permutation perm (seq 0 (length si)) -> permuted perm so si -> permuted perm to ti -> cut_axes_ordered perm si ti ->
  total_count (axes 0 so to) = total_count (axes 0 si ti)
  /\ (Z.of_nat n < total_count (axes 0 si ti) -> permuted perm (idx_at (axes 0 so to) n) (idx_at (axes 0 si ti) n)).
Proof.
  intros H P Hs Ht Ho. pose proof (perm_tiling _ _ _ _ _ H P Hs Ht) as H'. pose proof (perm_length _ _ P) as Lp.
  assert (Lso : length so = length perm) by apply Hs. pose proof (axes_length _ _ H 0) as La. pose proof (axes_length _ _ H' 0) as La'.
  assert (G : forall idx, idx_ok (axes 0 si ti) idx -> let idx' := map (fun a => nth a idx 0) perm in
    idx_ok (axes 0 so to) idx' /\ tile_no (axes 0 so to) idx' = tile_no (axes 0 si ti) idx /\ total_count (axes 0 so to) = total_count (axes 0 si ti)).
  { intros idx Hok idx'. pose proof (proj1 (idx_ok_nth d0 _ _) Hok) as [Li Hi].
    set (cnt := fun a => it_count (nth a (axes 0 si ti) d0)).
    assert (Hc : forall d, (d < length perm)%nat -> it_count (nth d (axes 0 so to) d0) = cnt (nth d perm 0%nat)).
    { intros d Hd. unfold cnt. pose proof (perm_nth perm _ d P ltac:(lia)) as Hr. rewrite (axes_nth _ _ H') by lia. rewrite (axes_nth _ _ H) by lia.
      destruct Hs as (_ & _ & Hs). destruct Ht as (_ & _ & Ht). rewrite Hs, Ht by lia. reflexivity. }
    assert (Li' : length idx' = length perm) by apply map_length.
    assert (Hx : forall d, (d < length perm)%nat -> nth d idx' 0 = nth (nth d perm 0%nat) idx 0).
    { intros d Hd. unfold idx'. rewrite nth_map_at by lia. reflexivity. }
    assert (Hok' : idx_ok (axes 0 so to) idx').
    { apply (idx_ok_nth d0). split; [lia|]. intros d Hd. rewrite Hc, Hx by lia. apply Hi. pose proof (perm_nth perm _ d P ltac:(lia)). lia. }
    split; [exact Hok'|].
    set (g := fun a => (cnt a, nth a idx 0)).
    assert (E1 : combine (map it_count (axes 0 si ti)) idx = map g (seq 0 (length si))).
    { apply (nth_ext _ _ (it_count d0, 0) (g 0%nat)); [rewrite combine_length, !map_length, seq_length; lia|]. rewrite combine_length, map_length. intros d Hd.
      rewrite combine_nth by (rewrite map_length; lia). rewrite !map_nth, seq_nth by lia. reflexivity. }
    assert (E2 : combine (map it_count (axes 0 so to)) idx' = map g perm).
    { apply (nth_ext _ _ (it_count d0, 0) (g 0%nat)); [rewrite combine_length, !map_length; lia|]. rewrite combine_length, map_length. intros d Hd.
      rewrite combine_nth by (rewrite map_length; lia). rewrite !map_nth. rewrite Hc, Hx by lia. reflexivity. }
    destruct (tile_no_pairs (axes 0 si ti) idx ltac:(lia)) as [A1 B1]. destruct (tile_no_pairs (axes 0 so to) idx' ltac:(lia)) as [A2 B2]. rewrite A1, B1, A2, B2, E1, E2.
    set (h := fun a => nth a ti 0 <? nth a si 0).
    assert (Hg : forall a, (a < length si)%nat -> h a = false -> g a = (1, 0)).
    { intros a Ha E. unfold h in E. apply Z.ltb_ge in E. pose proof (tiling_nth _ _ H a Ha) as T. assert (Et : nth a ti 0 = nth a si 0) by lia.
      pose proof (Hi a ltac:(lia)) as Hr. fold (cnt a) in Hr. unfold g. assert (Ec : cnt a = 1) by (unfold cnt; rewrite (axes_nth _ _ H) by lia; rewrite Et; apply uncut_dim; lia). rewrite Ec in *. f_equal. lia. }
    destruct (pairs_filter g h perm) as [-> ->]; [intros a Ha; apply Hg; exact (in_perm _ _ _ P Ha)|].
    destruct (pairs_filter g h (seq 0 (length si))) as [-> ->]; [intros a Ha; apply Hg; apply in_seq in Ha; lia|].
    assert (Ef : filter h perm = filter h (seq 0 (length si))).
    { apply sorted_unique.
      - apply filter_sorted. intros i j Hij Ei Ej. unfold h in Ei, Ej. apply Z.ltb_lt in Ei, Ej. apply Ho; assumption.
      - apply filter_sorted. intros i j Hij _ _. rewrite seq_length in Hij. rewrite !seq_nth by lia. lia.
      - apply filter_perm. exact P. }
    rewrite Ef. auto. }
  assert (C : counts_ok (axes 0 si ti)) by (apply axes_counts; exact H). assert (C' : counts_ok (axes 0 so to)) by (apply axes_counts; exact H').
  destruct (G _ (idx_at_ok _ n C)) as (K & No & Tt). split; [exact Tt|]. intros Hn.
  assert (E : idx_at (axes 0 so to) n = map (fun a => nth a (idx_at (axes 0 si ti) n) 0) perm).
  { apply (tile_no_inj (axes 0 so to)); [apply idx_at_ok; exact C'|exact K|]. rewrite No. rewrite !idx_at_no by (try assumption; lia). reflexivity. }
  rewrite E. pose proof (proj1 (idx_ok_nth d0 _ _) (idx_at_ok _ n C)) as [Li _]. split; [lia|]. split; [apply map_length|]. intros d Hd.
  rewrite nth_map_at by lia. reflexivity.
Qed.

(** Hence the tiles are each other's permutations. *)
Theorem perm_tiles perm si ti so to sti sto n : tiling si ti -> Permutation perm (seq 0 (length si)) -> permuted perm so si -> permuted perm to ti -> cut_axes_ordered perm si ti ->
  let i := ti_run (tiles_iter si ti sti) n in let o := ti_run (tiles_iter so to sto) n in
  Z.of_nat n < total_count (axes 0 so to) -> permuted perm (ti_size o) (ti_size i) /\ permuted perm (ti_pos o) (ti_pos i).
Proof.
  intros H P Hs Ht Ho i o Hn. destruct (perm_in_step perm si ti so to n H P Hs Ht Ho) as [Et Hi]. rewrite Et in Hn. specialize (Hi Hn).
  pose proof (perm_tiling _ _ _ _ _ H P Hs Ht) as H'. pose proof (perm_length _ _ P) as Lp. pose proof (axes_length _ _ H 0) as La. pose proof (axes_length _ _ H' 0) as La'.
  assert (Lso : length so = length perm) by apply Hs.
  destruct (tiles_iter_tile si ti sti n H) as (S1 & L1 & _ & _ & Z1 & P1). fold i in S1, L1, Z1, P1. destruct (tiles_iter_tile so to sto n H') as (S2 & L2 & _ & _ & Z2 & P2). fold o in S2, L2, Z2, P2.
  pose proof (smaller_length _ _ S1) as M1. pose proof (smaller_length _ _ S2) as M2. rewrite (tiling_length _ _ H) in M1. rewrite (tiling_length _ _ H') in M2.
  destruct Hi as (Li & Lo & Hi). destruct Hs as (_ & _ & Hs). destruct Ht as (_ & _ & Ht).
  split; (split; [lia|]; split; [lia|]); intros d Hd; pose proof (perm_nth perm _ d P ltac:(lia)) as Hr.
  - rewrite Z1, Z2. rewrite !(sizes_nth d0) by lia. rewrite (axes_nth _ _ H), (axes_nth _ _ H') by lia. rewrite Hs, Ht, Hi by lia. reflexivity.
  - rewrite P1, P2. rewrite !(starts_nth d0) by lia. rewrite (axes_nth _ _ H), (axes_nth _ _ H') by lia. rewrite Hs, Ht, Hi by lia. reflexivity.
Qed.

Lemma permuted_vadd perm a b c d : Permutation perm (seq 0 (length perm)) -> permuted perm a b -> permuted perm c d -> permuted perm (vadd a c) (vadd b d).
Proof.
  intros P (L1 & L2 & H1) (L3 & L4 & H2). assert (LV : forall x y, length x = length y -> length (vadd x y) = length x).
  { induction x as [|u x IH]; intros [|v y] L; try discriminate; cbn [vadd length]; [reflexivity|]. rewrite IH by (cbn in L; lia). reflexivity. }
  split; [rewrite LV; lia|]. split; [rewrite LV; lia|]. intros k Hk. rewrite !nth_vadd by lia. rewrite H1, H2 by lia. reflexivity.
Qed.

Lemma NoDup_perm_unique l : NoDup l -> perm_unique l = true.
Proof.
  induction l as [|x l IH]; intros N; cbn [perm_unique]; [reflexivity|]. inversion N as [|? ? N1 N2]; subst. rewrite IH by assumption. rewrite andb_true_r.
  apply forallb_forall. intros y Hy. apply negb_true_iff, Nat.eqb_neq. intros ->. exact (N1 Hy).
Qed.

(** C76: Permute, where the axes that are cut keep their order. [Y] is the tensor [X] with its axes permuted. *)
Theorem permute_tiles_whole perm si ti so to sti sto bi bo X Y (mi m : nat -> mem) :
  tiling si ti -> Permutation perm (seq 0 (length si)) -> permuted perm so si -> permuted perm to ti -> cut_axes_ordered perm si ti ->
  lb_esz bi = 4 \/ lb_esz bi = 1 ->
  (forall c p, valid so c -> permuted perm c p -> Y c = X p) ->
  let it := tiles_iter so to sto in let ob n := un_updates n (un_create (tiles_iter si ti sti) it bi bo) in
  (forall n, Z.of_nat n < total_count (ti_cfg it) ->
     usable (uo_tin (ob n)) (mi n) /\ usable (uo_tout (ob n)) (m n) /\ holds (mi n) (uo_tin (ob n)) X (ti_pos (uo_in (ob n)))) ->
  whole_result (fun n => perm_issue perm (ob n) (mi n) (m n)) it bo m Y.
Proof.
  intros H P Hs Ht Ho He HY it ob Hr. pose proof (perm_tiling _ _ _ _ _ H P Hs Ht) as H'. pose proof (perm_length _ _ P) as Lp. assert (Lso : length so = length perm) by apply Hs.
  apply tiles_whole; [exact H'|]. intros n Hn. specialize (Hr n Hn). fold it in Hn |- *.
  unfold ob in *. rewrite un_updates_val in *. unfold un_create, perm_issue in *. cbn [uo_in uo_out uo_tin uo_tout] in *. destruct Hr as ((F1 & C1 & B1) & (F2 & C2 & B2) & Hx).
  assert (Ec : ti_cfg it = axes 0 so to) by (unfold it, tiles_iter, ti_new; cbn [ti_cfg]; apply tile_cfg_axes; apply tiling_length; exact H'). rewrite Ec in Hn.
  destruct (perm_tiles perm si ti so to sti sto n H P Hs Ht Ho Hn) as [Pz Pp]. fold it in Pz, Pp.
  set (tin := tile_of bi (ti_run (tiles_iter si ti sti) n)) in *. set (tout := tile_of bo (ti_run it n)) in *.
  change (ti_size (ti_run it n)) with (t_shape tout) in Pz. change (ti_size (ti_run (tiles_iter si ti sti) n)) with (t_shape tin) in Pz.
  assert (Lz : length (t_shape tin) = length perm) by apply Pz. assert (Lz' : length (t_shape tout) = length perm) by apply Pz.
  assert (Hchk : chk_permute tin tout perm = ST_OK).
  { unfold chk_permute. rewrite C1, C2.
    assert (E1 : forallb (fun p => Nat.ltb p (length (t_shape tin))) perm = true) by (apply forallb_forall; intros a Ha; apply Nat.ltb_lt; pose proof (in_perm _ _ _ P Ha); lia).
    assert (E2 : perm_unique perm = true) by (apply NoDup_perm_unique; apply (Permutation_NoDup (Permutation_sym P)); apply seq_NoDup). rewrite E1, E2. cbn [andb negb].
    assert (E3 : forallb (fun ip => nth (fst ip) (t_shape tout) 1 =? nth (snd ip) (t_shape tin) 1) (combine (seq 0 (length (t_shape tin))) perm) = true).
    { apply forallb_forall. intros [a b] Hab. destruct (In_nth _ _ (0%nat, 0%nat) Hab) as (k & Hk & E). rewrite combine_length, seq_length in Hk. rewrite combine_nth in E by (rewrite seq_length; lia).
      rewrite seq_nth in E by lia. injection E as <- <-. cbn [fst snd]. apply Z.eqb_eq. cbn [Nat.add].
      rewrite (nth_indep (t_shape tout) 1 0) by lia. rewrite (nth_indep (t_shape tin) 1 0) by (pose proof (perm_nth perm _ k P ltac:(lia)); lia). symmetry. apply Pz. lia. }
    rewrite E3. reflexivity. }
  destruct (permute_correct tin tout perm (mi n) (m n) F1 F2 ltac:(lia) ltac:(lia) B1 B2 Hchk) as (m' & E & Hex & V & Fr).
  exists m'. split; [|split].
  - change (t_esz tin) with (lb_esz bi). destruct He as [-> | ->]; exact E.
  - intros c Vc. destruct (Hex c Vc) as [p Hp]. destruct (V c p Hp Vc) as (Vp & -> & _). rewrite (Hx p Vp). f_equal. symmetry. apply HY.
    + apply (tiles_iter_inside so to sto n c H' Vc).
    + apply permuted_vadd; [rewrite Lp; exact P|exact Pp|exact Hp].
  - intros a Ha. apply Fr. intros c Vc E'. exact (Ha c Vc (eq_sym E')).
Qed.

(** C76: the reported sizes and offsets are those of the tiles of this step. *)
Theorem permute_reports i o bi bo n : let ob := un_updates n (un_create i o bi bo) in
  perm_io ob = (t_shape (uo_tin ob), t_shape (uo_tout ob), ti_pos (ti_run i n), ti_pos (ti_run o n)).
Proof. intros ob. unfold ob. rewrite un_updates_val. reflexivity. Qed.

(** * Where it fails *)

(** The transpose of a 2x2 matrix in tiles of one element: both axes are cut and swap their order. At the second tile the input is at [1; 0] and so is the
    output, where element [0; 1] belongs. *)
Theorem permute_steps_refuted :
  let it := tiles_iter [2; 2] [1; 1] [1; 1] in let ob := un_updates 1 (un_create (tiles_iter [2; 2] [1; 1] [1; 1]) it (mkLb 0 1 1) (mkLb 0 1 1)) in
  let X c := 10 * nth 0 c 0 + nth 1 c 0 in
  tiling [2; 2] [1; 1] /\ permuted [1%nat; 0%nat] [2; 2] [2; 2] /\ permuted [1%nat; 0%nat] [1; 1] [1; 1] /\ total_count (ti_cfg it) = 4
  /\ perm_io ob = ([1; 1], [1; 1], [1; 0], [1; 0])
  /\ usable (uo_tin ob) (list_mem [10]) /\ usable (uo_tout ob) (list_mem [0]) /\ holds (list_mem [10]) (uo_tin ob) X (ti_pos (uo_in ob))
  /\ permuted [1%nat; 0%nat] [1; 0] [0; 1] /\ in_tile (uo_tout ob) (ti_pos (uo_out ob)) [1; 0]
  /\ exists m', perm_issue [1%nat; 0%nat] ob (list_mem [10]) (list_mem [0]) = Some m'
     /\ tile_value m' (uo_tout ob) (ti_pos (uo_out ob)) [1; 0] = Some 10 /\ X [0; 1] = 1.
Proof.
  intros it ob X.
  assert (T : tiling [2; 2] [1; 1]) by (repeat (apply Forall2_cons; [lia|]); apply Forall2_nil).
  assert (Pm : forall a b, permuted [1%nat; 0%nat] [a; b] [b; a]) by (intros a b; split; [reflexivity|]; split; [reflexivity|]; intros [|[|d]] Hd; cbn [length] in Hd; try lia; reflexivity).
  assert (U : forall v, usable (tile_of (mkLb 0 1 1) (ti_run (tiles_iter [2; 2] [1; 1] [1; 1]) 1)) (list_mem [v])).
  { intros v. apply tile_usable; [exact T|]. split; [fits32_tac|]. split; [vm_compute; reflexivity|]. apply (list_backed 0 1 1); cbn; lia. }
  split; [exact T|]. split; [apply Pm|]. split; [apply Pm|]. split; [reflexivity|]. split; [vm_compute; reflexivity|].
  split; [unfold ob; rewrite un_updates_val; apply U|]. split; [unfold ob; rewrite un_updates_val; apply U|]. split.
  - intros c Vc; shape_of Vc c; destruct c as [|x [|y [|]]]; cbn [valid] in Vc; try tauto. assert (x = 0) by lia. assert (y = 0) by lia. subst x y. vm_compute. reflexivity.
  - split; [apply Pm|]. split; [vm_compute; repeat split; discriminate|].
    destruct (some_mem (perm_issue [1%nat; 0%nat] ob (list_mem [10]) (list_mem [0])) 0 10) as (m' & E & V); [vm_compute; reflexivity|]. exists m'. split; [exact E|]. split; [|reflexivity].
    unfold tile_value. match goal with |- m' ?a = _ => replace a with 0 by (vm_compute; reflexivity) end. exact V.
Qed.

(** If the output is walked in the permuted order instead, the tiles match, but the offsets that GetIOSizesAndOffsets reports are those of the walk: for the output tile
    at [0; 1] it reports [1; 0]. *)
Theorem permute_order_refuted :
  let it := ti_new (tile_cfg [2; 2] [1; 1] [1%nat; 0%nat] 0) [2; 2] [1; 1] in let ob := un_updates 1 (un_create (tiles_iter [2; 2] [1; 1] [1; 1]) it (mkLb 0 1 1) (mkLb 0 1 1)) in
  perm_io ob = ([1; 1], [1; 1], [1; 0], [1; 0]) /\ fst (sub_tensor (ti_cfg (uo_out ob)) (ti_shape (uo_out ob)) (ti_st (uo_out ob))) = [0; 1].
Proof. split; vm_compute; reflexivity. Qed.

(** Tensors with elements of 16 bits, which the constructor accepts, cannot be permuted. *)
Theorem permute_16_refuted perm i o bi bo n mi m : lb_esz bi = 2 -> perm_issue perm (un_updates n (un_create i o bi bo)) mi m = None.
Proof. intros E. rewrite un_updates_val. unfold perm_issue, un_create. cbn [uo_tin tile_of t_esz]. rewrite E. reflexivity. Qed.

(** * Non-trivial cases *)

(** A 3x2 matrix in tiles of two rows, transposed to 2x3 in tiles of two columns. *)
Example permute_ex : let it := tiles_iter [2; 3] [2; 2] [2; 1] in let ob n := un_updates n (un_create (tiles_iter [3; 2] [2; 2] [2; 1]) it (mkLb 0 4 1) (mkLb 0 4 1)) in
  let m := list_mem [99; 99; 99; 99] in let perm := [1%nat; 0%nat] in
  tiling [3; 2] [2; 2] /\ Permutation perm (seq 0 2) /\ permuted perm [2; 3] [3; 2] /\ permuted perm [2; 2] [2; 2] /\ cut_axes_ordered perm [3; 2] [2; 2] /\ total_count (ti_cfg it) = 2
  /\ (forall n, Z.of_nat n < 2 -> usable (uo_tin (ob n)) (list_mem (px_vals n)) /\ usable (uo_tout (ob n)) m /\ holds (list_mem (px_vals n)) (uo_tin (ob n)) px_X (ti_pos (uo_in (ob n))))
  /\ map (fun n => do m' <- perm_issue perm (ob n) (list_mem (px_vals n)) m; Some (map (rd m') [0; 1; 2; 3])) [0%nat; 1%nat] = [Some [0; 10; 1; 11]; Some [20; 99; 21; 99]].
Proof.
  intros it ob m perm. split; [apply px_tiling|]. split; [apply perm_swap|].
  split; [split; [reflexivity|]; split; [reflexivity|]; intros [|[|d]] Hd; cbn [length perm] in Hd; try lia; reflexivity|].
  split; [split; [reflexivity|]; split; [reflexivity|]; intros [|[|d]] Hd; cbn [length perm] in Hd; try lia; reflexivity|]. split.
  { intros i j Hij Ci Cj. cbn [length perm] in Hij. assert (i = 0%nat) by lia. assert (j = 1%nat) by lia. subst i j. cbn [nth perm] in Ci. lia. }
  split; [reflexivity|]. split; [|vm_compute; reflexivity]. intros n Hn. unfold ob. rewrite un_updates_val. unfold un_create. cbn [uo_in uo_out uo_tin uo_tout]. split; [|split].
  - apply legal_usable, (px_usable 0 1); [lia|lia|]. unfold px_vals; destruct (Nat.eqb n 0); cbn; lia.
  - apply tile_usable; [repeat (apply Forall2_cons; [lia|]); apply Forall2_nil|]. split; [fits32_tac|]. split; [vm_compute; reflexivity|]. apply (list_backed 0 4 1); cbn; lia.
  - apply px_holds; [exact Hn|lia|]. intros a _. reflexivity.
Qed.

(** Two cut axes that keep their order: 4x2x6 in tiles of 2x2x3, the first two axes swapped. *)
Example cut_axes_ex : let perm := [1%nat; 0%nat; 2%nat] in
  cut_axes_ordered perm [4; 2; 6] [2; 2; 3] /\ total_count (axes 0 [4; 2; 6] [2; 2; 3]) = 4
  /\ map (fun n => (ti_pos (ti_run (tiles_iter [4; 2; 6] [2; 2; 3] [12; 6; 1]) n), ti_pos (ti_run (tiles_iter [2; 4; 6] [2; 2; 3] [24; 6; 1]) n))) [1%nat; 2%nat] = [([2; 0; 0], [0; 2; 0]); ([0; 0; 3], [0; 0; 3])].
Proof.
  intros perm. split; [|split; vm_compute; reflexivity]. intros i j Hij Ci Cj. cbn [length perm] in Hij. 
  assert (i = 0 \/ i = 1)%nat as [-> | ->] by lia; assert (j = 1 \/ j = 2)%nat as [-> | ->] by lia; cbn [nth perm] in *; lia.
Qed.
