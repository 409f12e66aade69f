(** Views of tensors show the right elements (C51); linked buffers keep their window (C52). *)
From Coq Require Import ZArith List Lia Bool.
From Verif Require Import Base FxMath FxMathProofs Tensor TensorProofs Ops3 Ops3Proofs Iter IterProofs IterTheorems Views.
Import ListNotations.
Open Scope Z_scope.
Ltac Zify.zify_post_hook ::= Z.div_mod_to_equations.

(** The element of the buffer that a view shows at a coordinate. *)
Definition elem (v : view) (c : list Z) : Z := v_offs v + addr (v_stride v) c.

(** Coordinates are added dimension by dimension. *)
Fixpoint cadd (p c : list Z) : list Z := match p, c with x :: p', y :: c' => x + y :: cadd p' c' | _, _ => [] end.

Lemma get_offset_spec : forall v pos, get_offset v pos = uwrap 32 (addr (v_stride v) pos).
Proof.
  intros v pos. unfold get_offset. destruct v as [o sh st]. cbn [v_stride]. clear o sh.
  enough (H : forall l acc, uwrap 32 (fold_left (fun o ps => uwrap 32 (o + uwrap 32 (fst ps * snd ps))) l acc) = uwrap 32 (acc + lsum (map (fun ps => fst ps * snd ps) l))
    /\ (acc = uwrap 32 acc -> fold_left (fun o ps => uwrap 32 (o + uwrap 32 (fst ps * snd ps))) l acc = uwrap 32 (acc + lsum (map (fun ps => fst ps * snd ps) l)))).
  { destruct (H (combine pos st) 0) as [_ H2]. rewrite H2 by reflexivity. f_equal. clear. revert st. induction pos as [|p pos IH]; intros [|s st]; try reflexivity.
    cbn [combine map addr]. unfold lsum in *. cbn [fold_right fst snd]. rewrite <- IH. lia. }
  assert (Hu : forall a b, uwrap 32 (uwrap 32 a + uwrap 32 b) = uwrap 32 (a + b)) by (intros; unfold uwrap; rewrite <- Zplus_mod; reflexivity).
  induction l as [|[p s] l IH]; intros acc; cbn [fold_left map]; unfold lsum in *; cbn [fold_right fst snd].
  - rewrite Z.add_0_r. split; auto.
  - destruct (IH (uwrap 32 (acc + uwrap 32 (p * s)))) as [H1 H2].
    assert (E : uwrap 32 (uwrap 32 (acc + uwrap 32 (p * s)) + fold_right Z.add 0 (map (fun ps => fst ps * snd ps) l)) = uwrap 32 (acc + (p * s + fold_right Z.add 0 (map (fun ps => fst ps * snd ps) l)))).
    { unfold uwrap. rewrite Zplus_mod_idemp_l. generalize (fold_right Z.add 0 (map (fun ps => fst ps * snd ps) l)). intros R.
      replace (acc + (p * s) mod 2 ^ 32 + R) with (acc + R + (p * s) mod 2 ^ 32) by (generalize ((p * s) mod 2 ^ 32); intros; ring). rewrite Zplus_mod_idemp_r. f_equal. ring. }
    split; [rewrite H1; exact E|]. intros _. rewrite H2; [exact E|]. unfold uwrap. rewrite Zmod_mod. reflexivity.
Qed.

Lemma addr_cadd : forall st p c, length p = length c -> addr st (cadd p c) = addr st p + addr st c.
Proof. induction st as [|s st IH]; intros [|x p] [|y c] H; try discriminate; try reflexivity. cbn [cadd addr]. rewrite IH by (cbn in H; lia). lia. Qed.

(** Slice: the element at [c] is the element at [pos + c] of the original. *)
Theorem slice_view : forall v pos size c,
  length pos = length c -> 0 <= v_offs v + addr (v_stride v) pos < 2 ^ 32 ->
  elem (slice v pos size) c = elem v (cadd pos c).
Proof.
  intros v pos size c Hl Hr. unfold elem, slice. cbn [v_offs v_stride]. rewrite get_offset_spec, addr_cadd by exact Hl.
  assert (E : uwrap 32 (v_offs v + uwrap 32 (addr (v_stride v) pos)) = v_offs v + addr (v_stride v) pos).
  { unfold uwrap. rewrite Zplus_mod_idemp_r. apply Z.mod_small. exact Hr. }
  rewrite E. lia.
Qed.

(** Slice by offset moves every element by the offset. *)
Theorem slice_offs_view : forall v offset size c, 0 <= v_offs v + offset < 2 ^ 32 ->
  elem (slice_offs v offset size) c = elem v c + offset /\ v_shape (slice_offs v offset size) = size.
Proof. intros v offset size c H. unfold elem, slice_offs. cbn [v_offs v_stride v_shape]. rewrite u32_id by exact H. split; [lia|reflexivity]. Qed.

(** The coordinates of a slice that lies inside are coordinates of the original. *)
Theorem slice_valid : forall shape pos size c,
  Forall2 (fun ps d => 0 <= fst ps /\ fst ps + snd ps <= d) (combine pos size) shape -> length pos = length size -> length size = length shape ->
  valid size c -> valid shape (cadd pos c).
Proof.
  intros shape. induction shape as [|d shape IH]; intros [|p pos] [|s size] [|x c] HF H1 H2 Hv; try discriminate; cbn [valid cadd] in *; try contradiction; [exact I|].
  inversion HF as [|? ? ? ? [H3 H4] HF']; subst. cbn [fst snd] in *. destruct Hv as [Hx Hv]. split; [lia|]. apply IH with (size := size); auto; cbn in *; lia.
Qed.

(** Slice by size only forgets the offset of the original: a slice of a slice shows other elements. *)
Theorem slice_size_refuted : let v := slice (contig_view [4; 4]) [1; 0] [2; 4] in
  elem v [0; 0] = 4 /\ elem (slice v [0; 0] [1; 4]) [0; 0] = 4 /\ elem (slice_size v [1; 4]) [0; 0] = 0.
Proof. vm_compute. auto. Qed.

(** Transpose: axis [a] of the view is axis [new_order[a]] of the original. *)
Theorem transpose_view : forall v new_order c,
  is_order (length (v_stride v)) new_order -> length c = length (v_stride v) ->
  let perm l := map (fun a => nth a l 0) new_order in
  elem (vtranspose v new_order) (perm c) = elem v c /\ (valid (v_shape v) c -> length (v_shape v) = length (v_stride v) -> valid (v_shape (vtranspose v new_order)) (perm c)).
Proof.
  intros v no c (Hnd & Hlo & Hrg) Hl perm. unfold elem, vtranspose. cbn [v_offs v_stride v_shape]. split.
  - f_equal. rewrite (addr_lsum (v_stride v) c) by lia.
    assert (Hp : Permutation.Permutation no (seq 0 (length c))).
    { apply Permutation.NoDup_Permutation_bis; [exact Hnd|rewrite seq_length; lia|]. intros x Hx. rewrite Forall_forall in Hrg. specialize (Hrg x Hx). apply in_seq. lia. }
    rewrite <- (lsum_perm _ _ (Permutation.Permutation_map (fun a => nth a c 0 * nth a (v_stride v) 0) Hp)).
    unfold perm. clear. induction no as [|a no IH]; [reflexivity|]. cbn [map addr]. unfold lsum in *. cbn [fold_right]. rewrite IH. lia.
  - intros Hv Hls. unfold perm. rewrite Forall_forall in Hrg.
    assert (Hn : forall a, (a < length (v_shape v))%nat -> 0 <= nth a c 0 < nth a (v_shape v) 0).
    { clear - Hv. revert c Hv. induction (v_shape v) as [|D sh IH]; intros [|x c] Hv a Ha; cbn [valid length] in *; try contradiction; [lia|].
      destruct Hv as [H1 H2]. destruct a as [|a]; cbn [nth]; [exact H1|apply IH; [exact H2|lia]]. }
    assert (Hr : forall a, In a no -> (a < length (v_shape v))%nat) by (intros a Ha; specialize (Hrg a Ha); lia).
    clear - Hn Hr. induction no as [|a no IH]; cbn [map valid]; [exact I|]. split; [apply Hn; apply Hr; left; reflexivity|]. apply IH. intros b Hb. apply Hr. right. exact Hb.
Qed.

Lemma addr_app_len : forall st1 st2 c1 c2, length st1 = length c1 -> addr (st1 ++ st2) (c1 ++ c2) = addr st1 c1 + addr st2 c2.
Proof. induction st1 as [|s st1 IH]; intros st2 [|x c1] c2 H; try discriminate; [reflexivity|]. cbn [app addr]. rewrite IH by (cbn in H; lia). lia. Qed.

Lemma split_at : forall (l : list Z) axis, (axis < length l)%nat -> l = firstn axis l ++ nth axis l 0 :: skipn (S axis) l.
Proof. induction l as [|x l IH]; intros [|a] H; cbn in H |- *; try lia; [reflexivity|]. f_equal. apply IH. lia. Qed.

Lemma valid_app_len : forall s1 s2 c1 c2, length s1 = length c1 -> valid (s1 ++ s2) (c1 ++ c2) <-> valid s1 c1 /\ valid s2 c2.
Proof. induction s1 as [|d s1 IH]; intros s2 [|x c1] c2 H; try discriminate; cbn [app valid]; [tauto|]. rewrite IH by (cbn in H; lia). tauto. Qed.

(** Split: position [i] of chunk [j] is position [j * (D / chunks) + i] of the axis; every position of the axis is shown exactly once. *)
Theorem split_view : forall v axis chunks left l r i j,
  (axis < length (v_stride v))%nat -> length (v_shape v) = length (v_stride v) -> length l = axis -> length r = (length (v_stride v) - S axis)%nat ->
  let D := nth axis (v_shape v) 0 in let n := D / chunks in
  1 <= chunks -> 0 <= D -> D mod chunks = 0 -> in_bits 32 (n * nth axis (v_stride v) 0) ->
  exists w, vsplit v axis chunks left = Some w
    /\ elem w (l ++ (if left then [j; i] else [i; j]) ++ r) = elem v (l ++ [j * n + i] ++ r)
    /\ (valid (v_shape w) (l ++ (if left then [j; i] else [i; j]) ++ r) <-> valid (v_shape v) (l ++ [j * n + i] ++ r) /\ 0 <= i < n).
Proof.
  intros v axis chunks left l r i j Hax Hls Hl Hr D n Hc HD Hm Hb.
  assert (En : D = chunks * n) by (unfold n; lia).
  unfold vsplit. fold D n. rewrite Hm. change (0 =? 0) with true. cbv iota. rewrite (wrap_id 32) by (lia || exact Hb).
  eexists. split; [reflexivity|]. unfold elem. cbn [v_offs v_stride v_shape].
  assert (L1 : length (firstn axis (v_stride v)) = length l) by (rewrite firstn_length; lia).
  assert (L2 : length (firstn axis (v_shape v)) = length l) by (rewrite firstn_length; lia).
  assert (Ea : forall x, addr (v_stride v) (l ++ x :: r) = addr (firstn axis (v_stride v)) l + addr (nth axis (v_stride v) 0 :: skipn (S axis) (v_stride v)) (x :: r)).
  { intros x. rewrite <- (addr_app_len _ _ l (x :: r) L1). rewrite <- (split_at (v_stride v) axis Hax). reflexivity. }
  assert (Ev : forall x, valid (v_shape v) (l ++ x :: r) <-> valid (firstn axis (v_shape v)) l /\ valid (D :: skipn (S axis) (v_shape v)) (x :: r)).
  { intros x. rewrite <- (valid_app_len _ _ l (x :: r) L2). unfold D. rewrite <- (split_at (v_shape v) axis ltac:(lia)). reflexivity. }
  change ([j * n + i] ++ r) with (j * n + i :: r). rewrite Ea, Ev.
  destruct left; cbn [app]; rewrite (addr_app_len _ _ l _ L1), (valid_app_len _ _ l _ L2); cbn [addr valid]; (split; [lia|]);
    rewrite En; clear -Hc; (split; [intros (H1 & H2 & H3 & H4)|intros ((H1 & H2 & H3) & H4)]; repeat split; try tauto; nia).
Qed.

(** Combine with reverse_order: position [x] of the combined axis is position [x mod D] of the axis and [x / D] of the next one. *)
Theorem combine_view : forall v axis l r x,
  (S axis < length (v_stride v))%nat -> length (v_shape v) = length (v_stride v) -> length l = axis -> length r = (length (v_stride v) - S (S axis))%nat ->
  let D := nth axis (v_shape v) 0 in let D1 := nth (S axis) (v_shape v) 0 in
  1 <= D -> 0 <= D1 -> D * D1 < 2 ^ 32 -> in_bits 32 (D * nth axis (v_stride v) 0) ->
  nth (S axis) (v_stride v) 0 = D * nth axis (v_stride v) 0 ->
  exists w, vcombine v axis true = Some w
    /\ elem w (l ++ [x] ++ r) = elem v (l ++ [x mod D; x / D] ++ r)
    /\ (valid (v_shape w) (l ++ [x] ++ r) <-> valid (v_shape v) (l ++ [x mod D; x / D] ++ r)).
Proof.
  intros v axis l r x Hax Hls Hl Hr D D1 HD HD1 Hp Hb Hs.
  unfold vcombine. fold D D1. rewrite (wrap_id 32) by (lia || exact Hb). rewrite Hs, Z.eqb_refl. rewrite u32_id by nia.
  eexists. split; [reflexivity|]. unfold elem. cbn [v_offs v_stride v_shape].
  assert (L1 : length (firstn axis (v_stride v)) = length l) by (rewrite firstn_length; lia).
  assert (L2 : length (firstn axis (v_shape v)) = length l) by (rewrite firstn_length; lia).
  rewrite (addr_app_len _ _ l _ L1), (valid_app_len _ _ l _ L2).
  assert (Est : v_stride v = firstn axis (v_stride v) ++ nth axis (v_stride v) 0 :: nth (S axis) (v_stride v) 0 :: skipn (S (S axis)) (v_stride v)).
  { rewrite (split_at (v_stride v) axis ltac:(lia)) at 1. f_equal. f_equal.
    clear - Hax. revert axis Hax. induction (v_stride v) as [|y m IH]; intros [|a] Ha; cbn [length] in *; try lia.
    - destruct m; cbn [length] in *; [lia|reflexivity].
    - cbn [skipn nth]. apply IH. lia. }
  assert (Esh : v_shape v = firstn axis (v_shape v) ++ D :: D1 :: skipn (S (S axis)) (v_shape v)).
  { unfold D, D1. rewrite (split_at (v_shape v) axis ltac:(lia)) at 1. f_equal. f_equal.
    rewrite <- Hls in Hax. clear - Hax. revert axis Hax. induction (v_shape v) as [|y m IH]; intros [|a] Ha; cbn [length] in *; try lia.
    - destruct m; cbn [length] in *; [lia|reflexivity].
    - cbn [skipn nth]. apply IH. lia. }
  split.
  - assert (Ea : forall c, addr (v_stride v) c = addr (firstn axis (v_stride v) ++ nth axis (v_stride v) 0 :: nth (S axis) (v_stride v) 0 :: skipn (S (S axis)) (v_stride v)) c) by (intros c; rewrite <- Est; reflexivity).
    rewrite Ea, (addr_app_len _ _ l _ L1). cbn [app addr]. rewrite Hs. pose proof (Z.div_mod x D ltac:(lia)). nia.
  - assert (Ev : forall c, valid (v_shape v) c <-> valid (firstn axis (v_shape v) ++ D :: D1 :: skipn (S (S axis)) (v_shape v)) c) by (intros c; rewrite <- Esh; reflexivity).
    rewrite Ev, (valid_app_len _ _ l _ L2). cbn [app valid].
    pose proof (Z.mod_pos_bound x D ltac:(lia)). pose proof (Z.div_mod x D ltac:(lia)).
    split; intros (H1 & H2 & H3); split; auto.
    + split; [lia|]. split; [nia|exact H3].
    + destruct H3 as [H3 H4]. split; [nia|exact H4].
Qed.

(** Combining what was split gives the original view back. *)
Theorem combine_split : forall v axis chunks w,
  (axis < length (v_stride v))%nat -> length (v_shape v) = length (v_stride v) ->
  let D := nth axis (v_shape v) 0 in 1 <= chunks -> 0 <= D < 2 ^ 32 -> in_bits 32 (D / chunks * nth axis (v_stride v) 0) ->
  vsplit v axis chunks false = Some w -> vcombine w axis true = Some v.
Proof.
  intros v axis chunks w Hax Hls D Hc HD Hb. unfold vsplit. fold D. destruct (D mod chunks =? 0) eqn:Em; [|discriminate].
  intros E. injection E as <-. unfold vcombine. cbn [v_shape v_stride v_offs].
  assert (L1 : length (firstn axis (v_stride v)) = axis) by (rewrite firstn_length; lia).
  assert (L2 : length (firstn axis (v_shape v)) = axis) by (rewrite firstn_length; lia).
  rewrite !app_nth2 by lia. rewrite L1, L2. rewrite Nat.sub_diag. replace (S axis - axis)%nat with 1%nat by lia. cbn [app nth].
  rewrite !(wrap_id 32) by (lia || exact Hb). rewrite Z.eqb_refl.
  rewrite !firstn_app, L1, L2, !Nat.sub_diag. cbn [firstn]. rewrite !app_nil_r, !firstn_firstn, Nat.min_id.
  rewrite !skipn_app, L1, L2. rewrite !(skipn_all2 (n := S (S axis))) by lia. cbn [app]. replace (S (S axis) - axis)%nat with 2%nat by lia. cbn [skipn].
  replace (D / chunks * chunks) with D by (pose proof (Z.div_mod D chunks ltac:(lia)); lia). rewrite u32_id by lia.
  change ([D] ++ ?x) with (D :: x). f_equal. destruct v as [o sh st]. cbn [v_offs v_shape v_stride] in *. f_equal; symmetry; [unfold D|]; apply split_at; lia.
Qed.

(** Combine without reverse_order checks for the row-major layout but keeps the stride of the outer axis: of a contiguous 2x3 matrix
    it shows elements 0, 3, 6, ..., 15. *)
Theorem combine_rows_refuted : exists w, vcombine (contig_view [2; 3]) 0 false = Some w /\ v_shape w = [6]
  /\ map (fun x => elem w [x]) [0; 1; 2; 3; 4; 5] = [0; 3; 6; 9; 12; 15].
Proof. eexists. vm_compute. auto. Qed.

(** * Contiguous tensors *)

Lemma contig_spec : forall shape, Forall (fun d => 1 <= d) shape -> prod shape < 2 ^ 31 ->
  snd (contig shape) = prod shape /\ length (fst (contig shape)) = length shape /\
  forall c, valid shape c -> 0 <= addr (fst (contig shape)) c < prod shape
    /\ forall c', valid shape c' -> addr (fst (contig shape)) c = addr (fst (contig shape)) c' -> c = c'.
Proof.
  induction shape as [|d shape IH]; intros HF Hp.
  - split; [reflexivity|]. split; [reflexivity|]. intros [|x c] Hv; [|contradiction]. cbn. split; [lia|]. intros [|y c'] Hv'; [reflexivity|contradiction].
  - inversion HF as [|? ? Hd HF']; subst. cbn [prod fold_right] in *. fold (prod shape) in *.
    assert (Hpp : 1 <= prod shape) by (clear - HF'; induction HF'; cbn; [lia|]; fold (prod l); nia).
    destruct (IH HF' ltac:(nia)) as (I1 & I2 & I3). cbn [contig]. destruct (contig shape) as [st t]. cbn [fst snd] in *. subst t.
    destruct (0 <? d) eqn:E; [|lia]. rewrite w32_id by nia. split; [lia|]. split; [cbn [length]; lia|].
    intros [|x c] Hv; [contradiction|]. destruct Hv as [Hx Hv]. destruct (I3 c Hv) as [J1 J2]. cbn [addr]. split; [nia|].
    intros [|y c'] Hv'; [contradiction|]. destruct Hv' as [Hy Hv']. destruct (I3 c' Hv') as [K1 _]. cbn [addr]. intros Ea.
    assert (x = y) by nia. subst y. f_equal. apply J2; [exact Hv'|lia].
Qed.

(** A contiguous tensor shows every element of its buffer range exactly once, in row-major order. *)
Theorem contig_view_correct : forall shape, Forall (fun d => 1 <= d) shape -> prod shape < 2 ^ 31 ->
  total_elem_num (contig_view shape) = prod shape /\
  forall c, valid shape c -> 0 <= elem (contig_view shape) c < prod shape
    /\ forall c', valid shape c' -> elem (contig_view shape) c = elem (contig_view shape) c' -> c = c'.
Proof.
  intros shape HF Hp. destruct (contig_spec shape HF Hp) as (_ & _ & H). split; [|exact H].
  unfold total_elem_num, contig_view. cbn [v_shape].
  enough (G : forall t, 1 <= t -> t * prod shape < 2 ^ 31 -> fold_left (fun t d => uwrap 32 (t * d)) shape t = t * prod shape) by (rewrite G; lia).
  clear H Hp. induction HF as [|d shape Hd HF IH]; intros t Ht Hb; cbn [fold_left prod fold_right] in *; [lia|]. fold (prod shape) in *.
  assert (Hpp : 1 <= prod shape) by (clear - HF; induction HF; cbn; [lia|]; fold (prod l); nia).
  rewrite u32_id by nia. rewrite IH by nia. lia.
Qed.

(** * Buffers *)

(** C52: linking gives the window [base + offset, base + offset + size) with the same size and element size. *)
Theorem link_window : forall b bases,
  0 <= ob_mem b < Z.of_nat (length bases) -> 0 <= nth (Z.to_nat (ob_mem b)) bases 0 + ob_off b < 2 ^ 64 ->
  link b bases = Some (mkIbuf (nth (Z.to_nat (ob_mem b)) bases 0 + ob_off b) (ob_size b) (ob_esz b)).
Proof.
  intros b bases Hm Hp. unfold link. destruct (ob_mem b <? Z.of_nat (length bases)) eqn:E; [|lia]. unfold uwrap. rewrite Z.mod_small by exact Hp. reflexivity.
Qed.

(** A relative buffer is the end of the window from the relative offset on; an offset beyond the end stops at the assertion. *)
Theorem rel_window : forall b rel, 0 <= rel -> 0 <= ob_off b -> ob_off b + ob_size b < 2 ^ 32 ->
  (rel <= ob_size b -> exists b', rel_buffer b rel = Some b' /\ ob_off b' = ob_off b + rel /\ ob_off b' + ob_size b' = ob_off b + ob_size b /\ ob_mem b' = ob_mem b /\ ob_esz b' = ob_esz b)
  /\ (ob_size b < rel -> rel_buffer b rel = None).
Proof.
  intros b rel Hr Ho Hs. unfold rel_buffer. destruct (rel <=? ob_size b) eqn:E; split; intros H; try lia; [|reflexivity].
  eexists. split; [reflexivity|]. cbn [ob_off ob_size ob_mem ob_esz]. rewrite !u32_id by lia. lia.
Qed.

(** Incrementing a buffer moves its window beyond the end. *)
Theorem inc_window_refuted : let b := mkObuf 0 0 16 2 in ob_off (inc_buffer b 4) + ob_size (inc_buffer b 4) = ob_off b + ob_size b + 8.
Proof. reflexivity. Qed.

(** The bytes of the element that Tensor::read and write access at a coordinate of a linked tensor: they are those of element
    [elem v c] and lie inside the window if that element does. *)
Theorem tensor_window : forall b bases ib v c,
  0 <= ob_mem b < Z.of_nat (length bases) -> 0 <= nth (Z.to_nat (ob_mem b)) bases 0 -> 0 <= ob_off b ->
  nth (Z.to_nat (ob_mem b)) bases 0 + ob_off b + ob_size b <= 2 ^ 64 -> 0 <= ob_size b < 2 ^ 32 -> 1 <= ob_esz b ->
  link b bases = Some ib ->
  0 <= v_offs v -> 0 <= addr (v_stride v) c -> (elem v c + 1) * ob_esz b <= ob_size b ->
  let w := nth (Z.to_nat (ob_mem b)) bases 0 + ob_off b in
  exists a, tensor_addr ib v (ob_esz b) (get_offset v c) = Some a /\ a = w + ob_esz b * elem v c /\ w <= a /\ a + ob_esz b <= w + ob_size b.
Proof.
  intros b bases ib v c Hm Hb Ho Hw Hs He Hl Hv Ha Hin w.
  assert (H0 : 1 <= ob_size b) by (unfold elem in Hin; generalize dependent (addr (v_stride v) c); clear - Hv He; intros; nia).
  rewrite link_window in Hl by lia. injection Hl as <-. unfold tensor_addr, buf_addr. cbn [ib_esz ib_ptr]. rewrite Z.eqb_refl.
  unfold elem in *. set (x := addr (v_stride v) c) in *.
  assert (H1 : v_offs v * ob_esz b < 2 ^ 32) by nia. assert (H2 : x < 2 ^ 32) by nia. assert (H3 : v_offs v + x < 2 ^ 32) by nia.
  rewrite get_offset_spec. fold x. rewrite (u32_id x) by lia. rewrite (u32_id (v_offs v * ob_esz b)) by nia. rewrite Z.div_mul by lia.
  rewrite u32_id by lia. fold w. unfold uwrap. rewrite Z.mod_small by nia.
  eexists. split; [reflexivity|]. split; [lia|]. nia.
Qed.

(** A contiguous tensor that fits its buffer: every element is inside the window of the buffer and different elements share no byte. *)
Theorem contig_window : forall b bases ib shape,
  0 <= ob_mem b < Z.of_nat (length bases) -> 0 <= nth (Z.to_nat (ob_mem b)) bases 0 -> 0 <= ob_off b ->
  nth (Z.to_nat (ob_mem b)) bases 0 + ob_off b + ob_size b <= 2 ^ 64 -> 0 <= ob_size b < 2 ^ 32 -> 1 <= ob_esz b ->
  link b bases = Some ib -> Forall (fun d => 1 <= d) shape -> prod shape < 2 ^ 31 -> prod shape * ob_esz b <= ob_size b ->
  let v := contig_view shape in let w := nth (Z.to_nat (ob_mem b)) bases 0 + ob_off b in
  forall c, valid shape c -> exists a, tensor_addr ib v (ob_esz b) (get_offset v c) = Some a /\ w <= a /\ a + ob_esz b <= w + ob_size b
    /\ forall c', valid shape c' -> c' <> c -> exists a', tensor_addr ib v (ob_esz b) (get_offset v c') = Some a' /\ (a + ob_esz b <= a' \/ a' + ob_esz b <= a).
Proof.
  intros b bases ib shape Hm Hb Ho Hw Hs He Hl HF Hp Hfit v w c Hc.
  destruct (contig_view_correct shape HF Hp) as [_ HC]. fold v in HC.
  assert (HT : forall c, valid shape c -> exists a, tensor_addr ib v (ob_esz b) (get_offset v c) = Some a /\ a = w + ob_esz b * elem v c /\ w <= a /\ a + ob_esz b <= w + ob_size b).
  { intros x Hx. destruct (HC x Hx) as [R _]. apply (tensor_window b bases ib v x); auto; change (v_offs v) with 0; try lia.
    - unfold elem in R. change (v_offs v) with 0 in R. lia.
    - clear - R Hfit He. nia. }
  destruct (HT c Hc) as (a & T1 & T2 & T3 & T4). exists a. split; [exact T1|]. split; [exact T3|]. split; [exact T4|].
  intros c' Hc' Hne. destruct (HT c' Hc') as (a' & U1 & U2 & _). exists a'. split; [exact U1|].
  assert (elem v c <> elem v c') by (intros E; apply Hne; symmetry; exact (proj2 (HC c Hc) c' Hc' E)). nia.
Qed.

(** Non-trivial case: a buffer of 64 bytes at offset 256 of memory 1, a 2x3x4 tensor of 16-bit elements, its slice, transpose and split. *)
Example views_ex :
  let b := mkObuf 256 1 64 2 in let v := contig_view [2; 3; 4] in
  link b [1000; 5000] = Some (mkIbuf 5256 64 2)
  /\ tensor_addr (mkIbuf 5256 64 2) v 2 (get_offset v [1; 2; 3]) = Some (5256 + 2 * 23)
  /\ prod [2; 3; 4] * 2 <= 64
  /\ elem (slice v [1; 1; 0] [1; 2; 4]) [0; 1; 3] = elem v [1; 2; 3]
  /\ elem (vtranspose v [2; 0; 1]%nat) [3; 1; 2] = elem v [1; 2; 3]
  /\ option_map (fun w => elem w [1; 2; 1; 1]) (vsplit v 2 2 false) = Some (elem v [1; 2; 3])
  /\ option_map (fun w => elem w [1; 2; 1; 1]) (vsplit v 2 2 true) = Some (elem v [1; 2; 3]).
Proof. vm_compute. repeat split; congruence. Qed.
