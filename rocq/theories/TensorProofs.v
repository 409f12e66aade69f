(** Proofs about tensors: element counting, checker soundness, sub-tensors (C11-C16). *)
From Coq Require Import ZArith List Lia Bool.
From Verif Require Import Base Tensor.
Import ListNotations.
Open Scope Z_scope.

(** * Coordinates *)

Lemma valid_length sh c : valid sh c -> length c = length sh.
Proof. revert c; induction sh; intros [|i c]; cbn; intuition. Qed.

Lemma in_coords sh c : In c (coords sh) <-> valid sh c.
Proof.
  revert c; induction sh as [|d sh IH]; intros c; cbn [coords valid].
  - destruct c; cbn; intuition congruence.
  - rewrite in_flat_map. split.
    + intros (i & Hi & Hc). apply in_map_iff in Hc. destruct Hc as (c' & <- & Hc').
      apply in_zrange in Hi. apply IH in Hc'. auto.
    + destruct c as [|i c']; [intros []|]. intros [Hi Hc']. exists i. split; [now apply in_zrange|].
      apply in_map_iff. exists c'. split; [reflexivity|]. now apply IH.
Qed.

Lemma NoDup_flat_map {A B} (f : A -> list B) l :
  NoDup l -> (forall x, In x l -> NoDup (f x)) ->
  (forall x y b, In x l -> In y l -> In b (f x) -> In b (f y) -> x = y) -> NoDup (flat_map f l).
Proof.
  induction l as [|a l IH]; intros Hl Hf Hd; cbn; [constructor|].
  inversion Hl; subst.
  assert (Happ : forall (l1 l2 : list B), NoDup l1 -> NoDup l2 -> (forall b, In b l1 -> ~ In b l2) -> NoDup (l1 ++ l2)).
  { induction l1; intros l2 H3 H4 H5; cbn; [auto|]. inversion H3; subst. constructor.
    - rewrite in_app_iff. intros [?|?]; [auto|]. apply (H5 a0); [now left|auto].
    - apply IHl1; auto. intros b Hb; apply H5; now right. }
  apply Happ.
  - apply Hf; now left.
  - apply IH; auto. { intros; apply Hf; now right. } intros; eapply Hd; eauto; now right.
  - intros b Hb Hb'. apply in_flat_map in Hb'. destruct Hb' as (y & Hy & Hby).
    assert (a = y) by (eapply Hd; eauto; [now left|now right]). subst; auto.
Qed.

Lemma coords_NoDup sh : NoDup (coords sh).
Proof.
  induction sh as [|d sh IH]; cbn [coords]; [repeat constructor; auto|].
  apply NoDup_flat_map.
  - apply zrange_NoDup.
  - intros x _. apply FinFun.Injective_map_NoDup; [intros a b; congruence|assumption].
  - intros x y b _ _ Hx Hy. apply in_map_iff in Hx, Hy. destruct Hx as (?&<-&_), Hy as (?&E&_). congruence.
Qed.

Lemma flat_map_length_const {A B} (f : A -> list B) l n : (forall x, In x l -> length (f x) = n) ->
  length (flat_map f l) = (length l * n)%nat.
Proof.
  induction l; intros H; cbn; [reflexivity|]. rewrite app_length, H, IHl by (intros; try apply H; cbn; auto). reflexivity.
Qed.

Definition prod (sh : list Z) : Z := fold_right Z.mul 1 sh.

Lemma coords_length sh : Forall (fun d => 0 <= d) sh -> Z.of_nat (length (coords sh)) = prod sh.
Proof.
  induction sh as [|d sh IH]; intros H; cbn [coords prod fold_right]; [reflexivity|]. inversion H; subst.
  rewrite (flat_map_length_const _ _ (length (coords sh))) by (intros; now rewrite map_length).
  rewrite zrange_length, Nat2Z.inj_mul, IH by auto. fold (prod sh). rewrite Z2Nat.id by lia. lia.
Qed.

(** * C11: element counting *)

Lemma count_elem_num_part_spec sh : Forall (fun d => 0 <= d) sh ->
  count_elem_num_part sh = prod sh mod 2 ^ 32.
Proof.
  intros _. unfold count_elem_num_part.
  assert (E : forall l a, fold_left (fun n d => uwrap 32 (n * d)) l (uwrap 32 a) = uwrap 32 (a * prod l)).
  { induction l as [|d l IH]; intros a; cbn [fold_left prod fold_right]; [now rewrite Z.mul_1_r|].
    replace (uwrap 32 (uwrap 32 a * d)) with (uwrap 32 (a * d)) by (unfold uwrap; now rewrite Zmult_mod_idemp_l).
    rewrite IH. fold (prod l). f_equal. ring. }
  change 1 with (uwrap 32 1) at 1. rewrite E. unfold uwrap. now rewrite Z.mul_1_l.
Qed.

(** The count is the number of coordinates of the trailing dimensions (as a uint32). *)
Theorem count_elem_num_correct sh start :
  (length sh <= 4)%nat -> Forall (fun d => 0 <= d) sh -> 0 <= start < Z.of_nat (length sh) ->
  let trailing := skipn (Z.to_nat start) sh in
  hlp_count_elem_num sh start = Z.of_nat (length (coords trailing)) mod 2 ^ 32
  /\ (prod trailing < 2 ^ 32 -> hlp_count_elem_num sh start = prod trailing
       /\ (hlp_count_elem_num sh start = 0 <-> In 0 trailing)).
Proof.
  intros Hl Hp Hs trailing.
  assert (Hf : Forall (fun d => 0 <= d) trailing).
  { apply Forall_forall. intros x Hx. rewrite Forall_forall in Hp. apply Hp.
    unfold trailing in Hx. rewrite <- (firstn_skipn (Z.to_nat start) sh). apply in_or_app; now right. }
  assert (E : hlp_count_elem_num sh start = prod trailing mod 2 ^ 32).
  { unfold hlp_count_elem_num. replace (Z.of_nat (length sh) <=? 4) with true by lia.
    replace (start <? Z.of_nat (length sh)) with true by lia. rewrite andb_false_r. cbn [negb].
    apply count_elem_num_part_spec; auto. }
  rewrite E, coords_length by auto. split; [reflexivity|]. intros Hlt.
  assert (Hnn : 0 <= prod trailing).
  { clear - Hf. induction trailing; cbn; [lia|]. inversion Hf; subst. fold (prod trailing). specialize (IHtrailing H2). nia. }
  rewrite Z.mod_small by lia. split; [reflexivity|].
  clear - Hf. induction trailing as [|d l IH]; cbn [prod fold_right In]; [lia|].
  inversion Hf; subst. fold (prod l). rewrite Z.mul_eq_0, IH by auto. intuition.
Qed.

(** A 32-bit overflow makes the count wrong (0 for a shape with 2^32 elements). *)
Theorem count_elem_num_refuted : exists sh, Forall (fun d => 0 < d <= 2 ^ 31 - 1) sh
  /\ hlp_count_elem_num sh 0 = 0 /\ 0 < prod sh.
Proof. exists [65536; 65536]. repeat split; try (repeat constructor; lia). Qed.

(** * C12: the tensor checker *)

(** Number of elements spanned, counted from the first to the last element (the exact version of
    [size] in the checker). *)
Fixpoint span (sh st : list Z) : Z :=
  match sh, st with d :: sh', s :: st' => (d - 1) * s + span sh' st' | _, _ => 1 end.

(** Each stride is at least the extent of the next inner dimension. *)
Fixpoint nested (sh st : list Z) : Prop :=
  match sh, st with
  | [], [] => True
  | d :: sh', s :: st' =>
      0 < d /\ 0 < s /\ match sh', st' with d' :: _, s' :: _ => d' * s' <= s | _, _ => True end /\ nested sh' st'
  | _, _ => False
  end.

Definition extent (sh st : list Z) : Z := match sh, st with d :: _, s :: _ => d * s | _, _ => 1 end.

Lemma nested_length sh st : nested sh st -> length sh = length st.
Proof. revert st; induction sh; intros [|s st]; cbn; try tauto. intros (_&_&_&H). f_equal; auto. Qed.

Lemma nested_addr sh st c : nested sh st -> valid sh c ->
  0 <= addr st c < span sh st /\ addr st c < extent sh st.
Proof.
  revert st c; induction sh as [|d sh IH]; intros [|s st] [|i c]; cbn [nested valid]; try tauto.
  - intros _ _. cbn. lia.
  - intros (Hd & Hs & Hn & Hnest) (Hi & Hv). destruct (IH st c Hnest Hv) as [[H1 H2] H3].
    cbn [addr span extent].
    assert (addr st c < s) by (destruct sh, st; cbn in *; try tauto; destruct c; cbn in *; lia).
    split; [split|]; nia.
Qed.

Lemma nested_inj sh st c1 c2 : nested sh st -> valid sh c1 -> valid sh c2 -> addr st c1 = addr st c2 -> c1 = c2.
Proof.
  revert st c1 c2; induction sh as [|d sh IH]; intros [|s st] [|i c1] [|j c2]; cbn [nested valid]; try tauto.
  intros (Hd & Hs & Hn & Hnest) (Hi & Hv1) (Hj & Hv2) E. cbn [addr] in E.
  destruct (nested_addr sh st c1 Hnest Hv1) as [[A1 A2] A3]. destruct (nested_addr sh st c2 Hnest Hv2) as [[B1 B2] B3].
  assert (addr st c1 < s /\ addr st c2 < s).
  { destruct sh, st; cbn in *; try tauto. destruct c1, c2; cbn in *; lia. }
  assert (i = j) by nia. subst j. f_equal. apply (IH st); auto. nia.
Qed.

Lemma wrap_add2 n x y : 1 <= n -> wrap n (x + wrap n y) = wrap n (x + y).
Proof. intros. rewrite Z.add_comm, wrap_add_mod by auto. f_equal. lia. Qed.

Lemma wrap_mul n x y : 1 <= n -> wrap n (wrap n x * y) = wrap n (x * y).
Proof.
  intros Hn. unfold wrap. f_equal. pose proof (pow2_gt0 n ltac:(lia)).
  set (p := 2 ^ n) in *. set (h := 2 ^ (n-1)) in *.
  rewrite <- Zplus_mod_idemp_l. rewrite <- (Zplus_mod_idemp_l (x * y)). f_equal. f_equal.
  rewrite <- Zmult_mod_idemp_l. rewrite <- (Zmult_mod_idemp_l x y). f_equal. f_equal.
  rewrite Zminus_mod_idemp_l. f_equal. lia.
Qed.

Lemma check_fold sh st : length sh = length st ->
  Forall (fun ds => in_bits 32 (fst ds * snd ds)) (combine sh st) ->
  exists fail, fold_right check_step (false, 1, 1, 1) (combine sh st)
    = (fail, wrap 32 (span sh st), hd 1 sh, hd 1 st)
    /\ (fail = false -> Forall (fun ds => 0 < fst ds /\ 0 < snd ds) (combine sh st) -> nested sh st).
Proof.
  revert st; induction sh as [|d sh IH]; intros [|s st]; cbn [combine fold_right length]; try (intros; discriminate).
  - intros _ _. exists false. split; [|cbn; auto]. cbn [span hd]. rewrite wrap_id by (unfold in_bits; cbn; lia). reflexivity.
  - intros Hl Hb. inversion Hb; subst. destruct (IH st) as (f & E & Hf); auto.
    rewrite E. cbn [check_step span hd]. eexists. split.
    + f_equal. f_equal. f_equal. rewrite wrap_add2, wrap_add_mod by lia. f_equal. lia.
    + intros Hff Hpos. inversion Hpos; subst. cbn [fst snd] in *.
      apply orb_false_iff in Hff. destruct Hff as [Hff1 Hff2]. apply negb_false_iff in Hff2.
      cbn [nested]. repeat split; try tauto.
      destruct sh as [|d' sh], st as [|s' st]; cbn in Hl; try lia; auto.
      cbn [hd] in Hff2. rewrite wrap_id in Hff2; [lia|lia|]. inversion H2; subst. assumption.
Qed.

(** Soundness of the checker, provided no 32-bit product or the total size overflows: every element
    is inside the capacity (in bytes) and no two coordinates share an element. *)
Theorem chk_tensor_sound t :
  length (t_shape t) = length (t_stride t) -> 1 <= t_esz t ->
  (* no 32-bit overflow in the checker *)
  Forall (fun ds => in_bits 32 (fst ds * snd ds)) (combine (t_shape t) (t_stride t)) ->
  span (t_shape t) (t_stride t) * t_esz t <= 2 ^ 31 - 1 ->
  chk_tensor t = ST_OK ->
  (forall c, valid (t_shape t) c ->
     0 <= addr (t_stride t) c * t_esz t /\ (addr (t_stride t) c + 1) * t_esz t <= t_cap t)
  /\ (forall c1 c2, valid (t_shape t) c1 -> valid (t_shape t) c2 ->
       addr (t_stride t) c1 = addr (t_stride t) c2 -> c1 = c2).
Proof.
  intros Hl He Hb Hs. unfold chk_tensor, check_tensor_private.
  destruct (negb (Z.of_nat (length (t_shape t)) <=? 4) || negb (t_cap t <=? 2 ^ 31 - 1)); [discriminate|].
  destruct (forallb dim_ok (combine (t_shape t) (t_stride t))) eqn:Hd; cbn [negb]; [|discriminate].
  destruct (check_fold (t_shape t) (t_stride t) Hl Hb) as (f & E & Hf). rewrite E.
  destruct f; [discriminate|]. intros Hcap.
  assert (Hn : nested (t_shape t) (t_stride t)).
  { apply Hf; auto. apply Forall_forall. intros [d s] Hin. rewrite forallb_forall in Hd.
    specialize (Hd _ Hin). unfold dim_ok in Hd. cbn. lia. }
  assert (Hspan : 1 <= span (t_shape t) (t_stride t)).
  { clear - Hn. revert Hn. generalize (t_stride t). induction (t_shape t); intros [|s st]; cbn; try tauto; try lia.
    intros (?&?&_&H1). specialize (IHl _ H1). nia. }
  rewrite wrap_mul, wrap_id in Hcap; [|lia| |lia].
  2: { unfold in_bits, smin, smax. change (32 - 1) with 31. nia. }
  destruct (Z.geb_spec (t_cap t) (span (t_shape t) (t_stride t) * t_esz t)); cbn [negb] in Hcap; [|discriminate].
  split.
  - intros c Hv. destruct (nested_addr _ _ c Hn Hv) as [[A1 A2] _]. nia.
  - intros. eapply nested_inj; eauto.
Qed.

(** Without that proviso the checker accepts a tensor that does not fit its buffer: a 1-D tensor with
    2^30+1 elements and stride 4 passes with a capacity of a single byte. *)
Theorem chk_tensor_refuted : exists t c,
  chk_tensor t = ST_OK /\ valid (t_shape t) c /\ t_cap t < (addr (t_stride t) c + 1) * t_esz t.
Proof.
  exists (mkTensor 0 1 1 [2 ^ 30 + 1] [4] false (-1) 0), [2 ^ 30].
  split; [vm_compute; reflexivity|]. split; [cbn; lia|vm_compute; reflexivity].
Qed.

Example chk_tensor_ex : chk_tensor (mkTensor 0 96 2 [2; 3; 4] [24; 8; 2] false (-1) 0) = ST_OK
  /\ span [2; 3; 4] [24; 8; 2] * 2 <= 2 ^ 31 - 1.
Proof. split; [vm_compute; reflexivity|vm_compute; discriminate]. Qed.

(** * C16: overlap check *)

(** Sound when the end addresses do not wrap in 32-bit arithmetic. *)
Theorem not_overlapped_sound p1 c1 p2 c2 :
  in_bits 32 (p1 + c1) -> in_bits 32 (p2 + c2) -> not_overlapped p1 c1 p2 c2 = true ->
  forall a, ~ (p1 <= a < p1 + c1 /\ p2 <= a < p2 + c2).
Proof.
  intros H1 H2 H a. unfold not_overlapped in H. rewrite !wrap_id in H by (auto; lia). lia.
Qed.

(** Complete as well: disjoint non-empty buffers are accepted. *)
Theorem not_overlapped_complete p1 c1 p2 c2 :
  in_bits 32 (p1 + c1) -> in_bits 32 (p2 + c2) -> 0 < c1 -> 0 < c2 ->
  (forall a, ~ (p1 <= a < p1 + c1 /\ p2 <= a < p2 + c2)) -> not_overlapped p1 c1 p2 c2 = true.
Proof.
  intros H1 H2 P1 P2 H. unfold not_overlapped. rewrite !wrap_id by (auto; lia).
  destruct (Z.geb_spec p1 (p2 + c2)); [reflexivity|]. destruct (Z.geb_spec p2 (p1 + c1)); [reflexivity|].
  exfalso. apply (H (Z.max p1 p2)). lia.
Qed.

(** A buffer that ends past 2^31 is reported as not overlapping with itself. *)
Theorem not_overlapped_refuted : exists p c, in_bits 32 p /\ 0 < c <= 2 ^ 31 - 1
  /\ not_overlapped p c p c = true.
Proof. exists (2 ^ 31 - 16), 32. repeat split; vm_compute; congruence. Qed.

(** * C13: sub-tensors *)

(** [squeezed size sub c p]: the shape [sub] is [size] with some unit dimensions removed, and the
    coordinate [c] of [sub] corresponds to coordinate [p] of [size] (0 in each removed dimension). *)
Inductive squeezed : list Z -> list Z -> list Z -> list Z -> Prop :=
| sq_nil : squeezed [] [] [] []
| sq_keep d i size sub c p : squeezed size sub c p -> squeezed (d :: size) (d :: sub) (i :: c) (i :: p)
| sq_drop size sub c p : squeezed size sub c p -> squeezed (1 :: size) sub c (0 :: p).

Definition units (size : list Z) : Z := Z.of_nat (length (filter (Z.eqb 1) size)).

Lemma eff_strides_id sh st : length sh = length st -> Forall (fun s => 0 < s) st -> eff_strides sh st = st.
Proof.
  revert st; induction sh as [|d sh IH]; intros [|s st]; cbn [eff_strides length]; try lia; auto.
  intros Hl Hp. inversion Hp; subst. rewrite IH by (auto; lia).
  destruct (Z.eqb_spec s 0); [lia|]. reflexivity.
Qed.

Lemma sub_dims_past qdim asym off : forall size ms skip idx oidx qd qo, qdim < idx ->
  let '(kept, a, b) := sub_dims skip idx oidx qdim qd qo asym (combine off (combine size ms)) in a = qd /\ b = qo.
Proof.
  induction off as [|o off IH]; intros [|d size] [|s ms] skip idx oidx qd qo Hi; cbn [combine sub_dims]; auto.
  destruct ((skip >? 0) && (d =? 1)).
  - apply IH. lia.
  - destruct (Z.eqb_spec qdim idx); [lia|]. rewrite andb_false_r.
    specialize (IH size ms skip (idx + 1) (oidx + 1) qd qo ltac:(lia)).
    destruct (sub_dims skip (idx + 1) (oidx + 1) qdim qd qo asym _) as [[? ?] ?]. auto.
Qed.

(** The per-axis parameter entry: [qd'] is the position of the axis in the result. *)
Definition axis_ok (asym : bool) (qdim idx oidx qd' qo' : Z) (off size c p : list Z) : Prop :=
  asym = true -> idx <= qdim < idx + Z.of_nat (length size) ->
  nth (Z.to_nat (qdim - idx)) size 1 <> 1 ->
  oidx <= qd' /\ qo' = nth (Z.to_nat (qdim - idx)) off 0
  /\ nth (Z.to_nat (qd' - oidx)) c 0 = nth (Z.to_nat (qdim - idx)) p 0.

(** What the copying loop keeps: with [skip] not larger than the number of unit dimensions. *)
Lemma sub_dims_spec asym qdim off : forall size ms skip idx oidx qd qo,
  length off = length size -> length size = length ms -> 0 <= skip <= units size ->
  let '(kept, qd', qo') := sub_dims skip idx oidx qdim qd qo asym (combine off (combine size ms)) in
  Z.of_nat (length kept) = Z.of_nat (length size) - skip
  /\ (forall c, valid (map fst kept) c -> exists p, squeezed size (map fst kept) c p /\ valid size p
         /\ addr (map snd kept) c = addr ms p /\ axis_ok asym qdim idx oidx qd' qo' off size c p)
  /\ (forall p, valid size p -> exists c, squeezed size (map fst kept) c p /\ valid (map fst kept) c
         /\ addr (map snd kept) c = addr ms p).
Proof.
  induction off as [|o off IH]; intros [|d size] [|s ms] skip idx oidx qd qo; cbn [length]; try lia; intros Hl1 Hl2 Hs.
  - cbn. unfold units in Hs; cbn in Hs. split; [lia|]. split.
    + intros [|] H; [|destruct H]. exists []. split; [constructor|]. split; [exact I|]. split; [reflexivity|].
      intros _ ?. cbn in *; lia.
    + intros [|] H; [|destruct H]. exists []. repeat split; constructor.
  - cbn [combine sub_dims].
    assert (Hu : units (d :: size) = (if d =? 1 then 1 else 0) + units size).
    { unfold units. cbn [filter]. rewrite (Z.eqb_sym 1 d). destruct (d =? 1); cbn [length]; lia. }
    destruct ((skip >? 0) && (d =? 1)) eqn:Hdrop.
    + apply andb_true_iff in Hdrop. destruct Hdrop as [Hs0 Hd]. apply Z.eqb_eq in Hd. subst d.
      specialize (IH size ms (skip - 1) (idx + 1) oidx qd qo ltac:(lia) ltac:(lia) ltac:(rewrite Z.eqb_refl in Hu; lia)).
      destruct (sub_dims (skip - 1) (idx + 1) oidx qdim qd qo asym (combine off (combine size ms))) as [[kept qd'] qo'].
      destruct IH as (A & B & C). split; [lia|]. split.
      * intros c Hc. destruct (B c Hc) as (p & P1 & P2 & P3 & P4). exists (0 :: p).
        split; [now constructor|]. split; [split; [lia|auto]|]. split; [cbn [addr]; lia|].
        intros Ha Hq Hn. cbn [length] in Hq. destruct (Z.eq_dec qdim idx) as [->|].
        { replace (idx - idx) with 0 in Hn by lia. cbn in Hn. congruence. }
        replace (Z.to_nat (qdim - idx)) with (S (Z.to_nat (qdim - (idx + 1)))) in * by lia. cbn [nth] in *.
        apply P4; auto. lia.
      * intros [|i p] Hp; [destruct Hp|]. destruct Hp as [Hi Hp]. assert (i = 0) by lia. subst i.
        destruct (C p Hp) as (c & P1 & P2 & P3). exists c. repeat split; auto; [now constructor|]. cbn [addr]. lia.
    + assert (Hs' : 0 <= skip <= units size) by (assert (0 <= units size) by (unfold units; lia); destruct (Z.eqb_spec d 1), (Z.gtb_spec skip 0); cbn in Hdrop; try discriminate; lia).
      specialize (IH size ms skip (idx + 1) (oidx + 1) (if asym && (qdim =? idx) then oidx else qd)
                    (if asym && (qdim =? idx) then o else qo) ltac:(lia) ltac:(lia) Hs').
      assert (Hpast : qdim = idx -> asym = true ->
        let '(_, a, b) := sub_dims skip (idx + 1) (oidx + 1) qdim (if asym && (qdim =? idx) then oidx else qd)
            (if asym && (qdim =? idx) then o else qo) asym (combine off (combine size ms)) in a = oidx /\ b = o).
      { intros -> ->. rewrite Z.eqb_refl. cbn [andb]. apply sub_dims_past. lia. }
      destruct (sub_dims skip (idx + 1) (oidx + 1) qdim _ _ asym (combine off (combine size ms))) as [[kept qd'] qo'].
      destruct IH as (A & B & C). cbn [length map fst snd]. split; [lia|]. split.
      * intros [|i c] Hc; [destruct Hc|]. destruct Hc as [Hi Hc]. destruct (B c Hc) as (p & P1 & P2 & P3 & P4).
        exists (i :: p). split; [now constructor|]. split; [split; auto|]. split; [cbn [addr]; lia|].
        intros Ha Hq Hn. cbn [length] in Hq. destruct (Z.eq_dec qdim idx) as [Heq|].
        { destruct (Hpast Heq Ha) as [-> ->]. replace (qdim - idx) with 0 by lia. replace (oidx - oidx) with 0 by lia.
          cbn. split; [lia|auto]. }
        replace (Z.to_nat (qdim - idx)) with (S (Z.to_nat (qdim - (idx + 1)))) in * by lia. cbn [nth] in *.
        destruct (P4 Ha ltac:(lia) Hn) as (Q1 & Q2 & Q3). split; [lia|]. split; [auto|].
        replace (Z.to_nat (qd' - oidx)) with (S (Z.to_nat (qd' - (oidx + 1)))) by lia. exact Q3.
      * intros [|i p] Hp; [destruct Hp|]. destruct Hp as [Hi Hp]. destruct (C p Hp) as (c & P1 & P2 & P3).
        exists (i :: c). repeat split; try lia; auto; [now constructor|]. cbn [addr]. lia.
Qed.

Fixpoint vadd (a b : list Z) : list Z :=
  match a, b with x :: a', y :: b' => x + y :: vadd a' b' | _, _ => [] end.

Lemma addr_vadd st a b : length a = length st -> length b = length st -> addr st (vadd a b) = addr st a + addr st b.
Proof.
  revert a b; induction st; intros [|x a'] [|y b']; cbn [addr vadd length]; try lia. intros. rewrite IHst by lia. ring.
Qed.

Definition in_window (sh off size : list Z) : Prop :=
  length off = length sh /\ length size = length sh /\
  Forall (fun p => let '(d, (o, s)) := p in 0 <= o /\ 0 <= s /\ o + s <= d) (combine sh (combine off size)).

Lemma window_valid sh off size p : in_window sh off size -> valid size p -> valid sh (vadd off p).
Proof.
  unfold in_window. revert off size p. induction sh as [|d sh IH]; intros [|o off] [|s size] [|i p]; cbn [length valid vadd combine];
    intros (H1 & H2 & H3); try lia; try tauto.
  inversion H3; subst. intros [Hi Hp]. split; [lia|]. apply (IH off size p); [|auto]. repeat split; auto; lia.
Qed.

(** C13. If the configuration is accepted, the requested window does not wrap around in the 32-bit
    comparison (offset + size < 2^32) and at most the unit dimensions are squeezed away, then:
    - each element of the sub-tensor is the parent's element at [offset + p], and that coordinate is inside the parent;
    - each parent element of the window is an element of the sub-tensor;
    - the sub-tensor's elements lie within its capacity, which ends where the parent's ends. *)
Theorem create_subtensor_correct t off size orank s :
  length (t_shape t) = length (t_stride t) -> 1 <= t_esz t ->
  Forall (fun ds => in_bits 32 (fst ds * snd ds)) (combine (t_shape t) (t_stride t)) ->
  span (t_shape t) (t_stride t) * t_esz t <= 2 ^ 31 - 1 ->
  length off = length (t_shape t) -> length size = length (t_shape t) ->
  Forall (fun o => 0 <= o) off -> Forall (fun x => 0 <= x) size ->
  Forall (fun os => fst os + snd os < 2 ^ 32) (combine off size) ->
  0 <= t_rank t - orank <= units size ->
  create_subtensor t off size orank = (ST_OK, s) ->
  t_rank s = orank
  /\ (forall c, valid (t_shape s) c -> exists p, squeezed size (t_shape s) c p /\ valid size p
        /\ valid (t_shape t) (vadd off p)
        /\ t_data s + addr (t_stride s) c = t_data t + addr (t_stride t) (vadd off p)
        /\ 0 <= addr (t_stride s) c /\ (addr (t_stride s) c + 1) * t_esz s <= t_cap s
        (* per-axis quantization: same parameter entry, if the axis is not squeezed away *)
        /\ (t_asym t = true -> 0 <= t_qdim t < t_rank t -> nth (Z.to_nat (t_qdim t)) size 1 <> 1 ->
             0 <= t_qdim s /\
             t_qoff s + nth (Z.to_nat (t_qdim s)) c 0
             = t_qoff t + nth (Z.to_nat (t_qdim t)) (vadd off p) 0))
  /\ (forall p, valid size p -> exists c, valid (t_shape s) c /\ squeezed size (t_shape s) c p
        /\ t_data s + addr (t_stride s) c = t_data t + addr (t_stride t) (vadd off p))
  /\ t_data s * t_esz s + t_cap s = t_data t * t_esz t + t_cap t.
Proof.
  intros Hl He Hb Hsp Hlo Hls Hpo Hps Hw Hr. unfold create_subtensor, chk_create_subtensor.
  destruct (chk_tensor t) eqn:Hchk; try discriminate.
  destruct (negb (orank <=? t_rank t)) eqn:Hrk; [discriminate|].
  destruct (forallb _ _) eqn:Hfa; [|discriminate].
  destruct (chk_tensor_sound t Hl He Hb Hsp Hchk) as [Hin _].
  assert (Hst : Forall (fun s => 0 < s) (t_stride t)).
  { unfold chk_tensor, check_tensor_private in Hchk.
    destruct (negb (Z.of_nat (length (t_shape t)) <=? 4) || negb (t_cap t <=? 2 ^ 31 - 1)); [discriminate|].
    destruct (forallb dim_ok (combine (t_shape t) (t_stride t))) eqn:Hd; cbn [negb] in Hchk; [|discriminate].
    clear - Hd Hl. revert Hd Hl. generalize (t_shape t). induction (t_stride t) as [|s st IH]; intros [|d sh]; cbn; try lia; auto.
    intros H1 H2. apply andb_true_iff in H1. destruct H1 as [H1 H3]. constructor; [unfold dim_ok in H1; lia|]. eapply IH; eauto. }
  rewrite eff_strides_id by auto.
  assert (Hwin : in_window (t_shape t) off size).
  { split; [auto|]. split; [auto|]. clear - Hfa Hlo Hls Hpo Hps Hw.
    revert off size Hfa Hlo Hls Hpo Hps Hw. induction (t_shape t) as [|d sh IH]; intros [|o off] [|z size]; cbn; try lia; auto.
    intros H1 H2 H3 H4 H5 H6. inversion H4; inversion H5; inversion H6; subst. cbn in *.
    apply andb_true_iff in H1. destruct H1 as [H1 H7x]. constructor; [|apply IH; auto; lia].
    rewrite uwrap_id in H1 by (unfold in_ubits; lia). lia. }
  pose proof (sub_dims_spec (t_asym t) (t_qdim t) off size (t_stride t) (t_rank t - orank) 0 0 (-1) 0
                ltac:(lia) ltac:(lia) Hr) as HS.
  destruct (sub_dims (t_rank t - orank) 0 0 (t_qdim t) (-1) 0 (t_asym t) (combine off (combine size (t_stride t)))) as [[kept qd] qo].
  destruct HS as (HA & HB & HC). intros E. inversion E; subst s; clear E. cbn [t_shape t_stride t_data t_cap t_esz].
  assert (Hk : Z.of_nat (length kept) = orank) by (unfold t_rank in *; lia).
  rewrite firstn_all2 by lia.
  unfold t_rank at 1. cbn [t_shape]. rewrite map_length. split; [lia|]. split; [|split].
  - intros c Hc. destruct (HB c Hc) as (p & P1 & P2 & P3 & P4). exists p. split; [auto|]. split; [auto|].
    pose proof (window_valid _ _ _ _ Hwin P2) as Hv. split; [auto|].
    assert (Ea : addr (t_stride t) (vadd off p) = addr (t_stride t) off + addr (t_stride t) p).
    { apply addr_vadd; [lia|]. rewrite (valid_length _ _ P2). lia. }
    split; [lia|]. destruct (Hin _ Hv) as [H1 H2]. rewrite P3. rewrite Ea in *.
    assert (0 <= addr (t_stride t) p).
    { clear - Hst P2. revert p P2 Hst. generalize size. generalize (t_stride t). induction l as [|s st IH]; intros [|d sz] [|i p]; cbn; try lia; try tauto.
      intros [Hi Hp] Hst. inversion Hst; subst. specialize (IH _ _ Hp H2). nia. }
    split; [lia|]. split; [nia|].
    intros Ha Hq Hn. cbn [t_qdim t_qoff]. rewrite Ha. cbn [andb]. destruct (Z.geb_spec (t_qdim t) 0); [|lia].
    assert (Hq' : 0 <= t_qdim t < 0 + Z.of_nat (length size)) by (unfold t_rank in Hq; lia).
    destruct (P4 Ha Hq') as (Q1 & Q2 & Q3).
    { replace (t_qdim t - 0) with (t_qdim t) by lia. exact Hn. }
    rewrite !Z.sub_0_r in Q2, Q3. split; [lia|]. rewrite Q3, Q2.
    assert (Hnv : forall k a b, (k < length a)%nat -> length a = length b -> nth k (vadd a b) 0 = nth k a 0 + nth k b 0).
    { clear. induction k; intros [|x a] [|y b]; cbn [vadd nth length]; try lia. intros; apply IHk; lia. }
    replace (t_qdim t - 0) with (t_qdim t) by lia. rewrite Hnv; [lia| |rewrite (valid_length _ _ P2); lia]. unfold t_rank in *. lia.
  - intros p Hp. destruct (HC p Hp) as (c & P1 & P2 & P3). exists c. split; [auto|]. split; [auto|].
    rewrite addr_vadd; [lia|lia|]. rewrite (valid_length _ _ Hp). lia.
  - ring.
Qed.

(** The 32-bit comparison accepts a window far outside of the parent. *)
Theorem create_subtensor_wrap_refuted : exists t off size orank s c,
  create_subtensor t off size orank = (ST_OK, s) /\ valid (t_shape s) c
  /\ t_cap t < (t_data s - t_data t + addr (t_stride s) c + 1) * t_esz s.
Proof.
  exists (mkTensor 0 8 1 [8] [1] false (-1) 0), [1], [2 ^ 32 - 1], 1.
  eexists. exists [100]. split; [vm_compute; reflexivity|]. split; [cbn; lia|vm_compute; reflexivity].
Qed.

(** A requested rank that is too small for the number of non-unit sizes is accepted, and the
    sub-tensor silently misses elements of the window. *)
Theorem create_subtensor_rank_refuted : exists t off size orank s p,
  create_subtensor t off size orank = (ST_OK, s) /\ valid size p
  /\ forall c, valid (t_shape s) c ->
       t_data s + addr (t_stride s) c <> t_data t + addr (t_stride t) (vadd off p).
Proof.
  exists (mkTensor 0 8 1 [2; 4] [4; 1] false (-1) 0), [0; 0], [2; 2], 1.
  eexists. exists [0; 1]. split; [vm_compute; reflexivity|]. split; [cbn; lia|].
  intros [|i [|]] Hv; cbn [valid t_shape] in Hv; try tauto; cbn [addr t_stride t_data vadd]; lia.
Qed.

(** When the quantization axis itself is squeezed away the result is marked "per tensor" (axis -1)
    although its parameters are still the arrays of the parent, at offset 0 rather than at the chosen index. *)
Theorem create_subtensor_qaxis_refuted : exists t off size orank s,
  create_subtensor t off size orank = (ST_OK, s) /\ t_asym t = true /\ t_qdim t = 0
  /\ t_qdim s = -1 /\ t_qoff s <> t_qoff t + nth 0 off 0.
Proof.
  exists (mkTensor 0 8 1 [2; 4] [4; 1] true 0 0), [1; 0], [1; 4], 1.
  eexists. split; [vm_compute; reflexivity|]. cbn. repeat split; lia.
Qed.

Example create_subtensor_ex :
  create_subtensor (mkTensor 0 120 1 [2; 3; 4] [24; 8; 2] true 2 0) [1; 1; 0] [1; 2; 3] 2
  = (ST_OK, mkTensor 32 88 1 [2; 3] [8; 2] true 1 0).
Proof. vm_compute. reflexivity. Qed.


(** * C14: pointing to a slice *)

Lemma contiguous_fold sh st : length sh = length st ->
  Forall (fun ds => in_bits 32 (fst ds * snd ds)) (combine sh st) ->
  exists f, fold_right contiguous_step (false, 1, 1) (combine sh st) = (f, hd 1 sh, hd 1 st)
    /\ (f = false -> st = contiguous_strides sh).
Proof.
  revert st; induction sh as [|d sh IH]; intros [|s st]; cbn [combine fold_right length]; try (intros; discriminate).
  - intros _ _. exists false. split; [reflexivity|]. reflexivity.
  - intros Hl Hb. inversion Hb; subst. destruct (IH st) as (f & E & Hf); auto. rewrite E.
    cbn [contiguous_step hd]. eexists. split; [reflexivity|]. intros Hff.
    apply orb_false_iff in Hff. destruct Hff as [Hff1 Hff2]. specialize (Hf Hff1).
    cbn [contiguous_strides]. rewrite <- Hf. f_equal.
    destruct sh as [|d' sh], st as [|s' st]; cbn in Hl; try lia; cbn [hd] in Hff2.
    + rewrite wrap_id in Hff2 by (cbn; try lia; unfold in_bits; cbn; lia). lia.
    + inversion H2; subst. cbn [fst snd] in *. rewrite wrap_id in Hff2 by (auto; lia). lia.
Qed.

Lemma addr_app st1 st2 c1 c2 : length st1 = length c1 -> addr (st1 ++ st2) (c1 ++ c2) = addr st1 c1 + addr st2 c2.
Proof. revert c1; induction st1; intros [|i c1]; cbn [length app addr]; try lia. intros. rewrite IHst1 by lia. ring. Qed.

Lemma contiguous_skipn k sh : skipn k (contiguous_strides sh) = contiguous_strides (skipn k sh).
Proof. revert k; induction sh; intros [|k]; cbn [skipn contiguous_strides]; auto. Qed.

Lemma contiguous_length sh : length (contiguous_strides sh) = length sh.
Proof. induction sh; cbn; auto. Qed.

Lemma fold_left_mul l : forall a, fold_left Z.mul l a = a * prod l.
Proof. induction l; intros; cbn [fold_left prod fold_right]; [lia|]. rewrite IHl. fold (prod l). ring. Qed.

(** C14. For an accepted configuration (no 32-bit overflow), the element [c] of the result is the parent's
    element at coordinates start[0..n-2], start[n-1] + c[0], c[1], ...; it is inside the parent, and the
    capacity is exactly the number of elements of the slice. Acceptance is only possible for rank-1
    results, but the description holds for all ranks, see the next theorem. *)
Theorem point_to_subtensor_correct t start fods os data shape cap c :
  length (t_shape t) = length (t_stride t) -> 1 <= t_esz t ->
  Forall (fun ds => in_bits 32 (fst ds * snd ds)) (combine (t_shape t) (t_stride t)) ->
  0 <= fods -> Forall (fun x => 0 <= x) start -> last start 0 + fods < 2 ^ 32 ->
  chk_point_to_subtensor t start fods os = Some ST_OK ->
  point_to_subtensor t start fods = (data, shape, cap) ->
  valid shape c ->
  let p := removelast start ++ last start 0 + hd 0 c :: tl c in
  valid (t_shape t) p
  /\ data + addr (contiguous_strides shape) c = t_data t + addr (t_stride t) p
  /\ cap = Z.of_nat (length (coords shape)) * t_esz t
  /\ length shape = 1%nat /\ os = 1.
Proof.
  intros Hl He Hb Hf0 Hpos Hw Hchk Hpt Hv. unfold chk_point_to_subtensor in Hchk.
  destruct (chk_tensor t) eqn:Hct; try discriminate.
  destruct (Nat.leb (length start) (length (t_shape t))) eqn:Hn; cbn [negb] in Hchk; [|discriminate].
  destruct (forallb _ (combine start (t_shape t))) eqn:Hfa; cbn [negb] in Hchk; [|discriminate].
  destruct (Nat.eqb (length start) 0) eqn:Hn0; [discriminate|].
  destruct (uwrap 32 (last start 0 + fods) <=? _) eqn:Hend; cbn [negb] in Hchk; [|discriminate].
  destruct (layout_is_contiguous _ _) eqn:Hlay; cbn [andb] in Hchk; [|discriminate].
  apply Nat.leb_le in Hn. apply Nat.eqb_neq in Hn0.
  assert (Hst : t_stride t = contiguous_strides (t_shape t)).
  { unfold layout_is_contiguous in Hlay. destruct (contiguous_fold _ _ Hl Hb) as (f & E & Hf).
    destruct (Nat.eqb (length (t_shape t)) 0) eqn:E0; [apply Nat.eqb_eq in E0; lia|].
    destruct (negb (Z.of_nat (length (t_shape t)) <=? 4)); [discriminate|].
    rewrite E in Hlay. cbn in Hlay. apply Hf. destruct f; cbn in Hlay; congruence. }
  unfold point_to_subtensor, dimension_sizes in Hpt. rewrite <- Hst in Hpt.
  assert (Hdec : exists s0 x, start = s0 ++ [x]).
  { destruct (exists_last (l := start)) as (s0 & x & E); [intros ->; cbn in Hn0; lia|]. eauto. }
  destruct Hdec as (s0 & x & ->). rewrite removelast_last, last_last in *. rewrite app_length in *. cbn [length] in *.
  replace (length s0 + 1 - 1)%nat with (length s0) in * by lia.
  (* split the parent's shape at the axis *)
  assert (Hsp : t_shape t = firstn (length s0) (t_shape t) ++ nth (length s0) (t_shape t) 0 :: skipn (length s0 + 1) (t_shape t)).
  { clear - Hn. revert Hn. generalize (t_shape t) as l. induction s0; intros [|y l]; cbn [length firstn nth skipn app Nat.add]; try lia; auto.
    intros. f_equal. apply IHs0. lia. }
  set (n := length s0) in *. set (a := firstn n (t_shape t)) in *. set (d := nth n (t_shape t) 0) in *.
  set (b := skipn (n + 1) (t_shape t)) in *.
  assert (Hla : length a = n) by (unfold a; rewrite firstn_length; lia).
  assert (Hlb : length b = (length (t_shape t) - (n + 1))%nat) by (unfold b; apply skipn_length).
  assert (Hib : forall z, In z b -> In z (t_shape t)).
  { intros z Hz. rewrite <- (firstn_skipn (n + 1) (t_shape t)). apply in_or_app. now right. }
  rewrite uwrap_id in Hend.
  2:{ unfold in_ubits. apply Forall_app in Hpos. destruct Hpos as [_ Hp]. inversion Hp; subst. lia. }
  inversion Hpt; subst data shape cap; clear Hpt.
  clearbody a d b. destruct c as [|i c]; [destruct Hv|]. destruct Hv as [Hi Hv]. cbn [hd tl].
  apply Forall_app in Hpos. destruct Hpos as [Hp0 Hpx]. inversion Hpx; subst.
  split; [|split; [|split]].
  - rewrite Hsp. assert (Hfa' : forallb (fun p => fst p <? snd p) (combine s0 a) = true).
    { rewrite Hsp in Hfa. clear - Hfa Hla. unfold n in *. clear n. revert a Hla Hfa.
      induction s0 as [|y s0 IH]; intros [|z a]; cbn [length app combine forallb]; try lia; auto.
      intros H1 H2. apply andb_true_iff in H2. destruct H2 as [H2 H3]. rewrite H2. cbn. eapply IH; eauto. }
    assert (valid a s0).
    { clear - Hfa' Hp0 Hla. unfold n in Hla. clear n. revert a Hla Hfa'. induction s0 as [|y s0 IH]; intros [|z a]; cbn [length valid combine forallb]; try lia; auto.
      intros H1 H2. apply andb_true_iff in H2. destruct H2 as [H2 H3]. inversion Hp0; subst. cbn [fst snd] in H2.
      split; [lia|]. apply IH; auto. }
    clear - H Hv Hi Hend H1. revert s0 H. induction a as [|z a IH]; intros [|y s0]; cbn [app valid]; try tauto.
    + intros _. split; [lia|auto].
    + intros [? ?]. split; [auto|]. apply IH; auto.
  - rewrite Hst. assert (E : contiguous_strides (t_shape t) = firstn n (contiguous_strides (t_shape t)) ++ contiguous_strides (d :: b)).
    { rewrite <- (firstn_skipn n (contiguous_strides (t_shape t))) at 1. f_equal. rewrite contiguous_skipn. f_equal.
      rewrite Hsp, skipn_app, Hla, Nat.sub_diag, skipn_all2 by lia. reflexivity. }
    rewrite E. rewrite !addr_app by (rewrite firstn_length, contiguous_length; fold n; lia).
    cbn [contiguous_strides addr]. set (q := match b with [] => 1 | _ => _ end).
    destruct (contiguous_strides b); cbn [addr]; ring.
  - rewrite coords_length.
    + f_equal. change (fold_left Z.mul (fods :: b) 1 = prod (fods :: b)). rewrite fold_left_mul. lia.
    + constructor; [auto|]. apply Forall_forall. intros z Hz.
      unfold chk_tensor, check_tensor_private in Hct.
      destruct (negb (Z.of_nat (length (t_shape t)) <=? 4) || negb (t_cap t <=? 2 ^ 31 - 1)); [discriminate|].
      destruct (forallb dim_ok (combine (t_shape t) (t_stride t))) eqn:Hd; cbn [negb] in Hct; [|discriminate].
      assert (Hz' : In z (t_shape t)) by auto.
      clear - Hz' Hd Hl. revert Hd Hl. generalize (t_stride t). induction (t_shape t); intros [|s st]; cbn in *; try lia; try tauto.
      intros H1 H2. apply andb_true_iff in H1. destruct H1 as [H1 H3]. unfold dim_ok in H1. destruct Hz'; [lia|]. eapply IHl; eauto.
  - cbn [length]. destruct (Nat.eqb (length (t_shape t) - n) 1) eqn:E1, (Nat.eqb (length (t_shape t) - n) 0) eqn:E2; cbn in Hchk.
    + apply Nat.eqb_eq in E1, E2. lia.
    + apply Nat.eqb_eq in E1. split; [lia|]. destruct (Z.eqb_spec os 1); [auto|discriminate].
    + apply Nat.eqb_eq in E2. lia.
    + discriminate.
Qed.

(** The checker refuses every slice that keeps more than one dimension, whatever the strides. *)
Theorem point_to_subtensor_rank_refuted t start fods os :
  (length start < length (t_shape t))%nat -> chk_point_to_subtensor t start fods os <> Some ST_OK.
Proof.
  intros H. unfold chk_point_to_subtensor. destruct (chk_tensor t); try discriminate.
  destruct (negb (Nat.leb _ _)); [discriminate|]. destruct (negb (forallb _ _)); [discriminate|].
  destruct (Nat.eqb (length start) 0) eqn:E; [discriminate|]. apply Nat.eqb_neq in E.
  destruct (negb (uwrap _ _ <=? _)); [discriminate|].
  replace (Nat.eqb (length (t_shape t) - (length start - 1)) 1) with false by (symmetry; apply Nat.eqb_neq; lia).
  replace (Nat.eqb (length (t_shape t) - (length start - 1)) 0) with false by (symmetry; apply Nat.eqb_neq; lia).
  rewrite andb_false_r. discriminate.
Qed.

(** With no start coordinate the function reads out of the bounds of the start_coord array. *)
Theorem point_to_subtensor_nocoord_refuted : exists t, chk_point_to_subtensor t [] 1 1 = None.
Proof. exists (mkTensor 0 8 1 [8] [1] false (-1) 0). reflexivity. Qed.

Example point_to_subtensor_ex :
  let t := mkTensor 5 24 2 [3; 4] [4; 1] false (-1) 0 in
  chk_point_to_subtensor t [1; 2] 2 1 = Some ST_OK /\ point_to_subtensor t [1; 2] 2 = (11, [2], 4).
Proof. split; vm_compute; reflexivity. Qed.

(** * C15: collapsing dimensions *)

Lemma zrange_merge d1 d2 : 0 <= d1 -> 0 <= d2 ->
  flat_map (fun i => map (fun j => d2 * i + j) (zrange 0 d2)) (zrange 0 d1) = zrange 0 (d1 * d2).
Proof.
  intros H1 H2. remember (Z.to_nat d1) as k eqn:Hk. revert d1 H1 Hk. induction k; intros.
  - assert (d1 = 0) by lia. subst. reflexivity.
  - replace d1 with (d1 - 1 + 1) at 1 by lia. rewrite zrange_snoc by lia. rewrite flat_map_app, IHk by lia.
    cbn [flat_map]. rewrite app_nil_r. rewrite (zrange_split 0 ((d1 - 1) * d2) (d1 * d2)) by nia. f_equal.
    replace (zrange ((d1 - 1) * d2) (d1 * d2)) with (zrange (0 + (d1 - 1) * d2) (d2 + (d1 - 1) * d2)) by (f_equal; lia).
    rewrite zrange_shift. apply map_ext. intros; lia.
Qed.

(** The sequence of addresses visited by the nested loops over a shape. *)
Definition visited (sh st : list Z) : list Z := map (addr st) (coords sh).

Lemma visited_cons d sh s st : visited (d :: sh) (s :: st)
  = flat_map (fun i => map (fun a => s * i + a) (visited sh st)) (zrange 0 d).
Proof.
  unfold visited. cbn [coords]. induction (zrange 0 d); cbn [flat_map map]; [reflexivity|].
  rewrite map_app, IHl. f_equal. rewrite !map_map. reflexivity.
Qed.

Lemma visited_last d : visited [d] [1] = zrange 0 d.
Proof.
  rewrite visited_cons. change (visited [] []) with [0]. induction (zrange 0 d); cbn [flat_map map app]; [reflexivity|]. f_equal; [lia|auto].
Qed.

Lemma visited_merge sh st d1 d2 : length sh = length st -> 0 <= d1 -> 0 <= d2 ->
  visited (sh ++ [d1; d2]) (st ++ [d2; 1]) = visited (sh ++ [d1 * d2]) (st ++ [1]).
Proof.
  revert st; induction sh as [|d sh IH]; intros [|s st]; cbn [length app]; try lia; intros.
  - rewrite visited_cons, !visited_last. apply zrange_merge; lia.
  - rewrite !visited_cons. rewrite IH by lia. reflexivity.
Qed.

Lemma visited_pad k sh st : visited (repeat 1 k ++ sh) (repeat 0 k ++ st) = visited sh st.
Proof.
  induction k; cbn [repeat app]; [reflexivity|]. rewrite visited_cons, IHk.
  rewrite zrange_cons, zrange_nil by lia. cbn [flat_map]. rewrite app_nil_r.
  rewrite <- (map_id (visited sh st)) at 2. apply map_ext. intros; lia.
Qed.

Lemma squash_rev_visited nt k : (k < nt)%nat -> forall outer d ss,
  0 <= d -> Forall (fun e => 0 <= fst e /\ length (snd e) = nt) outer -> length ss = nt -> nth k ss 0 = 1 ->
  let r := rev (squash_rev (d, ss) outer) in
  let l := rev ((d, ss) :: outer) in
  visited (d_shape r) (d_stride k r) = visited (d_shape l) (d_stride k l).
Proof.
  intros Hk. induction outer as [|[d1 ss1] outer IH]; intros d ss Hd Ho Hl Hs; cbn [squash_rev]; [reflexivity|].
  inversion Ho as [|? ? [Hd1 Hl1] Ho']; subst. cbn [fst snd] in *.
  destruct (forallb (fun s => s =? d) ss1) eqn:Hf; [|reflexivity].
  rewrite IH; [|nia|auto|rewrite map_length; auto|].
  - cbn [rev]. unfold d_shape, d_stride. rewrite !map_app, <- !app_assoc. cbn [app map fst snd].
    assert (E1 : nth k ss1 0 = d).
    { rewrite forallb_forall in Hf. apply Z.eqb_eq. apply Hf. apply nth_In. lia. }
    rewrite Hs, E1. rewrite visited_merge by (auto; now rewrite !map_length).
    rewrite (nth_indep _ 0 1) by (rewrite map_length; lia). rewrite (map_nth (fun _ => 1) ss1 1 k). reflexivity.
  - rewrite (nth_indep _ 0 1) by (rewrite map_length; lia). rewrite (map_nth (fun _ => 1) ss1 1 k). reflexivity.
Qed.

Lemma map_rep {A B} (f : A -> B) x n : map f (repeat x n) = repeat (f x) n.
Proof. induction n; cbn; congruence. Qed.

Definition well_formed (nt : nat) (l : dims) : Prop := Forall (fun e => 0 <= fst e /\ length (snd e) = nt) l.

(** C15. For every tensor [k] processed by the loop, the sequence of visited addresses is the same
    before and after collapsing, and the result has four dimensions. *)
Theorem squash_generic_correct nt k l inner :
  (k < nt)%nat -> well_formed nt (l ++ [inner]) -> (length l < 4)%nat -> nth k (snd inner) 0 = 1 ->
  let r := squash_generic nt (l ++ [inner]) in
  visited (d_shape r) (d_stride k r) = visited (d_shape (l ++ [inner])) (d_stride k (l ++ [inner]))
  /\ length r = 4%nat.
Proof.
  intros Hk Hw Hl Hin. unfold squash_generic. rewrite rev_unit. destruct inner as [d ss]. cbn [snd] in Hin.
  apply Forall_app in Hw. destruct Hw as [Hw1 Hw2]. inversion Hw2 as [|? ? [H1 H2] _]; subst. cbn [fst snd] in *.
  pose proof (squash_rev_visited (length ss) k Hk (rev l) d ss H1) as HS. cbn zeta in HS. cbn zeta.
  assert (Hw1' : Forall (fun e => 0 <= fst e /\ length (snd e) = length ss) (rev l)) by (now apply Forall_rev).
  specialize (HS Hw1' eq_refl Hin). rewrite <- rev_unit, rev_involutive in HS.
  set (r := squash_rev (d, ss) (rev l)) in *. split.
  - rewrite <- HS. unfold d_shape, d_stride. rewrite !map_app, !map_rep. cbn [fst snd].
    replace (nth k (repeat 0 (length ss)) 0) with 0 by (symmetry; apply nth_repeat). apply visited_pad.
  - assert (Hr : (length r <= 4)%nat).
    { unfold r. assert (G : forall o c, (length (squash_rev c o) <= S (length o))%nat).
      { induction o as [|[d1 s1] o IH]; intros c; cbn [squash_rev length]; [lia|].
        destruct (forallb _ s1); [specialize (IH (d1 * fst c, map (fun _ => 1) s1)); lia|cbn; lia]. }
      specialize (G (rev l) (d, ss)). rewrite rev_length in G. lia. }
    rewrite app_length, repeat_length, rev_length. lia.
Qed.

(** C15. A non-zero result of the one-dimensional collapse means that every tensor is visited at
    addresses 0, 1, ..., n-1 in this order. *)
Theorem squash_to_one_dim_correct nt k l inner :
  (k < nt)%nat -> well_formed nt (l ++ [inner]) -> nth k (snd inner) 0 = 1 ->
  squash_to_one_dim (l ++ [inner]) <> 0 ->
  visited (d_shape (l ++ [inner])) (d_stride k (l ++ [inner])) = zrange 0 (squash_to_one_dim (l ++ [inner])).
Proof.
  intros Hk Hw Hin. unfold squash_to_one_dim. rewrite rev_unit. destruct inner as [d ss]. cbn [snd] in Hin.
  apply Forall_app in Hw. destruct Hw as [Hw1 Hw2]. inversion Hw2 as [|? ? [H1 H2] _]; subst. cbn [fst snd] in *.
  assert (Hw1' : Forall (fun e => 0 <= fst e /\ length (snd e) = length ss) (rev l)) by (now apply Forall_rev).
  assert (G : forall o d, 0 <= d -> Forall (fun e => 0 <= fst e /\ length (snd e) = length ss) o -> squash_one_rev d o <> 0 ->
     visited (d_shape (rev o) ++ [d]) (d_stride k (rev o) ++ [1]) = zrange 0 (squash_one_rev d o)).
  { clear l Hin Hw1 Hw2 Hw1' d H1. induction o as [|[d1 s1] o IH]; intros d Hd Ho Hn; cbn [squash_one_rev] in *.
    - apply visited_last.
    - inversion Ho as [|? ? [Hd1 Hl1] Ho']; subst. cbn [fst snd] in *.
      destruct (forallb _ s1) eqn:Hf; [|congruence]. cbn [rev]. unfold d_shape, d_stride in *. rewrite !map_app, <- !app_assoc.
      cbn [map app fst snd]. assert (E1 : nth k s1 0 = d).
      { rewrite forallb_forall in Hf. apply Z.eqb_eq. apply Hf. apply nth_In. lia. }
      rewrite E1, visited_merge by (auto; now rewrite !map_length). rewrite <- IH; auto; [|nia]. f_equal. f_equal. f_equal. lia. }
  intros Hn. rewrite <- (G (rev l) d); auto. rewrite rev_involutive. unfold d_shape, d_stride. rewrite !map_app. cbn [map fst snd].
  now rewrite Hin.
Qed.

(** Collapsing is wrong when the innermost stride is not 1, a condition the functions themselves do not check. *)
Theorem squash_inner_stride_refuted : exists l, squash_to_one_dim l = 4 /\ visited (d_shape l) (d_stride 0 l) <> zrange 0 4.
Proof. exists [(2, [2; 2]); (2, [2; 2])]. split; [reflexivity|vm_compute; discriminate]. Qed.

Example squash_ex : let l := [(2, [24; 30]); (3, [8; 8]); (4, [2; 2]); (2, [1; 1])] in
  well_formed 2 l /\ squash_generic 2 l = [(1, [0; 0]); (1, [0; 0]); (2, [24; 30]); (24, [1; 1])] /\ squash_to_one_dim l = 0.
Proof. split; [repeat constructor; cbn; lia|]. split; reflexivity. Qed.
