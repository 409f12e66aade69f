(** Element-wise kernels: loops, fixed-point values, checker facts (C37). *)
From Coq Require Import ZArith List Lia Bool.
From Verif Require Import Base FxMath FxMathProofs Tensor TensorProofs MovProofs PermuteProofs ArgMax Quant QuantProofs DotProdProofs PoolKernels FullyConnProofs Eltwise.
Import ListNotations.
Open Scope Z_scope.

(** * Loops *)

(** A loop of stores whose values are computed from the memory, when no iteration reads what another one wrote. *)
Lemma foldM_inplace {A} (ad val : A -> Z) (reads : A -> Z -> Prop) (f : A -> mem -> option mem) (l : list A) (m : mem) :
  NoDup l ->
  (forall i m', In i l -> (forall a, reads i a -> m' a = m a) -> f i m' = store m' (ad i) (val i)) ->
  (forall i, In i l -> allocated m (ad i)) ->
  (forall i j, In i l -> In j l -> ad i = ad j -> i = j) ->
  (forall i j, In i l -> In j l -> i <> j -> ~ reads i (ad j)) ->
  exists m', foldM f l m = Some m'
    /\ (forall i, In i l -> m' (ad i) = Some (val i))
    /\ (forall a, (forall i, In i l -> ad i <> a) -> m' a = m a).
Proof.
  intros ND Hf Ha Hi Hr.
  assert (G : forall l2 l1 m1, l = l1 ++ l2 ->
    (forall a, (forall i, In i l1 -> ad i <> a) -> m1 a = m a) -> (forall i, In i l1 -> m1 (ad i) = Some (val i)) ->
    exists m', foldM f l2 m1 = Some m'
      /\ (forall i, In i l -> m' (ad i) = Some (val i)) /\ (forall a, (forall i, In i l -> ad i <> a) -> m' a = m a)).
  { induction l2 as [|x l2 IH]; intros l1 m1 El H1 H2.
    - rewrite app_nil_r in El. subst l1. exists m1. auto.
    - assert (Hx : In x l) by (rewrite El; apply in_or_app; right; now left).
      assert (Hsub : forall i, In i l1 -> In i l) by (intros; rewrite El; apply in_or_app; now left).
      assert (Hnx : forall i, In i l1 -> i <> x).
      { intros i Hi1 ->. rewrite El in ND. apply NoDup_remove_2 in ND. apply ND. apply in_or_app. now left. }
      cbn [foldM]. rewrite Hf; [|exact Hx|].
      2:{ intros a Hra. apply H1. intros i Hi1 <-. exact (Hr x i Hx (Hsub i Hi1) (not_eq_sym (Hnx i Hi1)) Hra). }
      rewrite store_ok.
      2:{ unfold allocated. rewrite H1; [now apply Ha|]. intros i Hi1 E. apply (Hnx i Hi1). apply Hi; auto. }
      apply (IH (l1 ++ [x])).
      + rewrite <- app_assoc. exact El.
      + intros a Hna. destruct (Z.eqb_spec a (ad x)) as [->|_].
        * exfalso. apply (Hna x); [apply in_or_app; right; now left|reflexivity].
        * apply H1. intros i Hi1. apply Hna. apply in_or_app. now left.
      + intros i Hi1. apply in_app_or in Hi1. destruct Hi1 as [Hi1|[<-|[]]]; [|now rewrite Z.eqb_refl].
        destruct (Z.eqb_spec (ad i) (ad x)) as [E|_]; [|auto]. exfalso. apply (Hnx i Hi1). apply Hi; auto. }
  apply (G l [] m); auto. intros ? [].
Qed.

(** Loops over lists of address triples. *)
Lemma foldM_triple {A B S} (g : Z -> Z -> Z -> S -> option S) (a1 a2 a3 : A -> Z) (b1 b2 b3 : B -> Z) l : forall l' s,
  map a1 l = map b1 l' -> map a2 l = map b2 l' -> map a3 l = map b3 l' ->
  foldM (fun c => g (a1 c) (a2 c) (a3 c)) l s = foldM (fun c => g (b1 c) (b2 c) (b3 c)) l' s.
Proof.
  induction l as [|x l IH]; intros [|y l'] s E1 E2 E3; try discriminate; [reflexivity|].
  cbn [map] in *. injection E1 as E1 F1. injection E2 as E2 F2. injection E3 as E3 F3.
  cbn [foldM]. rewrite E1, E2, E3. destruct (g (b1 y) (b2 y) (b3 y) s); [|reflexivity]. now apply IH.
Qed.

Lemma foldM_flat_map {A B S} (f : B -> S -> option S) (g : A -> list B) l : forall s,
  foldM f (flat_map g l) s = foldM (fun x s => foldM f (g x) s) l s.
Proof.
  induction l as [|x l IH]; intros s; [reflexivity|]. cbn [flat_map foldM]. rewrite foldM_app.
  destruct (foldM f (g x) s); cbn [bind]; auto.
Qed.

Lemma coords_snoc sh d : coords (sh ++ [d]) = flat_map (fun c => map (fun i => c ++ [i]) (zrange 0 d)) (coords sh).
Proof.
  induction sh as [|e sh IH]; cbn [app coords].
  - cbn [flat_map]. rewrite app_nil_r. induction (zrange 0 d) as [|z l IHl]; [reflexivity|]. cbn [flat_map map app] in *. now f_equal.
  - rewrite IH. induction (zrange 0 e); cbn [flat_map]; [reflexivity|]. rewrite flat_map_app, <- IHl. f_equal.
    clear. induction (coords sh); cbn [flat_map map]; [reflexivity|]. rewrite map_app, IHl. f_equal. rewrite !map_map. reflexivity.
Qed.

(** One element. *)
Definition elt_body (f : Z -> Z -> Z) (sc1 sc2 : bool) (s1 s2 a1 a2 ao : Z) (m : mem) : option mem :=
  do a <- operand m sc1 s1 a1;
  do b <- operand m sc2 s2 a2;
  store m ao (f a b).

Lemma elt_inner_map f sc1 sc2 s1 s2 i1 i2 io count m :
  elt_inner f sc1 sc2 s1 s2 i1 i2 io count m = foldM (fun k => elt_body f sc1 sc2 s1 s2 (i1 + k) (i2 + k) (io + k)) (zrange 0 count) m.
Proof. reflexivity. Qed.

Lemma elt_nest_map f sc1 sc2 s1 s2 p1 p2 po ds k1 k2 ko m : length ds = 4%nat ->
  nth k1 (snd (last ds (0, []))) 0 = 1 -> nth k2 (snd (last ds (0, []))) 0 = 1 -> nth ko (snd (last ds (0, []))) 0 = 1 ->
  elt_nest f sc1 sc2 s1 s2 p1 p2 po ds k1 k2 ko m
  = foldM (fun c => elt_body f sc1 sc2 s1 s2 (p1 + addr (d_stride k1 ds) c) (p2 + addr (d_stride k2 ds) c) (po + addr (d_stride ko ds) c)) (coords (d_shape ds)) m.
Proof.
  destruct ds as [|d0 [|d1 [|d2 [|d3 [|]]]]]; try discriminate. intros _ E1 E2 E3. cbn [last] in *.
  unfold elt_nest.
  change (d_shape [d0; d1; d2; d3]) with (d_shape [d0; d1; d2] ++ [fst d3]). rewrite coords_snoc, foldM_flat_map.
  apply foldM_ext. intros c s Hc. apply in_coords in Hc. rewrite elt_inner_map, foldM_map. apply foldM_ext. intros i s' _.
  assert (L : forall k, length (d_stride k [d0; d1; d2]) = length c).
  { intros. symmetry. apply (valid_length _ _ Hc). }
  assert (A : forall k, nth k (snd d3) 0 = 1 -> addr (d_stride k [d0; d1; d2; d3]) (c ++ [i]) = addr (d_stride k [d0; d1; d2]) c + i).
  { intros k Ek. change (d_stride k [d0; d1; d2; d3]) with (d_stride k [d0; d1; d2] ++ [nth k (snd d3) 0]).
    rewrite addr_app by apply L. cbn [addr]. rewrite Ek. lia. }
  rewrite !A by assumption. rewrite !Z.add_assoc. reflexivity.
Qed.

(** The innermost stride stays 1. *)
Lemma squash_rev_hd k outer : forall d ss, nth k ss 0 = 1 -> Forall (fun e => length (snd e) = length ss) outer -> (k < length ss)%nat ->
  nth k (snd (hd (0, []) (squash_rev (d, ss) outer))) 0 = 1.
Proof.
  induction outer as [|[e ts] outer IH]; intros d ss E F Hk; cbn [squash_rev]; [exact E|].
  inversion F as [|? ? L F']; subst. cbn [snd fst] in *. destruct (forallb _ ts); [|exact E].
  apply IH; rewrite ?map_length; [|eapply Forall_impl; [|exact F']; cbn; intros; lia|lia].
  rewrite (nth_indep _ 0 1) by (rewrite map_length; lia). apply (map_nth (fun _ => 1) ts 1 k).
Qed.

Lemma squash_generic_last nt k l inner : (k < nt)%nat -> well_formed nt (l ++ [inner]) -> nth k (snd inner) 0 = 1 ->
  nth k (snd (last (squash_generic nt (l ++ [inner])) (0, []))) 0 = 1.
Proof.
  intros Hk W E. unfold squash_generic. rewrite rev_unit. apply Forall_app in W. destruct W as [W1 W2].
  inversion W2 as [|? ? [_ L] _]; subst. destruct inner as [d ss]. cbn [snd] in *.
  pose proof (squash_rev_hd k (rev l) d ss E) as H.
  destruct (squash_rev (d, ss) (rev l)) as [|x r] eqn:Er.
  - exfalso. destruct (rev l) as [|[? ts] ?]; cbn [squash_rev] in Er; [discriminate|].
    destruct (forallb _ ts); [|discriminate]. clear - Er. revert Er. generalize (map (fun _ : Z => 1) ts). generalize (z * fst (d, ss)).
    induction l0 as [|[? ts'] o IH]; intros a b; cbn [squash_rev]; [discriminate|]. destruct (forallb _ ts'); [apply IH|discriminate].
  - cbn [rev]. rewrite app_assoc, last_last. apply H; [|exact Hk].
    apply Forall_rev. eapply Forall_impl; [|exact W1]. cbn. tauto.
Qed.

Lemma dims_shape sh sts : d_shape (dims_of sh sts) = sh.
Proof.
  unfold d_shape, dims_of. generalize 0%nat. induction sh as [|d sh IH]; intros n; cbn [length seq map combine]; [reflexivity|]. cbn [map fst]. now rewrite IH.
Qed.

Lemma nth_skipn_hd n : forall l, nth n l 0 = hd 0 (skipn n l).
Proof. induction n; intros [|x l]; cbn [nth skipn hd]; auto. Qed.

Lemma skipn_S_tl n : forall l : list Z, skipn (S n) l = tl (skipn n l).
Proof. induction n; intros [|x l]; try reflexivity. cbn [skipn tl]. apply (IHn l). Qed.

Lemma dims_stride sh sts k : (k < length sts)%nat -> length (nth k sts []) = length sh -> d_stride k (dims_of sh sts) = nth k sts [].
Proof.
  intros Hk L. unfold d_stride, dims_of.
  assert (G : forall n st, skipn n (nth k sts []) = st -> length st = length sh ->
    map (fun d => nth k (snd d) 0) (combine sh (map (fun j => map (fun s => nth j s 0) sts) (seq n (length sh)))) = st).
  { clear L. induction sh as [|d sh IH]; intros n st E L; cbn [length] in *.
    - destruct st; [reflexivity|discriminate].
    - destruct st as [|x st]; [discriminate|]. cbn [seq map combine]. cbn [snd]. f_equal.
      + rewrite (nth_indep _ 0 (nth n [] 0)) by (rewrite map_length; lia).
        rewrite (map_nth (fun s => nth n s 0)). now rewrite nth_skipn_hd, E.
      + apply IH; [|cbn in L; lia]. now rewrite skipn_S_tl, E. }
  apply (G 0%nat); [reflexivity|lia].
Qed.

Lemma dims_snoc sh sts : sh <> [] -> exists l inner, dims_of sh sts = l ++ [inner].
Proof.
  intros H. destruct (dims_of sh sts) as [|x l] eqn:E using rev_ind; [|eauto].
  exfalso. pose proof (dims_shape sh sts) as D. rewrite E in D. apply H. now rewrite <- D.
Qed.

Lemma dims_wf sh sts : Forall (fun d => 0 <= d) sh -> well_formed (length sts) (dims_of sh sts).
Proof.
  unfold well_formed, dims_of. generalize 0%nat. induction sh as [|d sh IH]; intros n F; cbn [length seq map combine]; constructor.
  - inversion F; subst. cbn [fst snd]. rewrite map_length. auto.
  - apply IH. now inversion F.
Qed.

(** Both code paths visit the elements in row-major order. *)
Lemma elt_run f sc1 sc2 s1 s2 p1 p2 po sh sts k1 k2 ko m :
  sh <> [] -> (length sh <= 4)%nat -> Forall (fun d => 0 <= d) sh ->
  Forall (fun st => length st = length sh /\ last st 0 = 1) sts ->
  (k1 < length sts)%nat -> (k2 < length sts)%nat -> (ko < length sts)%nat ->
  let flat := squash_to_one_dim (dims_of sh sts) in
  (if negb (flat =? 0) then elt_inner f sc1 sc2 s1 s2 p1 p2 po flat m
   else elt_nest f sc1 sc2 s1 s2 p1 p2 po (squash_generic (length sts) (dims_of sh sts)) k1 k2 ko m)
  = foldM (fun c => elt_body f sc1 sc2 s1 s2 (p1 + addr (nth k1 sts []) c) (p2 + addr (nth k2 sts []) c) (po + addr (nth ko sts []) c)) (coords sh) m.
Proof.
  intros Hn Hr Hp Hst H1 H2 H3 flat. rewrite Forall_forall in Hst.
  assert (HL : forall k, (k < length sts)%nat -> d_stride k (dims_of sh sts) = nth k sts [] /\ last (nth k sts []) 0 = 1).
  { intros k Hk. destruct (Hst (nth k sts [])) as [L E]; [now apply nth_In|]. split; [now apply dims_stride|exact E]. }
  pose proof (dims_wf sh sts Hp) as W. destruct (dims_snoc sh sts Hn) as (l & inner & El).
  assert (Hin : forall k, (k < length sts)%nat -> nth k (snd inner) 0 = 1).
  { intros k Hk. destruct (HL k Hk) as [E1 E2]. rewrite <- E1, El in E2. unfold d_stride in E2. rewrite map_app in E2. cbn [map] in E2.
    now rewrite last_last in E2. }
  assert (Hll : (length l < 4)%nat).
  { pose proof (f_equal (@length Z) (dims_shape sh sts)) as E. unfold d_shape in E. rewrite map_length, El, app_length in E. cbn in E. lia. }
  destruct (Z.eqb_spec flat 0) as [E0|E0]; cbn [negb].
  - rewrite elt_nest_map.
    + apply (foldM_triple (fun a b c => elt_body f sc1 sc2 s1 s2 (p1 + a) (p2 + b) (po + c))).
      * destruct (squash_generic_correct (length sts) k1 l inner H1 ltac:(now rewrite <- El) Hll (Hin k1 H1)) as [V _].
        rewrite <- El in V. unfold visited in V. rewrite V, dims_shape. now rewrite (proj1 (HL k1 H1)).
      * destruct (squash_generic_correct (length sts) k2 l inner H2 ltac:(now rewrite <- El) Hll (Hin k2 H2)) as [V _].
        rewrite <- El in V. unfold visited in V. rewrite V, dims_shape. now rewrite (proj1 (HL k2 H2)).
      * destruct (squash_generic_correct (length sts) ko l inner H3 ltac:(now rewrite <- El) Hll (Hin ko H3)) as [V _].
        rewrite <- El in V. unfold visited in V. rewrite V, dims_shape. now rewrite (proj1 (HL ko H3)).
    + destruct (squash_generic_correct (length sts) k1 l inner H1 ltac:(now rewrite <- El) Hll (Hin k1 H1)) as [_ V]. now rewrite <- El in V.
    + rewrite El in *. now apply squash_generic_last; [| |apply Hin].
    + rewrite El in *. now apply squash_generic_last; [| |apply Hin].
    + rewrite El in *. now apply squash_generic_last; [| |apply Hin].
  - rewrite elt_inner_map. symmetry.
    assert (V : forall k, (k < length sts)%nat -> map (addr (nth k sts [])) (coords sh) = map (fun i => i) (zrange 0 flat)).
    { intros k Hk. rewrite map_id. pose proof (squash_to_one_dim_correct (length sts) k l inner Hk ltac:(now rewrite <- El) (Hin k Hk)) as V.
      rewrite <- El in V. specialize (V E0). unfold visited in V. rewrite dims_shape in V. now rewrite (proj1 (HL k Hk)) in V. }
    apply (foldM_triple (fun a b c => elt_body f sc1 sc2 s1 s2 (p1 + a) (p2 + b) (po + c))); now apply V.
Qed.

(** * The kernel, for any element function *)

(** The value of an operand at coordinate [c]: the immediate value of a rank 0 tensor, the only element of a one-element
    tensor, otherwise the element at [c]. *)
Definition elt_arg (m : mem) (t : tensor) (imm : Z) (c : list Z) : Z :=
  if t_rank t =? 0 then imm
  else if prod (t_shape t) =? 1 then rd m (t_data t)
  else rd m (t_data t + addr (t_stride t) c).

(** A valid input: a rank 0 tensor, or one in memory. *)
Definition operand_ok (t : tensor) (m : mem) : Prop := t_rank t = 0 \/ (fits32 t /\ backed t m).

(** No output element overwrites an input element of another coordinate. Scalars are read before the loop. *)
Definition no_hazard (t tout : tensor) : Prop :=
  prod (t_shape t) = 1 \/ forall c c', valid (t_shape tout) c -> valid (t_shape tout) c' -> c <> c' ->
    t_data t + addr (t_stride t) c <> t_data tout + addr (t_stride tout) c'.

Lemma rank0_shape t : t_rank t = 0 -> t_shape t = [].
Proof. unfold t_rank. destruct (t_shape t); [auto|cbn [length]; lia]. Qed.

Lemma same_shape_eq t1 t2 : same_shape t1 t2 = true -> t_shape t1 = t_shape t2.
Proof.
  unfold same_shape, t_rank. intros H. apply andb_true_iff in H. destruct H as [H1 H2]. apply Z.eqb_eq in H1.
  assert (L : length (t_shape t1) = length (t_shape t2)) by lia. clear H1. revert L H2. generalize (t_shape t2).
  induction (t_shape t1) as [|d l IH]; intros [|e l2]; cbn [length combine forallb fst snd]; try lia; auto.
  intros L H. apply andb_true_iff in H. destruct H as [H1 H2]. f_equal; [lia|]. apply IH; auto.
Qed.

Lemma prod1_coords sh c st : Forall (fun d => 0 < d) sh -> prod sh = 1 -> valid sh c -> addr st c = 0.
Proof.
  intros P. revert c st. induction P as [|d sh Hd P IH]; intros c st E V.
  - destruct c; [|contradiction]. now destruct st.
  - destruct c as [|i c]; [contradiction|]. destruct V as [Hi V]. unfold prod in E. cbn [fold_right] in E. fold (prod sh) in E.
    assert (0 < prod sh) by (clear - P; induction P; unfold prod in *; cbn [fold_right]; nia).
    assert (d = 1 /\ prod sh = 1) as [-> E'] by nia. destruct st as [|s st]; [reflexivity|]. cbn [addr].
    rewrite (IH c st E' V). assert (i = 0) as -> by lia. ring.
Qed.

Record elt_facts (t1 t2 tout : tensor) (m : mem) : Prop := mkEltFacts {
  ef_out : chk_tensor tout = ST_OK;
  ef_in1 : t_rank t1 = 0 \/ (t_rank t1 <> 0 /\ chk_tensor t1 = ST_OK /\ fits32 t1 /\ backed t1 m);
  ef_in2 : t_rank t2 = 0 \/ (t_rank t2 <> 0 /\ chk_tensor t2 = ST_OK /\ fits32 t2 /\ backed t2 m);
  ef_one1 : one_elem t1 = (prod (t_shape t1) =? 1);
  ef_one2 : one_elem t2 = (prod (t_shape t2) =? 1);
  ef_last : last (t_stride tout) 0 = 1 /\ t_shape tout <> [];
  ef_sh1 : prod (t_shape t1) <> 1 -> t_shape t1 = t_shape tout /\ last (t_stride t1) 0 = 1;
  ef_sh2 : prod (t_shape t2) <> 1 -> t_shape t2 = t_shape tout /\ last (t_stride t2) 0 = 1;
  ef_both : prod (t_shape t1) = 1 -> prod (t_shape t2) = 1 -> prod (t_shape tout) = 1 }.

Lemma one_elem_prod t m : operand_ok t m -> (t_rank t = 0 \/ chk_tensor t = ST_OK) -> one_elem t = (prod (t_shape t) =? 1).
Proof.
  intros [R|[F _]] C.
  - unfold one_elem. rewrite (rank0_shape t R). reflexivity.
  - destruct C as [R|C]; [unfold one_elem; now rewrite (rank0_shape t R)|]. unfold one_elem.
    now rewrite (proj1 (tensor_count t F C)).
Qed.

Lemma is_scalar_one t : is_scalar t = one_elem t.
Proof.
  unfold is_scalar. destruct (Z.eqb_spec (t_rank t) 0) as [R|R]; [|reflexivity]. unfold one_elem. now rewrite (rank0_shape t R).
Qed.

Lemma chk_operand t : (if is_scalar t then chk_scalar t else chk_tensor t) = ST_OK -> t_rank t = 0 \/ (t_rank t <> 0 /\ chk_tensor t = ST_OK).
Proof.
  intros H. destruct (Z.eq_dec (t_rank t) 0) as [|R]; [auto|]. right. split; [exact R|].
  destruct (is_scalar t); [|exact H]. unfold chk_scalar in H. destruct (Z.eqb_spec (t_rank t) 0); [contradiction|].
  destruct (chk_tensor t); try discriminate. reflexivity.
Qed.

Lemma inner_one_last t : t_rank t <> 0 -> inner_stride_is_one t = true -> last (t_stride t) 0 = 1.
Proof.
  unfold inner_stride_is_one, t_rank. intros R. destruct (Nat.eqb_spec (length (t_shape t)) 0); [lia|].
  destruct (negb _); [discriminate|]. intros H. now apply Z.eqb_eq in H.
Qed.

Lemma elt_facts_ok t1 t2 tout m : chk_eltwise t1 t2 tout = ST_OK -> operand_ok t1 m -> operand_ok t2 m -> t_rank tout <> 0 ->
  elt_facts t1 t2 tout m.
Proof.
  intros H O1 O2 RO. unfold chk_eltwise in H.
  destruct (if is_scalar t1 then chk_scalar t1 else chk_tensor t1) eqn:C1; try discriminate. apply chk_operand in C1.
  destruct (if is_scalar t2 then chk_scalar t2 else chk_tensor t2) eqn:C2; try discriminate. apply chk_operand in C2.
  destruct (chk_tensor tout) eqn:CO; try discriminate.
  destruct ((t_rank t1 =? 0) && (t_rank t2 =? 0)) eqn:R0; [discriminate|].
  destruct (negb ((is_scalar t1 || inner_stride_is_one t1) && _ && _)) eqn:HS; [discriminate|].
  destruct (negb (((is_scalar t1 || is_scalar t2) || same_shape t1 t2) && _)) eqn:HM; [discriminate|]. clear H.
  apply negb_false_iff in HS, HM. rewrite !andb_true_iff, !orb_true_iff in HS. destruct HS as [[S1 S2] S3].
  apply andb_true_iff in HM. destruct HM as [M1 M2]. rewrite !is_scalar_one in *.
  assert (E1 : one_elem t1 = (prod (t_shape t1) =? 1)) by (apply one_elem_prod with m; tauto).
  assert (E2 : one_elem t2 = (prod (t_shape t2) =? 1)) by (apply one_elem_prod with m; tauto).
  rewrite E1, E2 in *.
  assert (A1 : prod (t_shape t1) <> 1 -> t_shape t1 = t_shape tout).
  { intros N. destruct (Z.eqb_spec (prod (t_shape t1)) 1); [contradiction|]. now apply same_shape_eq. }
  assert (A2 : prod (t_shape t2) <> 1 -> t_shape t2 = t_shape tout).
  { intros N. destruct (Z.eqb_spec (prod (t_shape t2)) 1); [contradiction|]. destruct (Z.eqb_spec (prod (t_shape t1)) 1).
    - now apply same_shape_eq.
    - rewrite <- A1 by assumption. symmetry. now apply same_shape_eq. }
  assert (RN : forall t, prod (t_shape t) <> 1 -> t_rank t <> 0).
  { intros t N R. apply N. now rewrite (rank0_shape t R). }
  assert (NE : t_shape tout <> []) by (unfold t_rank in RO; destruct (t_shape tout); [cbn in RO; lia|discriminate]).
  constructor; auto.
  - destruct C1 as [|[R C]]; [auto|]. destruct O1 as [|[F B]]; auto.
  - destruct C2 as [|[R C]]; [auto|]. destruct O2 as [|[F B]]; auto.
  - split; [|exact NE]. apply inner_one_last; [|exact S3]. unfold t_rank. destruct (t_shape tout); [congruence|cbn [length]; lia].
  - intros N. split; [auto|]. destruct S1 as [S1|S1]; [apply Z.eqb_eq in S1; contradiction|]. apply inner_one_last; auto.
  - intros N. split; [auto|]. destruct S2 as [S2|S2]; [apply Z.eqb_eq in S2; contradiction|]. apply inner_one_last; auto.
  - intros P1 P2. rewrite P1 in M2. cbn [negb Z.eqb] in M2. apply same_shape_eq in M2. now rewrite <- M2.
Qed.

Lemma load_eq m m' a : allocated m a -> m' a = m a -> load m' a = Some (rd m a).
Proof. intros A E. unfold load. rewrite E. now apply rd_load. Qed.

Lemma last_pos_shape (sh : list Z) (P : Forall (fun d => 0 < d) sh) : Forall (fun d => 0 <= d) sh.
Proof. eapply Forall_impl; [|exact P]. cbn. lia. Qed.

Lemma data_val_arg t m imm c : (t_rank t = 0 \/ (t_rank t <> 0 /\ chk_tensor t = ST_OK /\ fits32 t /\ backed t m)) ->
  exists v, data_val m t imm = Some v /\ (prod (t_shape t) = 1 -> elt_arg m t imm c = v).
Proof.
  intros [R|(R & C & F & B)]; unfold data_val, elt_arg.
  - rewrite R. cbn [Z.eqb]. eauto.
  - destruct (Z.eqb_spec (t_rank t) 0); [contradiction|]. pose proof F as (L & _).
    destruct (chk_tensor_pos t C L) as (_ & P & _).
    assert (Hz : valid (t_shape t) (map (fun _ => 0) (t_shape t))).
    { clear - P. induction P; cbn [map valid]; auto. split; [lia|exact IHP]. }
    assert (A : allocated m (t_data t)).
    { pose proof (chk_backed t m F C B _ Hz) as A. replace (t_data t) with (t_data t + addr (t_stride t) (map (fun _ => 0) (t_shape t))); [exact A|].
      assert (Z0 : forall (l l' : list Z), addr l (map (fun _ => 0) l') = 0) by (induction l; intros [|? l']; cbn [addr map]; rewrite ?IHl; lia).
      rewrite Z0. lia. }
    exists (rd m (t_data t)). split; [now apply rd_load|]. intros ->. reflexivity.
Qed.

(** For accepted tensors every output element gets the function of the operands at its coordinate, and nothing
    else changes. *)
Lemma eltwise_loop f t1 t2 tout imm1 imm2 m :
  chk_eltwise t1 t2 tout = ST_OK -> operand_ok t1 m -> operand_ok t2 m -> t_rank tout <> 0 -> fits32 tout -> backed tout m ->
  no_hazard t1 tout -> no_hazard t2 tout ->
  exists m', eltwise f t1 t2 tout imm1 imm2 m = Some m'
    /\ (forall c, valid (t_shape tout) c ->
         m' (t_data tout + addr (t_stride tout) c) = Some (f (elt_arg m t1 imm1 c) (elt_arg m t2 imm2 c)))
    /\ frame_ok tout m m'.
Proof.
  intros Hc O1 O2 RO FO BO N1 N2. destruct (elt_facts_ok t1 t2 tout m Hc O1 O2 RO) as [CO I1 I2 E1 E2 [LO NE] S1 S2 SB].
  pose proof FO as (L & _). destruct (chk_tensor_pos tout CO L) as (R4 & P & _).
  destruct (chk_tensor_nested tout FO CO) as (Nst & _).
  unfold eltwise. destruct (data_val_arg t1 m imm1 [] I1) as (s1 & D1 & _), (data_val_arg t2 m imm2 [] I2) as (s2 & D2 & _).
  rewrite D1, D2. cbn [bind]. rewrite E1, E2.
  assert (V1 : forall c, prod (t_shape t1) = 1 -> elt_arg m t1 imm1 c = s1).
  { intros c Hp. destruct (data_val_arg t1 m imm1 c I1) as (v & Ev & H). rewrite D1 in Ev. injection Ev as <-. auto. }
  assert (V2 : forall c, prod (t_shape t2) = 1 -> elt_arg m t2 imm2 c = s2).
  { intros c Hp. destruct (data_val_arg t2 m imm2 c I2) as (v & Ev & H). rewrite D2 in Ev. injection Ev as <-. auto. }
  (* the loop over the coordinates of the output *)
  assert (G : exists m', foldM (fun c => elt_body f (prod (t_shape t1) =? 1) (prod (t_shape t2) =? 1) s1 s2
        (t_data t1 + addr (t_stride t1) c) (t_data t2 + addr (t_stride t2) c) (t_data tout + addr (t_stride tout) c)) (coords (t_shape tout)) m = Some m'
    /\ (forall c, valid (t_shape tout) c ->
         m' (t_data tout + addr (t_stride tout) c) = Some (f (elt_arg m t1 imm1 c) (elt_arg m t2 imm2 c)))
    /\ frame_ok tout m m').
  { destruct (foldM_inplace (fun c => t_data tout + addr (t_stride tout) c) (fun c => f (elt_arg m t1 imm1 c) (elt_arg m t2 imm2 c))
      (fun c a => (prod (t_shape t1) <> 1 /\ a = t_data t1 + addr (t_stride t1) c) \/ (prod (t_shape t2) <> 1 /\ a = t_data t2 + addr (t_stride t2) c))
      (fun c => elt_body f (prod (t_shape t1) =? 1) (prod (t_shape t2) =? 1) s1 s2
        (t_data t1 + addr (t_stride t1) c) (t_data t2 + addr (t_stride t2) c) (t_data tout + addr (t_stride tout) c)) (coords (t_shape tout)) m)
      as (m' & Em & H1 & H2).
    - apply coords_NoDup.
    - intros c m' Hin Hr. apply in_coords in Hin. unfold elt_body, operand.
      assert (A1 : (if prod (t_shape t1) =? 1 then Some s1 else load m' (t_data t1 + addr (t_stride t1) c)) = Some (elt_arg m t1 imm1 c)).
      { destruct (Z.eqb_spec (prod (t_shape t1)) 1) as [e|e]; [now rewrite V1|].
        destruct (S1 e) as [Es _]. destruct I1 as [R|(R & C & F & B)]; [exfalso; apply e; now rewrite (rank0_shape t1 R)|].
        rewrite (load_eq m). 2:{ apply chk_backed; auto. now rewrite Es. } 2:{ apply Hr. left. auto. }
        unfold elt_arg. destruct (Z.eqb_spec (t_rank t1) 0); [contradiction|]. destruct (Z.eqb_spec (prod (t_shape t1)) 1); [contradiction|reflexivity]. }
      assert (A2 : (if prod (t_shape t2) =? 1 then Some s2 else load m' (t_data t2 + addr (t_stride t2) c)) = Some (elt_arg m t2 imm2 c)).
      { destruct (Z.eqb_spec (prod (t_shape t2)) 1) as [e|e]; [now rewrite V2|].
        destruct (S2 e) as [Es _]. destruct I2 as [R|(R & C & F & B)]; [exfalso; apply e; now rewrite (rank0_shape t2 R)|].
        rewrite (load_eq m). 2:{ apply chk_backed; auto. now rewrite Es. } 2:{ apply Hr. right. auto. }
        unfold elt_arg. destruct (Z.eqb_spec (t_rank t2) 0); [contradiction|]. destruct (Z.eqb_spec (prod (t_shape t2)) 1); [contradiction|reflexivity]. }
      rewrite A1, A2. reflexivity.
    - intros c Hin. apply in_coords in Hin. now apply chk_backed.
    - intros c c' Hin Hin' E. apply in_coords in Hin, Hin'. apply (nested_inj (t_shape tout) (t_stride tout)); auto. lia.
    - intros c c' Hin Hin' Hne. apply in_coords in Hin, Hin'. intros [[e Ea]|[e Ea]].
      + destruct N1 as [|N1]; [contradiction|]. exact (N1 c c' Hin Hin' Hne (eq_sym Ea)).
      + destruct N2 as [|N2]; [contradiction|]. exact (N2 c c' Hin Hin' Hne (eq_sym Ea)).
    - exists m'. split; [exact Em|]. split.
      + intros c V. apply H1. now apply in_coords.
      + intros a Ha. apply H2. intros c Hin E. apply in_coords in Hin. apply (Ha c Hin). lia. }
  destruct (Z.eqb_spec (prod (t_shape t1)) 1) as [e1|e1], (Z.eqb_spec (prod (t_shape t2)) 1) as [e2|e2]; cbn [andb orb].
  - cbn [negb Z.eqb]. destruct G as (m' & Em & G). exists m'. split; [|exact G]. rewrite <- Em, elt_inner_map.
    pose proof (SB e1 e2) as Ep. apply (foldM_triple (elt_body f true true s1 s2)).
    all: assert (Hl : coords (t_shape tout) = [map (fun _ => 0) (t_shape tout)]).
    1,3,5: (clear - Ep P; revert Ep; induction P as [|d sh Hd P IH]; intros Ep; [reflexivity|];
        unfold prod in Ep; cbn [fold_right] in Ep; fold (prod sh) in Ep;
        assert (0 < prod sh) by (clear - P; induction P; unfold prod in *; cbn [fold_right]; nia);
        assert (d = 1 /\ prod sh = 1) as [-> E'] by nia; cbn [coords map]; rewrite IH by exact E'; reflexivity).
    all: rewrite Hl; cbn [map zrange]; change (zrange 0 1) with [0]; cbn [map]; f_equal.
    all: rewrite (prod1_coords (t_shape tout) _ _ P Ep); [reflexivity|clear - P; induction P; cbn [map valid]; auto; split; [lia|exact IHP]].
  - destruct (S2 e2) as [Es2 L2]. rewrite Es2. destruct I2 as [R|(R & C & (LL & _) & B)]; [exfalso; apply e2; now rewrite (rank0_shape t2 R)|].
    destruct (negb (_ =? 0)) eqn:Hz.
    all: pose proof (elt_run f true false s1 s2 (t_data t1) (t_data t2) (t_data tout) (t_shape tout) [t_stride t2; t_stride tout] 0 0 1 m NE R4 (last_pos_shape _ P)) as Q;
      specialize (Q ltac:(repeat constructor; congruence)); cbn [length] in Q; specialize (Q ltac:(lia) ltac:(lia) ltac:(lia)); cbv zeta in Q; rewrite Hz in Q; cbn [length];
      rewrite Q; cbn [nth]; exact G.
  - destruct (S1 e1) as [Es1 L1]. rewrite Es1. destruct I1 as [R|(R & C & (LL & _) & B)]; [exfalso; apply e1; now rewrite (rank0_shape t1 R)|].
    destruct (negb (_ =? 0)) eqn:Hz.
    all: pose proof (elt_run f false true s1 s2 (t_data t1) (t_data t2) (t_data tout) (t_shape tout) [t_stride t1; t_stride tout] 0 0 1 m NE R4 (last_pos_shape _ P)) as Q;
      specialize (Q ltac:(repeat constructor; congruence)); cbn [length] in Q; specialize (Q ltac:(lia) ltac:(lia) ltac:(lia)); cbv zeta in Q; rewrite Hz in Q; cbn [length];
      rewrite Q; cbn [nth]; exact G.
  - destruct (S1 e1) as [Es1 L1], (S2 e2) as [Es2 L2]. rewrite Es1. destruct I1 as [R|(R & C & (LL & _) & B)]; [exfalso; apply e1; now rewrite (rank0_shape t1 R)|].
    destruct I2 as [R2|(R2 & C2 & (LL2 & _) & B2)]; [exfalso; apply e2; now rewrite (rank0_shape t2 R2)|].
    destruct (negb (_ =? 0)) eqn:Hz.
    all: pose proof (elt_run f false false s1 s2 (t_data t1) (t_data t2) (t_data tout) (t_shape tout) [t_stride t1; t_stride t2; t_stride tout] 0 1 2 m NE R4 (last_pos_shape _ P)) as Q;
      specialize (Q ltac:(repeat constructor; congruence)); cbn [length] in Q; specialize (Q ltac:(lia) ltac:(lia) ltac:(lia)); cbv zeta in Q; rewrite Hz in Q; cbn [length];
      rewrite Q; cbn [nth]; exact G.
Qed.

(** * C37: fixed-point values *)

(** The number v * 2^-F in the format with [fo] fractional bits: rounded to the nearest and saturated to [n] bits. *)
Definition to_format (rm : rmode) (n F fo v : Z) : Z := sat n (if fo <=? F then rnd rm v (F - fo) else v * 2 ^ (fo - F)).

(** The same, but in ROUND_UP mode the rounding may not carry out of the [n]-bit value that is shifted. *)
Definition to_format_top (rm : rmode) (n F fo v : Z) : Z :=
  match rm with
  | RM_UP => if fo <? F then Z.min (to_format rm n F fo v) (2 ^ (n - 1 - (F - fo)) - 1) else to_format rm n F fo v
  | RM_CONV => to_format rm n F fo v
  end.

(** The result of an operation on [a] with [f1] and [b] with [f2] fractional bits. *)
Definition elt_exact (rm : rmode) (op : elt_op) (n f1 f2 fo a b : Z) : Z :=
  let F := Z.max f1 f2 in
  match op with
  | ELT_ADD => to_format rm n F fo (a * 2 ^ (F - f1) + b * 2 ^ (F - f2))
  | ELT_SUB => to_format rm n F fo (a * 2 ^ (F - f1) - b * 2 ^ (F - f2))
  | ELT_MUL => to_format rm n (f1 + f2) fo (a * b)
  | ELT_MAX => to_format_top rm n f1 fo (Z.max a b)
  | ELT_MIN => to_format_top rm n f1 fo (Z.min a b)
  end.

(** Formats the kernels support: the shift that aligns the operands does not overflow 32 bits, and the final shift is at
    most the size of the product, respectively of the element. max and min need equal formats (checked). *)
Definition elt_formats (op : elt_op) (n f1 f2 fo : Z) : Prop :=
  match op with
  | ELT_ADD | ELT_SUB => Z.abs (f1 - f2) <= 31 - n /\ Z.max f1 f2 - fo <= 2 * n - 1
  | ELT_MUL => f1 + f2 - fo <= 2 * n - 1
  | ELT_MAX | ELT_MIN => same_format_fx f1 f2 = true /\ f1 - fo <= n - 1
  end.

Lemma cast64_to_format rm n F fo v : n = 8 \/ n = 16 -> in_bits 64 v -> F - fo <= 2 * n - 1 ->
  cast_narrow rm 64 n v (F - fo) = to_format rm n F fo v.
Proof.
  intros Hn Hv Hk. rewrite cast_narrow_exact; [|lia|lia|exact Hv|right; lia]. unfold to_format. f_equal.
  destruct (Z.leb_spec 0 (F - fo)), (Z.leb_spec fo F); try lia; try reflexivity. f_equal. f_equal. lia.
Qed.

Lemma align_spec rm n x d : n = 8 \/ n = 16 -> in_bits n x -> 0 <= d <= 31 - n ->
  asr_rnd_fx rm 32 x (- d) = x * 2 ^ d /\ Z.abs (x * 2 ^ d) <= 2 ^ 30.
Proof.
  intros Hn Hx Hd. assert (B : in_bits 32 x) by (destruct Hn as [-> | ->]; apply ib32; [rewrite ib8 in Hx|rewrite ib16 in Hx]; lia).
  assert (A : Z.abs (x * 2 ^ d) <= 2 ^ 30).
  { pose proof (pow2_le d (31 - n) ltac:(lia) ltac:(lia)). pose proof (pow2_gt0 d ltac:(lia)).
    rewrite Z.abs_mul, (Z.abs_eq (2 ^ d)) by lia.
    destruct Hn as [-> | ->]; [rewrite ib8 in Hx; change (2 ^ (31 - 8)) with 8388608 in *|rewrite ib16 in Hx; change (2 ^ (31 - 16)) with 32768 in *]; change (2 ^ 30) with 1073741824; nia. }
  split; [|exact A]. destruct (asr_rnd_fx_total rm 32 x (- d) ltac:(lia) B) as (_ & _ & E). rewrite E by lia.
  replace (- - d) with d by lia. apply sat_id. apply ib32. change (2 ^ 30) with 1073741824 in A. lia.
Qed.

Lemma same_to_format rm n F fo v : n = 8 \/ n = 16 -> in_bits n v -> F - fo <= n - 1 ->
  cast_same rm n v (Z.min (F - fo) (n - 1)) = to_format_top rm n F fo v.
Proof.
  intros Hn Hv Hk. replace (Z.min (F - fo) (n - 1)) with (F - fo) by lia. rewrite cast_same_spec by (auto; lia).
  assert (Hsafe : rnd_safe rm n v (F - fo) -> asr_rnd_fx rm n v (F - fo) = to_format rm n F fo v).
  { intros S. pose proof (asr_rnd_in_bits rm n v (F - fo) ltac:(lia) Hv) as IB. rewrite <- (sat_id n (asr_rnd_fx rm n v (F - fo))) by exact IB.
    rewrite asr_rnd_fx_spec by (auto; lia). unfold rshift_spec, to_format.
    destruct (Z.leb_spec 0 (F - fo)), (Z.leb_spec fo F); try lia; try reflexivity.
    replace (- (F - fo)) with (fo - F) by lia. apply sat_id. apply sat_in_bits; lia. }
  destruct rm; [|now apply Hsafe]. unfold to_format_top. destruct (Z.ltb_spec fo F) as [HF|HF].
  2:{ apply Hsafe. left. lia. }
  pose proof (pow2_gt0 (n - 1 - (F - fo)) ltac:(lia)) as Hp1.
  assert (Es : smax n = 2 ^ (n - 1 - (F - fo)) * 2 ^ (F - fo) - 1).
  { unfold smax. rewrite <- Z.pow_add_r by lia. f_equal. f_equal. lia. }
  pose proof (pow2_succ (F - fo) ltac:(lia)) as E2. pose proof (pow2_gt0 (F - fo - 1) ltac:(lia)) as Hp2.
  pose proof (rnd_nearest RM_UP v (F - fo) ltac:(lia)) as Nr. unfold nearest, nearest_up in Nr.
  assert (TF : to_format RM_UP n F fo v = rnd RM_UP v (F - fo)).
  { unfold to_format. destruct (Z.leb_spec fo F); [|lia]. apply sat_id.
    pose proof (rnd_bounds RM_UP n v (F - fo) ltac:(lia) Hv ltac:(lia)) as RB. unfold in_bits, smin, smax.
    destruct Hn as [-> | ->]; [change (2 ^ (8 - 1)) with 128 in *|change (2 ^ (16 - 1)) with 32768 in *]; lia. }
  destruct (Z_le_gt_dec (v + 2 ^ (F - fo - 1)) (smax n)) as [H|H].
  - rewrite Hsafe by (right; right; exact H). rewrite TF. symmetry. apply Z.min_l.
    set (r := rnd RM_UP v (F - fo)) in *. set (p := 2 ^ (F - fo)) in *. set (q := 2 ^ (n - 1 - (F - fo))) in *. set (h := 2 ^ (F - fo - 1)) in *.
    assert (r < q) by (clear - H Es E2 Nr Hp1 Hp2; nia). lia.
  - destruct (asr_rnd_up_over n v (F - fo) ltac:(lia) Hv ltac:(lia) ltac:(lia)) as [A B]. rewrite A, TF, B. lia.
Qed.

Lemma elt_fx_exact rm op n f1 f2 fo a b : n = 8 \/ n = 16 -> elt_formats op n f1 f2 fo -> in_bits n a -> in_bits n b ->
  elt_fx rm op n n (elt_params_fx op n f1 f2 fo) a b = elt_exact rm op n f1 f2 fo a b.
Proof.
  intros Hn Hf Ha Hb. unfold elt_fx, elt_exact.
  assert (Z0 : forall x, in_bits n x -> asr_rnd_fx rm 32 x 0 = x) by (intros; reflexivity).
  assert (BB : Z.abs a <= 2 ^ 15 /\ Z.abs b <= 2 ^ 15).
  { change (2 ^ 15) with 32768. destruct Hn as [-> | ->]; [rewrite ib8 in Ha, Hb|rewrite ib16 in Ha, Hb]; lia. }
  destruct op; cbn [elt_params_fx e_pre1 e_pre2 e_post elt_formats] in *.
  - destruct Hf as [Hd Hp]. set (F := Z.max f1 f2).
    replace (Z.min (f1 - f2) 0) with (- (F - f1)) by lia. replace (Z.min (f2 - f1) 0) with (- (F - f2)) by lia.
    destruct (align_spec rm n a (F - f1) Hn Ha ltac:(lia)) as [Ea Ba], (align_spec rm n b (F - f2) Hn Hb ltac:(lia)) as [Eb Bb].
    rewrite Ea, Eb. change (2 ^ 30) with 1073741824 in *. set (x := a * 2 ^ (F - f1)) in *. set (y := b * 2 ^ (F - f2)) in *.
    rewrite add_fx_spec by (try apply ib32; lia).
    assert (Hs : sat 32 (x + y) = x + y \/ (Z.abs (F - f1) = 0 /\ False)).
    { left. apply sat_id. apply ib32.
      assert (Z.abs x <= 2 ^ 15 \/ Z.abs y <= 2 ^ 15) as G.
      { destruct (Z_le_gt_dec f1 f2); [right; unfold y; replace (F - f2) with 0 by lia|left; unfold x; replace (F - f1) with 0 by lia]; change (2 ^ 0) with 1; lia. }
      change (2 ^ 15) with 32768 in G. lia. }
    destruct Hs as [-> | [_ []]]. replace (Z.min (F - fo) (2 * n - 1)) with (F - fo) by lia. apply cast64_to_format; [exact Hn| |exact Hp].
    apply ib64. lia.
  - destruct Hf as [Hd Hp]. set (F := Z.max f1 f2).
    replace (Z.min (f1 - f2) 0) with (- (F - f1)) by lia. replace (Z.min (f2 - f1) 0) with (- (F - f2)) by lia.
    destruct (align_spec rm n a (F - f1) Hn Ha ltac:(lia)) as [Ea Ba], (align_spec rm n b (F - f2) Hn Hb ltac:(lia)) as [Eb Bb].
    rewrite Ea, Eb. change (2 ^ 30) with 1073741824 in *. set (x := a * 2 ^ (F - f1)) in *. set (y := b * 2 ^ (F - f2)) in *.
    rewrite sub_fx_spec by (try apply ib32; lia).
    rewrite sat_id.
    2:{ apply ib32.
      assert (Z.abs x <= 2 ^ 15 \/ Z.abs y <= 2 ^ 15) as G.
      { destruct (Z_le_gt_dec f1 f2); [right; unfold y; replace (F - f2) with 0 by lia|left; unfold x; replace (F - f1) with 0 by lia]; change (2 ^ 0) with 1; lia. }
      change (2 ^ 15) with 32768 in G. lia. }
    replace (Z.min (F - fo) (2 * n - 1)) with (F - fo) by lia. apply cast64_to_format; [exact Hn| |exact Hp].
    apply ib64. lia.
  - rewrite !Z0 by assumption. replace (Z.min (f1 + f2 - fo) (2 * n - 1)) with (f1 + f2 - fo) by lia.
    apply cast64_to_format; [exact Hn| |exact Hf]. apply ib64. change (2 ^ 15) with 32768 in BB. nia.
  - destruct Hf as [_ Hp]. rewrite !Z0 by assumption. rewrite wrap_id; [|lia|destruct (Z.max_spec a b) as [[_ ->]|[_ ->]]; assumption].
    apply same_to_format; [exact Hn| |exact Hp]. destruct (Z.max_spec a b) as [[_ ->]|[_ ->]]; assumption.
  - destruct Hf as [_ Hp]. rewrite !Z0 by assumption. rewrite wrap_id; [|lia|destruct (Z.min_spec a b) as [[_ ->]|[_ ->]]; assumption].
    apply same_to_format; [exact Hn| |exact Hp]. destruct (Z.min_spec a b) as [[_ ->]|[_ ->]]; assumption.
Qed.

Lemma elt_arg_bits n m t imm c : 1 <= n -> mem_bits n m -> in_bits n imm -> in_bits n (elt_arg m t imm c).
Proof. intros Hn Hm Hi. unfold elt_arg. destruct (t_rank t =? 0); [exact Hi|]. destruct (_ =? 1); now apply rd_bits. Qed.

(** C37. Every output element of mli_krn_eltwise_{add,sub,mul,max,min}_{fx8,fx16} is the exact result of the operation on
    the operands at its coordinate, rounded to the output format and saturated, where a scalar operand is used
    for all coordinates; nothing else is written. *)
Theorem eltwise_fx_correct rm op n t1 t2 tout imm1 imm2 f1 f2 fo m :
  n = 8 \/ n = 16 -> chk_eltwise t1 t2 tout = ST_OK -> elt_formats op n f1 f2 fo ->
  operand_ok t1 m -> operand_ok t2 m -> t_rank tout <> 0 -> fits32 tout -> backed tout m ->
  no_hazard t1 tout -> no_hazard t2 tout ->
  mem_bits n m -> in_bits n imm1 -> in_bits n imm2 ->
  exists m', eltwise (elt_fx rm op n n (elt_params_fx op n f1 f2 fo)) t1 t2 tout imm1 imm2 m = Some m'
    /\ (forall c, valid (t_shape tout) c ->
         m' (t_data tout + addr (t_stride tout) c) = Some (elt_exact rm op n f1 f2 fo (elt_arg m t1 imm1 c) (elt_arg m t2 imm2 c)))
    /\ frame_ok tout m m'.
Proof.
  intros Hn Hc Hf O1 O2 RO FO BO N1 N2 MB B1 B2.
  destruct (eltwise_loop (elt_fx rm op n n (elt_params_fx op n f1 f2 fo)) t1 t2 tout imm1 imm2 m Hc O1 O2 RO FO BO N1 N2) as (m' & E & H1 & H2).
  exists m'. split; [exact E|]. split; [|exact H2]. intros c V. rewrite (H1 c V). f_equal.
  apply elt_fx_exact; [exact Hn|exact Hf| |]; (apply elt_arg_bits; [lia|assumption|assumption]).
Qed.

(** In-place use is covered: a tensor with the position and strides of the output is no hazard, nor is one whose
    elements lie outside of the output. *)
Theorem eltwise_inplace_ok t tout : chk_tensor tout = ST_OK -> fits32 tout ->
  t_data t = t_data tout -> t_stride t = t_stride tout -> no_hazard t tout.
Proof.
  intros C F Ed Es. right. intros c c' V V' Hne E. rewrite Ed, Es in E.
  destruct (chk_tensor_nested tout F C) as (N & _). apply Hne. apply (nested_inj (t_shape tout) (t_stride tout)); auto. lia.
Qed.

Lemma disjoint_ok t tout :
  (forall c c', valid (t_shape tout) c -> valid (t_shape tout) c' -> t_data t + addr (t_stride t) c <> t_data tout + addr (t_stride tout) c') -> no_hazard t tout.
Proof. intros H. right. auto. Qed.

(** The result is the nearest value of the output format when it is in range: stated on the numbers themselves. *)
Theorem elt_exact_nearest rm n F fo v : fo <= F -> in_bits n (rnd rm v (F - fo)) ->
  nearest rm v (F - fo) (to_format rm n F fo v).
Proof.
  intros H B. unfold to_format. destruct (Z.leb_spec fo F); [|lia]. rewrite sat_id by exact B. apply rnd_nearest. lia.
Qed.

(** Beyond the supported formats the results are wrong: aligning 32767 by 20 bits saturates at 32 bits although the sum
    fits the output format. *)
Theorem eltwise_align_refuted : exists rm a b f1 f2 fo, in_bits 16 a /\ in_bits 16 b /\ -128 <= f1 <= 127 /\ -128 <= f2 <= 127 /\ -128 <= fo <= 127
  /\ elt_exact rm ELT_ADD 16 f1 f2 fo a b = 32767 /\ elt_fx rm ELT_ADD 16 16 (elt_params_fx ELT_ADD 16 f1 f2 fo) a b = 2048.
Proof. exists RM_UP, 32767, 0, 0, 20, 0. repeat split; vm_compute; congruence. Qed.

(** A product that is shifted right by more than 2n-1 bits is only shifted by 2n-1: -32768 * -32768 * 2^-32 is 1/4. *)
Theorem eltwise_shift_refuted : exists rm a b f1 f2 fo, in_bits 16 a /\ in_bits 16 b /\ -128 <= f1 <= 127 /\ -128 <= f2 <= 127 /\ -128 <= fo <= 127
  /\ elt_exact rm ELT_MUL 16 f1 f2 fo a b = 0 /\ elt_fx rm ELT_MUL 16 16 (elt_params_fx ELT_MUL 16 f1 f2 fo) a b = 1.
Proof. exists RM_UP, (-32768), (-32768), 16, 16, 0. repeat split; vm_compute; congruence. Qed.

(** max(127, 127) * 2^-1 is 63.5, which rounds to 64 in all other kernels but gives 63 here. *)
Theorem eltwise_max_round_refuted : exists a b f1 fo, in_bits 8 a /\ in_bits 8 b
  /\ to_format RM_UP 8 f1 fo (Z.max a b) = 64 /\ elt_fx RM_UP ELT_MAX 8 8 (elt_params_fx ELT_MAX 8 f1 f1 fo) a b = 63.
Proof. exists 127, 127, 1, 0. repeat split; vm_compute; congruence. Qed.

(** Adding an immediate scalar to a one-element tensor of rank 1 is rejected for an output of rank 1 and accepted for one
    of rank 0, through whose data pointer the kernel then writes. *)
Theorem eltwise_scalar_output_refuted : exists t1 t2 tout tout0, t_rank t1 = 1 /\ t_rank t2 = 0 /\ t_shape tout = t_shape t1
  /\ t_rank tout0 = 0 /\ chk_eltwise t1 t2 tout = ST_SHAPE_MISMATCH /\ chk_eltwise t1 t2 tout0 = ST_OK.
Proof.
  exists (mkTensor 0 4 1 [1] [1] false (-1) 0), (mkTensor 0 4 1 [] [] false (-1) 0), (mkTensor 0 4 1 [1] [1] false (-1) 0), (mkTensor 0 4 1 [] [] false (-1) 0).
  repeat split.
Qed.

(** * MLI 3.0 operators *)

Definition int_op (op : elt_op) (a b : Z) : Z :=
  match op with ELT_ADD => a + b | ELT_SUB => a - b | ELT_MUL => a * b | ELT_MAX => Z.max a b | ELT_MIN => Z.min a b end.

(** Supported types: mul from 8 or 16 to 32 bits, the others with equal types of 8, 16 or 32 bits. *)
Definition int_types (op : elt_op) (n no : Z) : Prop :=
  match op with
  | ELT_MUL => (n = 8 \/ n = 16) /\ no = 32
  | _ => (n = 8 \/ n = 16 \/ n = 32) /\ no = n
  end.

Lemma sat_sat n m x : 1 <= n <= m -> sat n (sat m x) = sat n x.
Proof. intros [Hn Hm]. unfold sat, clamp, smin, smax. pose proof (pow2_le (n - 1) (m - 1) ltac:(lia) ltac:(lia)). pose proof (pow2_gt0 (n - 1) ltac:(lia)). lia. Qed.

Lemma elt_int_exact rm op n no a b : int_types op n no -> in_bits n a -> in_bits n b ->
  elt_int rm op n no a b = sat no (int_op op a b).
Proof.
  intros T Ha Hb. unfold elt_int, elt_fx, int_op.
  assert (Hn : 1 <= n <= 32) by (destruct op; cbn in T; lia).
  assert (A32 : in_bits 32 a /\ in_bits 32 b) by (split; apply (in_bits_mono n); auto; lia). destruct A32 as [A32 B32].
  assert (C64 : forall k v, 1 <= k <= 32 -> in_bits 32 v -> cast_narrow rm 64 k v 0 = sat k v).
  { intros k v Hk Hv. assert (in_bits 64 v) by (apply (in_bits_mono 32); auto; lia).
    rewrite cast_narrow_exact; [|lia|lia|auto|right; lia]. cbn [Z.leb Z.compare]. now rewrite rnd_0. }
  assert (S32 : forall v, in_bits 32 (sat 32 v)) by (intros; apply sat_in_bits; lia).
  destruct op; cbn [int_types elt_params_fx e_pre1 e_pre2 e_post] in *.
  - destruct T as [T ->]. replace (Z.min (0 - 0) 0) with 0 by lia. replace (Z.min (Z.max 0 0 - 0) (2 * n - 1)) with 0 by lia.
    change (asr_rnd_fx rm 32 a 0) with a. change (asr_rnd_fx rm 32 b 0) with b. rewrite add_fx_spec by (auto; lia).
    rewrite C64 by auto. apply sat_sat. lia.
  - destruct T as [T ->]. replace (Z.min (0 - 0) 0) with 0 by lia. replace (Z.min (Z.max 0 0 - 0) (2 * n - 1)) with 0 by lia.
    change (asr_rnd_fx rm 32 a 0) with a. change (asr_rnd_fx rm 32 b 0) with b. rewrite sub_fx_spec by (auto; lia).
    rewrite C64 by auto. apply sat_sat. lia.
  - destruct T as [T ->]. change (asr_rnd_fx rm 32 a 0) with a. change (asr_rnd_fx rm 32 b 0) with b.
    apply C64; [lia|]. apply ib32. assert (-32768 <= a <= 32767 /\ -32768 <= b <= 32767).
    { destruct T as [-> | ->]; [rewrite ib8 in Ha, Hb|rewrite ib16 in Ha, Hb]; lia. } nia.
  - destruct T as [T ->]. replace (Z.min (0 - 0) (n - 1)) with 0 by lia. change (asr_rnd_fx rm 32 a 0) with a. change (asr_rnd_fx rm 32 b 0) with b.
    assert (in_bits n (Z.max a b)) by (destruct (Z.max_spec a b) as [[_ ->]|[_ ->]]; assumption).
    rewrite (wrap_id n) by (auto; lia). rewrite cast_same_spec by (auto; lia). change (asr_rnd_fx rm n (Z.max a b) 0) with (Z.max a b). now rewrite sat_id.
  - destruct T as [T ->]. replace (Z.min (0 - 0) (n - 1)) with 0 by lia. change (asr_rnd_fx rm 32 a 0) with a. change (asr_rnd_fx rm 32 b 0) with b.
    assert (in_bits n (Z.min a b)) by (destruct (Z.min_spec a b) as [[_ ->]|[_ ->]]; assumption).
    rewrite (wrap_id n) by (auto; lia). rewrite cast_same_spec by (auto; lia). change (asr_rnd_fx rm n (Z.min a b) 0) with (Z.min a b). now rewrite sat_id.
Qed.

(** C59. The MLI 3.0 Add, Sub, Mul, Max and Min operators compute the saturated integer operation at every coordinate
    (the product of 8 or 16-bit elements never saturates) and write nothing else. *)
Theorem eltwise_int_correct rm op n no t1 t2 tout imm1 imm2 m :
  int_types op n no -> chk_eltwise t1 t2 tout = ST_OK ->
  operand_ok t1 m -> operand_ok t2 m -> t_rank tout <> 0 -> fits32 tout -> backed tout m ->
  no_hazard t1 tout -> no_hazard t2 tout ->
  (forall c, in_bits n (elt_arg m t1 imm1 c)) -> (forall c, in_bits n (elt_arg m t2 imm2 c)) ->
  exists m', eltwise (elt_int rm op n no) t1 t2 tout imm1 imm2 m = Some m'
    /\ (forall c, valid (t_shape tout) c ->
         m' (t_data tout + addr (t_stride tout) c) = Some (sat no (int_op op (elt_arg m t1 imm1 c) (elt_arg m t2 imm2 c))))
    /\ frame_ok tout m m'.
Proof.
  intros T Hc O1 O2 RO FO BO N1 N2 B1 B2.
  destruct (eltwise_loop (elt_int rm op n no) t1 t2 tout imm1 imm2 m Hc O1 O2 RO FO BO N1 N2) as (m' & E & H1 & H2).
  exists m'. split; [exact E|]. split; [|exact H2]. intros c V. rewrite (H1 c V). f_equal. now apply elt_int_exact.
Qed.

(** The product is exact. *)
Theorem eltwise_mul_exact n a b : n = 8 \/ n = 16 -> in_bits n a -> in_bits n b -> sat 32 (a * b) = a * b.
Proof.
  intros T Ha Hb. apply sat_id. apply ib32. assert (-32768 <= a <= 32767 /\ -32768 <= b <= 32767).
  { destruct T as [-> | ->]; [rewrite ib8 in Ha, Hb|rewrite ib16 in Ha, Hb]; lia. } nia.
Qed.

(** Shapes that the compile time class accepts as a broadcast of one dimension are not broadcast by the kernel: with a
    1x4 left and a 3x4 right operand only the first 4 of the 12 outputs are written. *)
Theorem eltwise_broadcast_refuted : exists t1 t2 tout m m' c,
  elt_cs_shapes (t_shape t1) (t_shape t2) (t_shape tout) = true
  /\ elt_cs_scalar (t_shape t1) = false /\ elt_cs_scalar (t_shape t2) = false
  /\ chk_tensor t1 = ST_OK /\ chk_tensor t2 = ST_OK /\ chk_tensor tout = ST_OK
  /\ eltwise (elt_int RM_UP ELT_ADD 8 8) t1 t2 tout 0 0 m = Some m'
  /\ valid (t_shape tout) c /\ rd m (t_data t1 + addr (t_stride t1) [0; 0]) = 1 /\ rd m (t_data t2 + addr (t_stride t2) c) = 1
  /\ m' (t_data tout + addr (t_stride tout) c) = Some 0.
Proof.
  exists (mkTensor 0 4 1 [1; 4] [4; 1] false (-1) 0), (mkTensor 4 12 1 [3; 4] [4; 1] false (-1) 0), (mkTensor 16 12 1 [3; 4] [4; 1] false (-1) 0),
    (list_mem (repeat 1 16 ++ repeat 0 12)). eexists. exists [1; 0]. repeat split; vm_compute; congruence.
Qed.

(** * Non-vacuity *)

(** A 2x3 view with row stride 4 plus a one-element tensor, in place. *)
Definition elt_ex_t : tensor := mkTensor 0 8 1 [2; 3] [4; 1] false (-1) 0.
Definition elt_ex_s : tensor := mkTensor 8 1 1 [1] [1] false (-1) 0.
Definition elt_ex_m : mem := list_mem [10; 20; 30; 99; -40; 50; 127; 98; 5].

Example elt_ex_hyps : chk_eltwise elt_ex_t elt_ex_s elt_ex_t = ST_OK /\ elt_formats ELT_ADD 8 4 6 5
  /\ operand_ok elt_ex_t elt_ex_m /\ operand_ok elt_ex_s elt_ex_m /\ t_rank elt_ex_t <> 0 /\ fits32 elt_ex_t /\ backed elt_ex_t elt_ex_m
  /\ no_hazard elt_ex_t elt_ex_t /\ no_hazard elt_ex_s elt_ex_t /\ mem_bits 8 elt_ex_m.
Proof.
  assert (F : fits32 elt_ex_t) by fits32_tac.
  assert (B : backed elt_ex_t elt_ex_m) by (apply list_backed; cbn; lia).
  split; [reflexivity|]. split; [vm_compute; split; discriminate|]. split; [right; auto|].
  split. { right. split; [fits32_tac|]. intros a H0 H1. cbn in *. assert (a = 0) as -> by lia. discriminate. }
  split; [discriminate|]. split; [exact F|]. split; [exact B|]. split; [apply eltwise_inplace_ok; auto|].
  split; [left; reflexivity|]. intros a v E. unfold elt_ex_m, list_mem in E. destruct (a <? 0); [discriminate|].
  apply nth_error_In in E. cbn in E. apply ib8. lia.
Qed.

(** x * 2^-4 + 5 * 2^-6 with 5 fractional bits: 2x + 2.5, rounded up, saturated. *)
Example elt_ex_run : option_map (mem_list 9) (eltwise (elt_fx RM_UP ELT_ADD 8 8 (elt_params_fx ELT_ADD 8 4 6 5)) elt_ex_t elt_ex_s elt_ex_t 0 0 elt_ex_m)
  = Some [Some 23; Some 43; Some 63; Some 99; Some (-77); Some 103; Some 127; Some 98; Some 5].
Proof. vm_compute. reflexivity. Qed.

Example elt_ex_int : int_types ELT_MUL 8 32
  /\ option_map (mem_list 12) (eltwise (elt_int RM_CONV ELT_MUL 8 32) (mkTensor 0 4 1 [2; 2] [2; 1] false (-1) 0) (mkTensor 4 4 1 [2; 2] [2; 1] false (-1) 0)
      (mkTensor 8 4 1 [2; 2] [2; 1] false (-1) 0) 0 0 (list_mem [-128; 2; 3; 4; -128; 6; 7; 8; 0; 0; 0; 0]))
    = Some (map Some [-128; 2; 3; 4; -128; 6; 7; 8; 16384; 12; 21; 32]).
Proof. split; [split; auto|vm_compute; reflexivity]. Qed.
