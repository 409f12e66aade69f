(** C26: mli_krn_argmax returns the k largest elements. *)
From Coq Require Import ZArith List Lia Bool Permutation Sorted.
From Verif Require Import Base Tensor TensorProofs PermuteProofs MovProofs ArgMax.
Import ListNotations.
Open Scope Z_scope.

(** * Arrays held in a window of memory *)

(** The window [base, base + k) holds the array h. *)
Definition am_rep (m : mem) (base k : Z) (h : Z -> Z) : Prop := forall i, 0 <= i < k -> m (base + i) = Some (h i).
(** Nothing changed outside the window. *)
Definition am_frame (base k : Z) (m m' : mem) : Prop := forall a, ~ (base <= a < base + k) -> m' a = m a.

Lemma am_frame_refl base k m : am_frame base k m m.
Proof. intros a _. reflexivity. Qed.
Lemma am_frame_trans base k m1 m2 m3 : am_frame base k m1 m2 -> am_frame base k m2 m3 -> am_frame base k m1 m3.
Proof. intros A B a Ha. rewrite B, A by auto. reflexivity. Qed.

Definition am_arr (h : Z -> Z) (n : Z) : list Z := map h (zrange 0 n).
Definition am_upd (h : Z -> Z) (i v : Z) : Z -> Z := fun j => if j =? i then v else h j.
Definition am_swap (h : Z -> Z) (a b : Z) : Z -> Z := am_upd (am_upd h a (h b)) b (h a).

Lemma am_rep_store m base k h i v : am_rep m base k h -> 0 <= i < k ->
  exists m', store m (base + i) v = Some m' /\ am_rep m' base k (am_upd h i v) /\ am_frame base k m m'
     /\ (forall j, j <> i -> m' (base + j) = m (base + j)).
Proof.
  intros H Hi. unfold store. rewrite (H i Hi). eexists. split; [reflexivity|]. split; [|split].
  - intros j Hj. unfold am_upd. destruct (Z.eqb_spec (base + j) (base + i)), (Z.eqb_spec j i); try lia; auto.
  - intros a Ha. destruct (Z.eqb_spec a (base + i)); [lia|auto].
  - intros j Hj. destruct (Z.eqb_spec (base + j) (base + i)); [lia|auto].
Qed.

Lemma am_arr_ext h h' n : (forall i, 0 <= i < n -> h i = h' i) -> am_arr h n = am_arr h' n.
Proof. intros H. apply map_ext_in. intros i Hi. apply in_zrange in Hi. auto. Qed.

Lemma am_perm_exchange (x y : Z) l1 l2 l3 : Permutation (l1 ++ x :: l2 ++ y :: l3) (l1 ++ y :: l2 ++ x :: l3).
Proof.
  apply Permutation_app_head. transitivity (x :: y :: l2 ++ l3).
  - constructor. symmetry. apply Permutation_middle.
  - rewrite perm_swap. constructor. apply Permutation_middle.
Qed.

Lemma am_swap_perm h a b n : 0 <= a < n -> 0 <= b < n -> Permutation (am_arr h n) (am_arr (am_swap h a b) n).
Proof.
  assert (W : forall a b, 0 <= a < b -> b < n -> Permutation (am_arr h n) (am_arr (am_swap h a b) n)).
  { clear a b. intros a b Hab Hbn. unfold am_arr.
    rewrite (zrange_split 0 a n), (zrange_cons a n), (zrange_split (a + 1) b n), (zrange_cons b n) by lia.
    rewrite !map_app. cbn [map]. rewrite !map_app. cbn [map].
    rewrite (map_ext_in (am_swap h a b) h (zrange 0 a)), (map_ext_in (am_swap h a b) h (zrange (a + 1) b)), (map_ext_in (am_swap h a b) h (zrange (b + 1) n)).
    2-4: intros i Hi; apply in_zrange in Hi; unfold am_swap, am_upd; destruct (Z.eqb_spec i b), (Z.eqb_spec i a); lia.
    replace (am_swap h a b a) with (h b). 2:{ unfold am_swap, am_upd. destruct (Z.eqb_spec a b); [lia|]. now rewrite Z.eqb_refl. }
    replace (am_swap h a b b) with (h a). 2:{ unfold am_swap, am_upd. now rewrite Z.eqb_refl. }
    apply am_perm_exchange. }
  intros Ha Hb. destruct (Z.lt_trichotomy a b) as [L|[L|L]].
  - apply W; lia.
  - subst. rewrite (am_arr_ext (am_swap h b b) h); [reflexivity|]. intros i _. unfold am_swap, am_upd. destruct (Z.eqb_spec i b); congruence.
  - rewrite (am_arr_ext (am_swap h a b) (am_swap h b a)); [apply W; lia|]. intros i _. unfold am_swap, am_upd.
    destruct (Z.eqb_spec i b), (Z.eqb_spec i a); congruence.
Qed.

Lemma am_arr_in h n i : 0 <= i < n -> In (h i) (am_arr h n).
Proof. intros. apply in_map. now apply in_zrange. Qed.

(** * The heap *)

Section Heap.
Variables (key : Z -> option Z) (kf : Z -> Z).

(** Every parent from [lo] on except [ex] is not larger than its children. *)
Definition am_hp (h : Z -> Z) (size lo ex : Z) : Prop :=
  forall i c, lo <= i -> i <> ex -> (c = 2 * i + 1 \/ c = 2 * i + 2) -> c < size -> kf (h i) <= kf (h c).
(** The parent of [r] is not larger than the children of [r]. *)
Definition am_gp (h : Z -> Z) (size lo r : Z) : Prop :=
  forall p c, lo <= p -> (r = 2 * p + 1 \/ r = 2 * p + 2) -> (c = 2 * r + 1 \/ c = 2 * r + 2) -> c < size -> kf (h p) <= kf (h c).

Lemma am_heapify_ok fuel : forall base size root lo m h,
  0 <= lo <= root -> (Z.to_nat (size - root) < fuel)%nat ->
  am_rep m base size h -> (forall i, 0 <= i < size -> key (h i) = Some (kf (h i))) ->
  am_hp h size lo root -> am_gp h size lo root ->
  exists m' h', am_heapify fuel key base size root m = Some m' /\ am_rep m' base size h' /\ am_frame base size m m'
    /\ Permutation (am_arr h size) (am_arr h' size) /\ am_hp h' size lo (-1).
Proof.
  induction fuel as [|fuel IH]; intros base size root lo m h Hlo Hf Hr Hk Hh Hg; [lia|].
  cbn [am_heapify]. destruct (Z.ltb_spec root (size / 2)) as [Hroot|Hroot].
  2:{ exists m, h. repeat split; auto using am_frame_refl, Permutation_refl.
      intros i c Hi _ Hc Hcs. destruct (Z.eq_dec i root) as [->|]; [lia|]. apply (Hh i c); auto. }
  destruct (Z.ltb_spec (2 * root + 1) size) as [Hl|]; [|lia].
  unfold load. rewrite (Hr (2 * root + 1)) by lia. cbn [bind]. rewrite Hk by lia. cbn [bind].
  rewrite (Hr root) by lia. cbn [bind]. rewrite Hk by lia. cbn [bind].
  set (s1 := if kf (h (2 * root + 1)) <? kf (h root) then 2 * root + 1 else root).
  assert (Hs1 : (s1 = 2 * root + 1 /\ kf (h s1) < kf (h root)) \/ (s1 = root /\ kf (h root) <= kf (h (2 * root + 1)))).
  { unfold s1. destruct (Z.ltb_spec (kf (h (2 * root + 1))) (kf (h root))); auto. }
  clearbody s1.
  assert (HS : exists s, (if 2 * root + 2 <? size then
             do pr <- m (base + (2 * root + 2)); do kr <- key pr; do ps <- m (base + s1); do ks <- key ps;
             Some (if kr <? ks then 2 * root + 2 else s1) else Some s1) = Some s
     /\ ((s = root /\ (forall c, (c = 2 * root + 1 \/ c = 2 * root + 2) -> c < size -> kf (h root) <= kf (h c)))
         \/ ((s = 2 * root + 1 \/ s = 2 * root + 2) /\ s < size /\ kf (h s) < kf (h root)
             /\ (forall c, (c = 2 * root + 1 \/ c = 2 * root + 2) -> c < size -> kf (h s) <= kf (h c))))).
  { destruct (Z.ltb_spec (2 * root + 2) size).
    - rewrite (Hr (2 * root + 2)) by lia. cbn [bind]. rewrite Hk by lia. cbn [bind].
      rewrite (Hr s1) by lia. cbn [bind]. rewrite Hk by lia. cbn [bind]. eexists. split; [reflexivity|].
      destruct (Z.ltb_spec (kf (h (2 * root + 2))) (kf (h s1))).
      + destruct Hs1 as [[-> ?]|[-> ?]]; right; repeat split; try lia; intros c [-> | ->] Hc; lia.
      + destruct Hs1 as [[-> ?]|[-> ?]].
        * right. repeat split; try lia; intros c [-> | ->] Hc; lia.
        * left. split; [reflexivity|]. intros c [-> | ->] Hc; lia.
    - exists s1. split; [reflexivity|]. destruct Hs1 as [[-> ?]|[-> ?]].
      + right. repeat split; try lia; intros c [-> | ->] Hc; lia.
      + left. split; [reflexivity|]. intros c [-> | ->] Hc; lia. }
  destruct HS as (s & -> & Hs). cbn [bind]. destruct Hs as [[-> Hmin]|(Hsc & Hss & Hlt & Hmin)].
  - rewrite Z.eqb_refl. cbn [negb]. exists m, h. repeat split; auto using am_frame_refl, Permutation_refl.
    intros i c Hi _ Hc Hcs. destruct (Z.eq_dec i root) as [->|]; [auto|]. apply (Hh i c); auto.
  - destruct (Z.eqb_spec s root); [lia|]. cbn [negb].
    rewrite (Hr s) by lia. cbn [bind].
    destruct (am_rep_store m base size h root (h s) Hr ltac:(lia)) as (m1 & E1 & R1 & F1 & _). rewrite E1. cbn [bind].
    destruct (am_rep_store m1 base size _ s (h root) R1 ltac:(lia)) as (m2 & E2 & R2 & F2 & _). rewrite E2. cbn [bind].
    assert (Sr : am_swap h root s root = h s) by (unfold am_swap, am_upd; destruct (Z.eqb_spec root s); [lia|]; now rewrite Z.eqb_refl).
    assert (Ss : am_swap h root s s = h root) by (unfold am_swap, am_upd; now rewrite Z.eqb_refl).
    assert (So : forall i, i <> root -> i <> s -> am_swap h root s i = h i).
    { intros i A B. unfold am_swap, am_upd. destruct (Z.eqb_spec i s), (Z.eqb_spec i root); congruence. }
    destruct (IH base size s lo m2 (am_swap h root s)) as (m' & h' & E & R & F & P & H); auto; try lia.
    + intros i Hi. destruct (Z.eq_dec i root) as [->|]; [rewrite Sr; apply Hk; lia|].
      destruct (Z.eq_dec i s) as [->|]; [rewrite Ss; apply Hk; lia|]. rewrite So by auto. auto.
    + intros i c Hi Hne Hc Hcs. destruct (Z.eq_dec i root) as [->|].
      * rewrite Sr. destruct (Z.eq_dec c s) as [->|]; [rewrite Ss; lia|]. rewrite So by lia. auto.
      * rewrite (So i) by auto. destruct (Z.eq_dec c root) as [->|].
        { rewrite Sr. apply (Hg i s); auto. }
        rewrite So by lia. apply (Hh i c); auto.
    + intros p c Hp Hsp Hc Hcs. assert (p = root) as -> by lia. rewrite Sr, So by lia. apply (Hh s c); auto; lia.
    + exists m', h'. split; [exact E|]. split; [exact R|]. split; [|split; [|exact H]].
      * eapply am_frame_trans; [|exact F]. eapply am_frame_trans; eassumption.
      * rewrite <- P. apply am_swap_perm; lia.
Qed.

Lemma am_heapify_run_ok base size root lo m h :
  0 <= lo <= root -> am_rep m base size h -> (forall i, 0 <= i < size -> key (h i) = Some (kf (h i))) ->
  am_hp h size lo root -> am_gp h size lo root ->
  exists m' h', am_heapify_run key base size root m = Some m' /\ am_rep m' base size h' /\ am_frame base size m m'
    /\ Permutation (am_arr h size) (am_arr h' size) /\ am_hp h' size lo (-1).
Proof. intros. apply am_heapify_ok; auto; lia. Qed.

(** All entries of the array can be looked up. *)
Lemma am_key_perm h h' n : Permutation (am_arr h n) (am_arr h' n) ->
  (forall i, 0 <= i < n -> key (h i) = Some (kf (h i))) -> (forall i, 0 <= i < n -> key (h' i) = Some (kf (h' i))).
Proof.
  intros P H i Hi. assert (Hin : In (h' i) (am_arr h n)).
  { eapply Permutation_in; [symmetry; exact P|]. now apply am_arr_in. }
  apply in_map_iff in Hin. destruct Hin as (j & <- & Hj). apply in_zrange in Hj. auto.
Qed.

Lemma am_build_ok base size m h :
  am_rep m base size h -> (forall i, 0 <= i < size -> key (h i) = Some (kf (h i))) ->
  exists m' h', am_build key base size m = Some m' /\ am_rep m' base size h' /\ am_frame base size m m'
    /\ Permutation (am_arr h size) (am_arr h' size) /\ am_hp h' size 0 (-1).
Proof.
  intros Hr Hk. unfold am_build.
  assert (W : forall n m h, am_rep m base size h -> (forall i, 0 <= i < size -> key (h i) = Some (kf (h i))) ->
     am_hp h size (Z.of_nat n) (-1) ->
     exists m' h', foldM (fun i m => am_heapify_run key base size i m) (rev (zrange 0 (Z.of_nat n))) m = Some m'
       /\ am_rep m' base size h' /\ am_frame base size m m' /\ Permutation (am_arr h size) (am_arr h' size) /\ am_hp h' size 0 (-1)).
  { clear. induction n as [|n IH]; intros m h Hr Hk Hh.
    - exists m, h. repeat split; auto using am_frame_refl, Permutation_refl.
    - rewrite Nat2Z.inj_succ, <- Z.add_1_r, zrange_snoc, rev_app_distr by lia. cbn [rev app foldM].
      destruct (am_heapify_run_ok base size (Z.of_nat n) (Z.of_nat n) m h) as (m1 & h1 & E1 & R1 & F1 & P1 & H1); auto; try lia.
      + intros i c A B. apply Hh; lia.
      + intros p c A B. lia.
      + rewrite E1. destruct (IH m1 h1 R1) as (m' & h' & E & R & F & P & H); auto.
        * eapply am_key_perm; eauto.
        * exists m', h'. split; [exact E|]. split; [exact R|]. split; [eapply am_frame_trans; eauto|]. split; [|exact H]. now rewrite P1. }
  destruct (Z_le_gt_dec size 0).
  - exists m, h. rewrite zrange_nil by (apply Z.div_le_upper_bound; lia). cbn. repeat split; auto using am_frame_refl, Permutation_refl. intros i c; lia.
  - rewrite <- (Z2Nat.id (size / 2)) by lia. apply W; auto. intros i c A B C D. lia.
Qed.

Lemma am_hp_root h size : am_hp h size 0 (-1) -> forall i, 0 <= i < size -> kf (h 0) <= kf (h i).
Proof.
  intros Hh. assert (W : forall n i, (Z.to_nat i < n)%nat -> 0 <= i < size -> kf (h 0) <= kf (h i)).
  { induction n; intros i Hn Hi; [lia|]. destruct (Z.eq_dec i 0) as [->|]; [lia|].
    transitivity (kf (h ((i - 1) / 2))); [apply IHn; lia|]. apply (Hh ((i - 1) / 2) i); lia. }
  intros i Hi. apply (W (S (Z.to_nat i))); lia.
Qed.

(** Keeping the k largest: [rest] are the elements seen that are not kept. *)
Definition am_top (h : Z -> Z) (k : Z) (rest : list Z) : Prop :=
  forall r i, In r rest -> 0 <= i < k -> kf r <= kf (h i).

Lemma am_top_perm h h' k rest : Permutation (am_arr h k) (am_arr h' k) -> am_top h k rest -> am_top h' k rest.
Proof.
  intros P H r i Hr Hi. assert (Hin : In (h' i) (am_arr h k)).
  { eapply Permutation_in; [symmetry; exact P|]. now apply am_arr_in. }
  apply in_map_iff in Hin. destruct Hin as (j & <- & Hj). apply in_zrange in Hj. auto.
Qed.

Lemma am_arr_cons h k : 0 < k -> am_arr h k = h 0 :: map h (zrange 1 k).
Proof. intros. unfold am_arr. now rewrite zrange_cons by lia. Qed.

Lemma am_offer_ok base k p m h rest : 0 < k ->
  am_rep m base k h -> (forall i, 0 <= i < k -> key (h i) = Some (kf (h i))) -> key p = Some (kf p) ->
  am_hp h k 0 (-1) -> am_top h k rest ->
  exists m' h' rest', am_offer key base k p m = Some m' /\ am_rep m' base k h' /\ am_frame base k m m'
    /\ am_hp h' k 0 (-1) /\ am_top h' k rest' /\ Permutation (p :: am_arr h k ++ rest) (am_arr h' k ++ rest').
Proof.
  intros Hk Hr Hkey Hp Hh Ht. unfold am_offer, load. rewrite (Hr 0) by lia. cbn [bind]. rewrite Hkey by lia. cbn [bind]. rewrite Hp. cbn [bind].
  pose proof (am_hp_root h k Hh) as Hroot.
  destruct (Z.gtb_spec (kf (h 0)) (kf p)).
  - exists m, h, (p :: rest). repeat split; auto using am_frame_refl, Permutation_refl.
    + intros r i [<-|Hin] Hi; [|auto]. specialize (Hroot i Hi). lia.
    + rewrite <- Permutation_middle. reflexivity.
  - destruct (am_rep_store m base k h 0 p Hr ltac:(lia)) as (m1 & E1 & R1 & F1 & _). rewrite E1. cbn [bind].
    assert (U0 : am_upd h 0 p 0 = p) by reflexivity.
    assert (U1 : forall i, i <> 0 -> am_upd h 0 p i = h i) by (intros i A; unfold am_upd; destruct (Z.eqb_spec i 0); congruence).
    destruct (am_heapify_run_ok base k 0 0 m1 (am_upd h 0 p)) as (m' & h' & E & R & F & P & H'); auto; try lia.
    + intros i Hi. destruct (Z.eq_dec i 0) as [->|]; [now rewrite U0|]. rewrite U1 by auto. auto.
    + intros i c A B C D. rewrite !U1 by lia. apply (Hh i c); lia.
    + intros q c A B. lia.
    + exists m', h', (h 0 :: rest). split; [exact E|]. split; [exact R|]. split; [eapply am_frame_trans; eauto|]. split; [exact H'|]. split.
      * eapply am_top_perm; [exact P|]. intros r i Hin Hi.
        assert (kf r <= kf (h 0)) as Hr0 by (destruct Hin as [<-|Hin]; [lia|apply Ht; auto; lia]).
        destruct (Z.eq_dec i 0) as [->|]; [rewrite U0; lia|]. rewrite U1 by auto. specialize (Hroot i Hi). lia.
      * rewrite <- P. rewrite (am_arr_cons h k), (am_arr_cons (am_upd h 0 p)) by lia. rewrite U0.
        rewrite (map_ext_in (am_upd h 0 p) h (zrange 1 k)) by (intros i Hi; apply in_zrange in Hi; apply U1; lia).
        cbn [app]. constructor. apply Permutation_middle.
Qed.

Lemma am_offers_ok base k l : forall m h rest, 0 < k ->
  am_rep m base k h -> (forall p, In p (l ++ am_arr h k ++ rest) -> key p = Some (kf p)) ->
  am_hp h k 0 (-1) -> am_top h k rest ->
  exists m' h' rest', foldM (am_offer key base k) l m = Some m' /\ am_rep m' base k h' /\ am_frame base k m m'
    /\ am_top h' k rest' /\ Permutation (l ++ am_arr h k ++ rest) (am_arr h' k ++ rest').
Proof.
  induction l as [|p l IH]; intros m h rest Hk Hr Hkey Hh Ht.
  - exists m, h, rest. repeat split; auto using am_frame_refl, Permutation_refl.
  - cbn [foldM]. destruct (am_offer_ok base k p m h rest) as (m1 & h1 & rest1 & E1 & R1 & F1 & H1 & T1 & P1); auto.
    { intros i Hi. apply Hkey. cbn [app]. right. apply in_app_iff. right. apply in_app_iff. left. now apply am_arr_in. }
    { apply Hkey. now left. }
    rewrite E1.
    assert (PP : Permutation ((p :: l) ++ am_arr h k ++ rest) (l ++ am_arr h1 k ++ rest1)).
    { rewrite <- P1. cbn [app]. apply Permutation_middle. }
    destruct (IH m1 h1 rest1) as (m' & h' & rest' & E & R & F & T & P); auto.
    + intros q Hq. apply Hkey. eapply Permutation_in; [symmetry; exact PP|exact Hq].
    + exists m', h', rest'. split; [exact E|]. split; [exact R|]. split; [eapply am_frame_trans; eauto|]. split; [exact T|].
      rewrite PP. exact P.
Qed.

(** * Heap sort *)

(** Entries from [lo] on are non-increasing and not larger than the entries before. *)
Definition am_sorted_from (h : Z -> Z) (lo size : Z) : Prop :=
  (forall i j, lo <= i <= j -> j < size -> kf (h j) <= kf (h i))
  /\ (forall i j, 0 <= i < lo -> lo <= j < size -> kf (h j) <= kf (h i)).

Lemma am_sort_loop base size n : forall m h, Z.of_nat n < size ->
  am_rep m base size h -> (forall i, 0 <= i < size -> key (h i) = Some (kf (h i))) ->
  am_hp h (Z.of_nat n + 1) 0 (-1) -> am_sorted_from h (Z.of_nat n + 1) size ->
  exists m' h', foldM (fun i m =>
      do temp <- load m (base + 0); do v <- load m (base + i);
      do m <- store m (base + 0) v; do m <- store m (base + i) temp;
      am_heapify_run key base i 0 m) (rev (zrange 1 (Z.of_nat n + 1))) m = Some m'
    /\ am_rep m' base size h' /\ am_frame base size m m'
    /\ Permutation (am_arr h size) (am_arr h' size) /\ am_sorted_from h' 0 size.
Proof.
  induction n as [|n IH]; intros m h Hn Hr Hk Hh [Hs1 Hs2].
  - exists m, h. cbn. repeat split; auto using am_frame_refl, Permutation_refl; intros i j; [|lia].
    intros A B. destruct (Z.eq_dec i 0) as [->|].
    + destruct (Z.eq_dec j 0) as [->|]; [lia|]. apply Hs2; lia.
    + apply Hs1; lia.
  - rewrite Nat2Z.inj_succ in *. set (k := Z.succ (Z.of_nat n)) in *. rewrite zrange_snoc, rev_app_distr by lia. cbn [rev app foldM].
    unfold load. rewrite (Hr 0) by lia. cbn [bind]. rewrite (Hr k) by lia. cbn [bind].
    destruct (am_rep_store m base size h 0 (h k) Hr ltac:(lia)) as (m1 & E1 & R1 & F1 & _). rewrite E1. cbn [bind].
    destruct (am_rep_store m1 base size _ k (h 0) R1 ltac:(lia)) as (m2 & E2 & R2 & F2 & _). rewrite E2. cbn [bind].
    fold (am_swap h 0 k) in R2.
    assert (S0 : am_swap h 0 k 0 = h k) by (unfold am_swap, am_upd; destruct (Z.eqb_spec 0 k); [lia|]; reflexivity).
    assert (Sk : am_swap h 0 k k = h 0) by (unfold am_swap, am_upd; now rewrite Z.eqb_refl).
    assert (So : forall i, i <> 0 -> i <> k -> am_swap h 0 k i = h i).
    { intros i A B. unfold am_swap, am_upd. destruct (Z.eqb_spec i k), (Z.eqb_spec i 0); congruence. }
    assert (P2 : Permutation (am_arr h size) (am_arr (am_swap h 0 k) size)) by (apply am_swap_perm; lia).
    assert (Hk2 := am_key_perm _ _ _ P2 Hk).
    assert (Hroot : forall i, 0 <= i < k + 1 -> kf (h 0) <= kf (h i)) by (apply am_hp_root; auto).
    destruct (am_heapify_run_ok base k 0 0 m2 (am_swap h 0 k)) as (m3 & h3 & E3 & R3 & F3 & P3 & H3); try lia.
    + intros i Hi. apply R2. lia.
    + intros i Hi. apply Hk2. lia.
    + intros i c A B C D. rewrite !So by lia. apply (Hh i c); lia.
    + intros p c A B. lia.
    + (* combine the sorted part with the new heap *)
      set (h4 := fun i => if i <? k then h3 i else am_swap h 0 k i).
      assert (R4 : am_rep m3 base size h4).
      { intros i Hi. unfold h4. destruct (Z.ltb_spec i k); [apply R3; lia|]. rewrite F3 by lia. apply R2. lia. }
      assert (A3 : am_arr h3 k = am_arr h4 k). { apply am_arr_ext. intros i Hi. unfold h4. destruct (Z.ltb_spec i k); [auto|lia]. }
      assert (P4 : Permutation (am_arr (am_swap h 0 k) size) (am_arr h4 size)).
      { unfold am_arr in *. rewrite (zrange_split 0 k size), !map_app by lia. rewrite <- A3.
        rewrite P3. apply Permutation_app_head. erewrite map_ext_in; [reflexivity|]. intros i Hi. apply in_zrange in Hi. unfold h4.
        destruct (Z.ltb_spec i k); [lia|auto]. }
      assert (Hin3 : forall i, 0 <= i < k -> exists j, 0 <= j < k /\ h4 i = am_swap h 0 k j).
      { intros i Hi. assert (Hin : In (h4 i) (am_arr (am_swap h 0 k) k)).
        { eapply Permutation_in; [symmetry; exact P3|]. rewrite A3. now apply am_arr_in. }
        apply in_map_iff in Hin. destruct Hin as (j & Hj & Hjr). apply in_zrange in Hjr. eauto. }
      assert (Hge : forall i, k <= i -> h4 i = am_swap h 0 k i). { intros i Hi. unfold h4. destruct (Z.ltb_spec i k); [lia|auto]. }
      rewrite E3. unfold k. rewrite <- Z.add_1_r. destruct (IH m3 h4) as (m' & h' & E & R & F & P & S); auto; try lia.
      * eapply am_key_perm; [|exact Hk2]. exact P4.
      * intros i c A B C D. unfold h4. destruct (Z.ltb_spec i k), (Z.ltb_spec c k); try lia. apply (H3 i c); auto; lia.
      * assert (Hold : forall i, 0 <= i <= k -> exists j, 0 <= j < k + 1 /\ am_swap h 0 k i = h j).
        { intros i Hi. destruct (Z.eq_dec i 0) as [->|]; [exists k; split; [lia|auto]|]. destruct (Z.eq_dec i k) as [->|]; [exists 0; split; [lia|auto]|].
          exists i. split; [lia|]. apply So; auto. }
        split; intros i j A B.
        -- rewrite !Hge by lia. destruct (Z.eq_dec i k) as [->|].
           ++ rewrite Sk. destruct (Z.eq_dec j k) as [->|]; [rewrite Sk; lia|]. rewrite So by lia. apply Hs2; lia.
           ++ rewrite !So by lia. apply Hs1; lia.
        -- destruct (Hin3 i ltac:(lia)) as (i1 & Hi1 & ->). destruct (Hold i1 ltac:(lia)) as (i2 & Hi2 & ->). rewrite Hge by lia.
           destruct (Z.eq_dec j k) as [->|]; [rewrite Sk; apply Hroot; lia|]. rewrite So by lia. apply Hs2; lia.
      * exists m', h'. split; [exact E|]. split; [exact R|]. split.
        -- eapply am_frame_trans; [exact F1|]. eapply am_frame_trans; [exact F2|]. eapply am_frame_trans; [|exact F].
           intros a Ha. apply F3. lia.
        -- split; [|exact S]. rewrite P2, P4. exact P.
Qed.

Lemma am_heap_sort_ok base size m h : 0 < size ->
  am_rep m base size h -> (forall i, 0 <= i < size -> key (h i) = Some (kf (h i))) ->
  exists m' h', am_heap_sort key base size m = Some m' /\ am_rep m' base size h' /\ am_frame base size m m'
    /\ Permutation (am_arr h size) (am_arr h' size) /\ am_sorted_from h' 0 size.
Proof.
  intros Hs Hr Hk. unfold am_heap_sort. destruct (am_build_ok base size m h Hr Hk) as (m1 & h1 & E1 & R1 & F1 & P1 & H1).
  rewrite E1. cbn [bind]. destruct (am_sort_loop base size (Z.to_nat (size - 1)) m1 h1) as (m' & h' & E & R & F & P & S); auto; try lia.
  - eapply am_key_perm; eauto.
  - replace (Z.of_nat (Z.to_nat (size - 1)) + 1) with size by lia. exact H1.
  - split; intros i j; lia.
  - replace (Z.of_nat (Z.to_nat (size - 1)) + 1) with size in E by lia. exists m', h'. split; [exact E|]. split; [exact R|].
    split; [eapply am_frame_trans; eauto|]. split; [now rewrite P1|exact S].
Qed.
End Heap.

(** * Order of traversal *)

(** Tuples from [c] on, in loop order. *)
Fixpoint am_resume (c cont en : list Z) : list (list Z) :=
  match c, cont, en with
  | a :: c', _ :: cont', e :: en' =>
      map (cons a) (am_resume c' cont' en') ++ flat_map (fun i => map (cons i) (am_box cont' en')) (zrange (a + 1) e)
  | _, _, _ => [[]]
  end.

Fixpoint am_inbox (cont en c : list Z) : Prop :=
  match cont, en, c with
  | [], [], [] => True
  | s :: cont', e :: en', a :: c' => s <= a < e /\ am_inbox cont' en' c'
  | _, _, _ => False
  end.

Lemma in_am_box cont : forall en c, length en = length cont -> In c (am_box cont en) <-> am_inbox cont en c.
Proof.
  induction cont as [|s cont IH]; intros [|e en] c; cbn [length am_box am_inbox]; try lia; intros Hl.
  - destruct c; cbn; intuition congruence.
  - rewrite in_flat_map. split.
    + intros (i & Hi & Hc). apply in_map_iff in Hc. destruct Hc as (c' & <- & Hc'). apply in_zrange in Hi. apply IH in Hc'; auto; lia.
    + destruct c as [|a c]; [tauto|]. intros [Ha Hc]. exists a. split; [now apply in_zrange|]. apply in_map. apply IH; auto; lia.
Qed.

Lemma am_box_NoDup cont : forall en, NoDup (am_box cont en).
Proof.
  assert (N1 : forall (x : list Z), NoDup [x]) by (intros; repeat constructor; auto).
  induction cont as [|s cont IH]; intros [|e en]; cbn [am_box]; auto.
  apply NoDup_flat_map.
  - apply zrange_NoDup.
  - intros x _. apply FinFun.Injective_map_NoDup; [intros a b; congruence|auto].
  - intros x y b _ _ Hx Hy. apply in_map_iff in Hx, Hy. destruct Hx as (? & <- & _), Hy as (? & E & _). congruence.
Qed.

Lemma am_resume_suffix c : forall cont en, am_inbox cont en c ->
  (exists L1, am_box cont en = L1 ++ am_resume c cont en) /\ (exists tl, am_resume c cont en = c :: tl).
Proof.
  induction c as [|a c IH]; intros [|s cont] [|e en]; cbn [am_inbox]; try tauto.
  - intros _. split; [exists []; reflexivity|exists []; reflexivity].
  - intros [Ha Hc]. destruct (IH cont en Hc) as [[L1 E1] [tl E2]]. cbn [am_box am_resume]. split.
    + rewrite (zrange_split s a e), (zrange_cons a e) by lia. rewrite flat_map_app. cbn [flat_map].
      exists (flat_map (fun i => map (cons i) (am_box cont en)) (zrange s a) ++ map (cons a) L1).
      rewrite E1. rewrite map_app, <- !app_assoc. reflexivity.
    + rewrite E2. cbn [map app]. eauto.
Qed.

Lemma am_nodup_split {A} (l1 l2 r1 r2 : list A) (x : A) : NoDup (l1 ++ x :: l2) -> l1 ++ x :: l2 = r1 ++ x :: r2 -> l2 = r2.
Proof.
  revert r1. induction l1 as [|a l1 IH]; intros [|b r1]; cbn [app]; intros HN E.
  - congruence.
  - inversion E; subst. inversion HN; subst. exfalso. apply H1. apply in_app_iff. right. now left.
  - inversion E; subst. inversion HN; subst. exfalso. apply H1. apply in_app_iff. right. now left.
  - inversion E; subst. inversion HN; subst. eapply IH; eauto.
Qed.

Lemma am_resume_split c cont en L1 L2 : length en = length cont -> am_box cont en = L1 ++ c :: L2 -> am_resume c cont en = c :: L2.
Proof.
  intros Hl E. assert (Hin : am_inbox cont en c). { apply in_am_box; auto. rewrite E. apply in_app_iff. right. now left. }
  destruct (am_resume_suffix c cont en Hin) as [[L E1] [tl E2]]. rewrite E2 in *. f_equal.
  apply (am_nodup_split L tl L1 L2 c); [rewrite <- E1; apply am_box_NoDup|congruence].
Qed.

Lemma am_resume_all cont : forall en, Forall (fun p => fst p < snd p) (combine cont en) -> length en = length cont ->
  am_resume cont cont en = am_box cont en.
Proof.
  induction cont as [|s cont IH]; intros [|e en]; cbn [length combine am_resume am_box]; try lia; auto; intros H Hl.
  inversion H; subst. cbn [fst snd] in *. rewrite (zrange_cons s e) by lia. cbn [flat_map]. rewrite IH by (auto; lia). reflexivity.
Qed.

Lemma am_loop_gen {X S} (body : Z -> X * S -> option (X * S)) (g : list Z -> S -> option S) (Ls : X -> list (list Z)) (c s : X) a b m :
  a < b ->
  (forall d x m, x = c \/ x = s -> body d (x, m) = bind (foldM (fun q => g (d :: q)) (Ls x) m) (fun m' => Some (c, m'))) ->
  foldM body (zrange a b) (s, m)
  = bind (foldM g (map (cons a) (Ls s) ++ flat_map (fun i => map (cons i) (Ls c)) (zrange (a + 1) b)) m) (fun m' => Some (c, m')).
Proof.
  intros Hab Hb. rewrite zrange_cons by lia. cbn [foldM]. rewrite Hb by auto. rewrite foldM_app, foldM_map.
  destruct (foldM (fun q => g (a :: q)) (Ls s) m) as [m1|]; cbn [bind]; [|reflexivity].
  clear Hab. revert m1. induction (zrange (a + 1) b) as [|d l IH]; intros m1; cbn [foldM flat_map]; [reflexivity|].
  rewrite Hb by auto. rewrite foldM_app, foldM_map.
  destruct (foldM (fun q => g (d :: q)) (Ls c) m1) as [m2|]; cbn [bind]; auto.
Qed.

Definition am_posl (st c : list Z) : Z := am_pos st (nth 0 c 0) (nth 1 c 0) (nth 2 c 0) (nth 3 c 0).

Lemma am_select_eq key base topk st c0 c1 c2 c3 e0 e1 e2 e3 s0 s1 s2 s3 m :
  c0 < e0 -> c1 < e1 -> c2 < e2 -> c3 < e3 -> s0 < e0 -> s1 < e1 -> s2 < e2 -> s3 < e3 ->
  am_select key base topk st [s0; s1; s2; s3] [c0; c1; c2; c3] [e0; e1; e2; e3] m
  = do m <- am_build key base topk m;
    foldM (am_offer key base topk) (map (am_posl st) (am_resume [s0; s1; s2; s3] [c0; c1; c2; c3] [e0; e1; e2; e3])) m.
Proof.
  intros. unfold am_select. cbn [nth]. destruct (am_build key base topk m) as [m1|]; cbn [bind]; [|reflexivity].
  rewrite foldM_map.
  rewrite (am_loop_gen _ (fun q => am_offer key base topk (am_posl st q))
     (fun x => am_resume [fst (fst x); snd (fst x); snd x] [c1; c2; c3] [e1; e2; e3]) (c1, c2, c3) (s1, s2, s3) s0 e0 m1).
  - cbn [fst snd]. rewrite (am_resume_all [c1; c2; c3]) by (repeat constructor; cbn; lia).
    change (am_resume [s0; s1; s2; s3] [c0; c1; c2; c3] [e0; e1; e2; e3])
      with (map (cons s0) (am_resume [s1; s2; s3] [c1; c2; c3] [e1; e2; e3]) ++ flat_map (fun i => map (cons i) (am_box [c1; c2; c3] [e1; e2; e3])) (zrange (s0 + 1) e0)).
    destruct (foldM _ _ m1); reflexivity.
  - auto.
  - intros d0 [[x1 x2] x3] m0 Hx. assert (x1 < e1 /\ x2 < e2 /\ x3 < e3) as (X1 & X2 & X3) by (destruct Hx as [Hx|Hx]; inversion Hx; subst; auto).
    cbn [fst snd].
    rewrite (am_loop_gen _ (fun q => am_offer key base topk (am_posl st (d0 :: q)))
     (fun x => am_resume [fst x; snd x] [c2; c3] [e2; e3]) (c2, c3) (x2, x3) x1 e1 m0); auto.
    + cbn [fst snd]. rewrite (am_resume_all [c2; c3]) by (repeat constructor; cbn; lia).
      change (am_resume [x1; x2; x3] [c1; c2; c3] [e1; e2; e3])
        with (map (cons x1) (am_resume [x2; x3] [c2; c3] [e2; e3]) ++ flat_map (fun i => map (cons i) (am_box [c2; c3] [e2; e3])) (zrange (x1 + 1) e1)).
      destruct (foldM _ _ m0); reflexivity.
    + intros d1 [y2 y3] m2 Hy. assert (y2 < e2 /\ y3 < e3) as (Y2 & Y3) by (destruct Hy as [Hy|Hy]; inversion Hy; subst; auto).
      cbn [fst snd].
      rewrite (am_loop_gen _ (fun q => am_offer key base topk (am_posl st (d0 :: d1 :: q)))
        (fun x => am_resume [x] [c3] [e3]) c3 y3 y2 e2 m2); auto.
      * rewrite (am_resume_all [c3]) by (repeat constructor; cbn; lia).
        change (am_resume [y2; y3] [c2; c3] [e2; e3])
          with (map (cons y2) (am_resume [y3] [c3] [e3]) ++ flat_map (fun i => map (cons i) (am_box [c3] [e3])) (zrange (y2 + 1) e2)).
        destruct (foldM _ _ m2); reflexivity.
      * intros d2 z m3 Hz. assert (z < e3) by (destruct Hz; subst; auto). unfold am_inner.
        f_equal. rewrite (zrange_cons z e3) by lia.
        replace (am_resume [z] [c3] [e3]) with (map (fun i => [i]) (z :: zrange (z + 1) e3)).
        -- rewrite foldM_map. reflexivity.
        -- cbn [am_resume map app]. f_equal.
Qed.

(** * Filling the first k positions *)

Lemma am_fill_ok base topk st en l : forall i m, 0 <= i <= topk -> topk - i <= Z.of_nat (length l) ->
  (forall j, i <= j < topk -> allocated m (base + j)) ->
  exists m' c l1 l2, am_fill base topk st en l i m = Some (m', c) /\ l = l1 ++ l2 /\ Z.of_nat (length l1) = topk - i
    /\ ((l2 = [] /\ c = en) \/ exists tl, l2 = c :: tl)
    /\ (forall j, (j < length l1)%nat -> m' (base + i + Z.of_nat j) = Some (am_posl st (nth j l1 [])))
    /\ am_frame (base + i) (topk - i) m m'.
Proof.
  induction l as [|c l IH]; intros i m Hi Hl Ha; cbn [am_fill length] in *.
  - exists m, en, [], []. split; [reflexivity|]. split; [reflexivity|]. split; [cbn; lia|]. split; [now left|]. split; [cbn; lia|]. apply am_frame_refl.
  - destruct (Z.eqb_spec i topk) as [->|Hne].
    + exists m, c, [], (c :: l). split; [reflexivity|]. split; [reflexivity|]. split; [cbn; lia|]. split; [right; eauto|]. split; [cbn; lia|]. apply am_frame_refl.
    + rewrite store_ok by (apply Ha; lia). cbn [bind]. fold (am_posl st c).
      set (m1 := fun b => if b =? base + i then Some (am_posl st c) else m b).
      destruct (IH (i + 1) m1) as (m' & c' & l1 & l2 & E & El & Ll & Hc & Hv & Hf); try lia.
      * intros j Hj. unfold allocated, m1. destruct (Z.eqb_spec (base + j) (base + i)); [congruence|]. apply Ha; lia.
      * exists m', c', (c :: l1), l2. split; [exact E|]. split; [now rewrite El|]. split; [cbn [length]; lia|]. split; [exact Hc|]. split.
        -- intros [|j] Hj; cbn [nth length] in *.
           ++ rewrite Hf by lia. unfold m1. destruct (Z.eqb_spec (base + i + Z.of_nat 0) (base + i)); [reflexivity|lia].
           ++ rewrite <- Hv by lia. f_equal. lia.
        -- intros a Hna. rewrite Hf by lia. unfold m1. destruct (Z.eqb_spec a (base + i)); [lia|reflexivity].
Qed.

Lemma am_arr_nth (l : list Z) : map (fun i => nth (Z.to_nat i) l 0) (zrange 0 (Z.of_nat (length l))) = l.
Proof.
  unfold zrange. rewrite map_map. replace (Z.to_nat (Z.of_nat (length l) - 0)) with (length l) by lia.
  transitivity (map (fun k => nth k l 0) (seq 0 (length l))); [|apply map_nth_seq]. apply map_ext. intros a. f_equal. lia.
Qed.

(** One slice. *)
Lemma am_slice_ok key kf base topk st cont en m :
  length cont = 4%nat -> length en = 4%nat -> Forall (fun p => fst p < snd p) (combine cont en) ->
  let B := map (am_posl st) (am_box cont en) in
  (forall p, In p B -> key p = Some (kf p)) ->
  0 < topk <= Z.of_nat (length B) -> (forall j, 0 <= j < topk -> allocated m (base + j)) ->
  exists m' h rest,
    (do r <- am_fill base topk st en (am_box cont en) 0 m;
     do m <- am_select key base topk st (snd r) cont en (fst r);
     am_heap_sort key base topk m) = Some m'
    /\ am_rep m' base topk h /\ am_frame base topk m m'
    /\ Permutation B (am_arr h topk ++ rest) /\ am_top kf h topk rest /\ am_sorted_from kf h 0 topk.
Proof.
  intros L1 L2 Hlt B HB Htk Ha. unfold B in *. rewrite map_length in Htk.
  destruct (am_fill_ok base topk st en (am_box cont en) 0 m) as (m1 & c & l1 & l2 & E & El & Ll & Hc & Hv & Hf); try lia. { intros; apply Ha; lia. }
  rewrite E. cbn [bind fst snd].
  set (h1 := fun i => nth (Z.to_nat i) (map (am_posl st) l1) 0).
  assert (R1 : am_rep m1 base topk h1).
  { intros i Hi. unfold h1. rewrite nth_indep with (l := map (am_posl st) l1) (d' := am_posl st []) by (rewrite map_length; lia).
    rewrite map_nth. rewrite <- Hv by lia. f_equal. lia. }
  assert (A1 : am_arr h1 topk = map (am_posl st) l1).
  { unfold am_arr, h1. replace topk with (Z.of_nat (length (map (am_posl st) l1))) by (rewrite map_length; lia). apply am_arr_nth. }
  assert (K1 : forall i, 0 <= i < topk -> key (h1 i) = Some (kf (h1 i))).
  { intros i Hi. apply HB. rewrite El, map_app. apply in_app_iff. left. rewrite <- A1. now apply am_arr_in. }
  (* selection = offering the remaining positions *)
  assert (SEL : am_select key base topk st c cont en m1
     = do m <- am_build key base topk m1; foldM (am_offer key base topk) (map (am_posl st) l2) m).
  { destruct cont as [|c0 [|c1 [|c2 [|c3 [|]]]]]; try discriminate L1. destruct en as [|e0 [|e1 [|e2 [|e3 [|]]]]]; try discriminate L2.
    cbn [combine] in Hlt. repeat match goal with H : Forall _ (_ :: _) |- _ => apply Forall_cons_iff in H; destruct H end. cbn [fst snd] in *.
    destruct Hc as [[-> ->]|[tl ->]].
    - unfold am_select. cbn [nth map foldM]. destruct (am_build key base topk m1); cbn [bind]; [|reflexivity].
      rewrite (zrange_nil e0 e0) by lia. reflexivity.
    - assert (Hin : am_inbox [c0; c1; c2; c3] [e0; e1; e2; e3] c). { apply in_am_box; auto. rewrite El. apply in_app_iff. right. now left. }
      rewrite <- (am_resume_split c [c0; c1; c2; c3] [e0; e1; e2; e3] l1 tl) by auto.
      destruct c as [|s0 [|s1 [|s2 [|s3 [|]]]]]; cbn [am_inbox] in Hin; try tauto. apply am_select_eq; lia. }
  rewrite SEL. clear SEL. destruct (am_build_ok key kf base topk m1 h1 R1 K1) as (m2 & h2 & E2 & R2 & F2 & P2 & H2). rewrite E2. cbn [bind].
  destruct (am_offers_ok key kf base topk (map (am_posl st) l2) m2 h2 []) as (m3 & h3 & rest & E3 & R3 & F3 & T3 & P3); auto; try lia.
  { intros p Hp. rewrite app_nil_r in Hp. apply HB. rewrite El, map_app. apply in_app_iff in Hp. apply in_app_iff. destruct Hp as [Hp|Hp]; [now right|left].
    rewrite <- A1. eapply Permutation_in; [symmetry; exact P2|exact Hp]. }
  { intros r i []. }
  rewrite E3. cbn [bind].
  assert (PB : Permutation (map (am_posl st) (am_box cont en)) (am_arr h3 topk ++ rest)).
  { rewrite <- P3, app_nil_r, <- P2, A1, El, map_app. apply Permutation_app_comm. }
  destruct (am_heap_sort_ok key kf base topk m3 h3) as (m4 & h4 & E4 & R4 & F4 & P4 & S4); auto; try lia.
  { intros i Hi. apply HB. eapply Permutation_in; [symmetry; exact PB|]. apply in_app_iff. left. now apply am_arr_in. }
  exists m4, h4, rest. split; [exact E4|]. split; [exact R4|]. split.
  - rewrite Z.add_0_r, Z.sub_0_r in Hf. eapply am_frame_trans; [exact Hf|]. eapply am_frame_trans; [exact F2|]. eapply am_frame_trans; [exact F3|exact F4].
  - split; [now rewrite <- P4|]. split; [eapply am_top_perm; eauto|exact S4].
Qed.

(** * C26 *)

Lemma nested_prod sh : forall st, nested sh st -> prod sh <= span sh st /\ prod sh <= extent sh st.
Proof.
  induction sh as [|d sh IH]; intros [|s st]; cbn [nested]; try tauto; [cbn; lia|]. intros (Hd & Hs & Hn & Hnest).
  destruct (IH st Hnest) as [A B]. cbn [prod fold_right span extent]. fold (prod sh).
  assert (prod sh <= s).
  { destruct sh as [|d' sh], st as [|s' st]; cbn [nested] in Hnest; try tauto; [cbn; lia|]. cbn [extent] in B. lia. }
  nia.
Qed.

Definition am_value (tin : tensor) (min : mem) (p : Z) : option Z := min (t_data tin + p).
(** [p] is the memory index (relative to the data pointer of the input) of an element of the slice [s]. *)
Definition am_in_slice (tin : tensor) (axis s p : Z) : Prop :=
  exists c, valid (t_shape tin) c /\ (0 <= axis -> nth (Z.to_nat axis) c 0 = s) /\ p = addr (t_stride tin) c.
(** What the kernel has to report for a slice: distinct memory indices of the slice, values non-increasing,
    and no element of the slice that is not reported is larger than a reported one. *)
Definition am_result (tin : tensor) (min : mem) (axis s : Z) (R : list Z) : Prop :=
  NoDup R
  /\ (forall p, In p R -> am_in_slice tin axis s p)
  /\ (forall i j, (i <= j < length R)%nat -> exists vi vj,
        am_value tin min (nth i R 0) = Some vi /\ am_value tin min (nth j R 0) = Some vj /\ vj <= vi)
  /\ (forall p q, am_in_slice tin axis s p -> In q R -> In p R \/ exists vp vq,
        am_value tin min p = Some vp /\ am_value tin min q = Some vq /\ vp <= vq).

Lemma am_posl_addr st c : length st = 4%nat -> length c = 4%nat -> am_posl st c = addr st c.
Proof.
  destruct st as [|? [|? [|? [|? [|]]]]]; try discriminate. destruct c as [|? [|? [|? [|? [|]]]]]; try discriminate.
  intros _ _. unfold am_posl, am_pos. cbn [nth addr]. ring.
Qed.

(** The box of a slice, dimension by dimension. *)
Lemma am_inbox_nth cont : forall en c, length en = length cont ->
  (am_inbox cont en c <-> length c = length cont /\ forall d, (d < length cont)%nat -> nth d cont 0 <= nth d c 0 < nth d en 0).
Proof.
  induction cont as [|s cont IH]; intros [|e en] [|a c]; cbn [length am_inbox]; try (intros; lia).
  - intros _. split; [split; [auto|intros; lia]|auto].
  - intros H. rewrite IH by lia. split.
    + intros [A [B C]]. split; [lia|]. intros [|d] Hd; cbn [nth]; [lia|]. apply C. lia.
    + intros [A B]. split; [apply (B 0%nat); lia|]. split; [lia|]. intros d Hd. apply (B (S d)). lia.
Qed.

Lemma am_box_length cont : forall en, length en = length cont -> Forall (fun p => fst p <= snd p) (combine cont en) ->
  Z.of_nat (length (am_box cont en)) = prod (map (fun p => snd p - fst p) (combine cont en)).
Proof.
  induction cont as [|s cont IH]; intros [|e en]; cbn [length combine am_box map]; try lia; [reflexivity|]. intros Hl H. inversion H; subst.
  rewrite (flat_map_length_const _ _ (length (am_box cont en))) by (intros; now rewrite map_length).
  rewrite zrange_length, Nat2Z.inj_mul, IH by (auto; lia). cbn [fst snd] in *. rewrite Z2Nat.id by lia. reflexivity.
Qed.

Definition am_set (sh : list Z) (d : nat) (v : Z) : list Z := firstn d sh ++ v :: skipn (S d) sh.

Lemma prod_app a b : prod (a ++ b) = prod a * prod b.
Proof. unfold prod. induction a as [|x a IH]; cbn [app fold_right]; [lia|]. rewrite IH. ring. Qed.

Lemma am_nth_split (sh : list Z) d : (d < length sh)%nat -> sh = firstn d sh ++ nth d sh 0 :: skipn (S d) sh.
Proof.
  revert d; induction sh as [|x sh IH]; intros [|d]; cbn [length]; try lia; intros Hd; [reflexivity|].
  cbn [firstn nth app]. f_equal. rewrite (IH d) at 1 by lia. reflexivity.
Qed.

Lemma am_prod_set sh d : (d < length sh)%nat -> prod sh = nth d sh 0 * prod (am_set sh d 1).
Proof.
  intros Hd. rewrite (am_nth_split sh d Hd) at 1. unfold am_set. rewrite !prod_app. unfold prod. cbn [fold_right]. ring.
Qed.

(** Number of elements of a slice. *)
Definition am_slice_size (sh : list Z) (axis : Z) : Z :=
  if axis >=? 0 then prod (am_set sh (Z.to_nat axis) 1) else prod sh.

Definition am_dim (axis : Z) (sh : list Z) : Z := if axis >=? 0 then axis + (4 - Z.of_nat (length sh)) else -1.

Lemma am_slice_box sh axis s :
  (length sh <= 4)%nat -> Forall (fun d => 0 < d) sh -> axis < Z.of_nat (length sh) ->
  (0 <= axis -> 0 <= s < nth (Z.to_nat axis) sh 0) ->
  let k := (4 - length sh)%nat in
  let cont := am_cont (am_dim axis sh) s in
  let en := am_end (am_dim axis sh) s (repeat 1 k ++ sh) in
  Forall (fun p => fst p < snd p) (combine cont en)
  /\ (forall q, am_inbox cont en q -> exists c, q = repeat 0 k ++ c /\ valid sh c /\ (0 <= axis -> nth (Z.to_nat axis) c 0 = s))
  /\ (forall c, valid sh c -> (0 <= axis -> nth (Z.to_nat axis) c 0 = s) -> am_inbox cont en (repeat 0 k ++ c))
  /\ prod (map (fun p => snd p - fst p) (combine cont en)) = am_slice_size sh axis.
Proof.
  intros H4 Hp Ha Hs. assert (T1 : Pos.to_nat 1 = 1%nat) by reflexivity. assert (T2 : Pos.to_nat 2 = 2%nat) by reflexivity. assert (T3 : Pos.to_nat 3 = 3%nat) by reflexivity. unfold am_dim, am_slice_size.
  assert (Hax : axis < 0 \/ axis = 0 \/ axis = 1 \/ axis = 2 \/ axis = 3) by lia.
  destruct Hax as [Hneg|[->|[->|[->| ->]]]].
  1: destruct (Z.geb_spec axis 0); [lia|].
  all: destruct sh as [|a [|b [|c [|d [|]]]]]; cbn [length] in *; try lia;
    repeat match goal with H : Forall _ (_ :: _) |- _ => apply Forall_cons_iff in H; destruct H end;
    repeat match goal with |- context [?a + (4 - ?b)] => let v := eval vm_compute in (a + (4 - b)) in change (a + (4 - b)) with v end;
    cbn -[Z.add Z.sub Z.mul] in *; rewrite ?T1, ?T2, ?T3 in *; cbn -[Z.add Z.sub Z.mul] in *;
    (split; [repeat (apply Forall_cons; [cbn [fst snd]; lia|]); apply Forall_nil|]; split;
     [intros q Hq; destruct q as [|q0 [|q1 [|q2 [|q3 [|]]]]]; cbn [am_inbox] in Hq; try tauto;
      match goal with |- exists _, _ = ?x :: ?y :: ?z :: ?w :: _ /\ _ => exists []; assert (q0 = 0 /\ q1 = 0 /\ q2 = 0 /\ q3 = 0) as (-> & -> & -> & ->) by lia
      | |- exists _, _ = _ :: _ :: _ :: _ /\ _ => exists [q3]; assert (q0 = 0 /\ q1 = 0 /\ q2 = 0) as (-> & -> & ->) by lia
      | |- exists _, _ = _ :: _ :: _ /\ _ => exists [q2; q3]; assert (q0 = 0 /\ q1 = 0) as (-> & ->) by lia
      | |- exists _, _ = _ :: _ /\ _ => exists [q1; q2; q3]; assert (q0 = 0) as -> by lia
      | |- _ => exists [q0; q1; q2; q3] end; cbn [valid nth Pos.to_nat Pos.iter_op Init.Nat.add]; repeat split; try lia
     |split; [|unfold am_set, prod; cbn -[Z.add Z.sub Z.mul]; ring]]).
  all: intros q Hq Hv; destruct q as [|q0 [|q1 [|q2 [|q3 [|]]]]]; cbn [valid] in Hq; try tauto; cbn in *; lia.
Qed.

Lemma am_slices_loop (f : Z -> mem -> option mem) (Q : Z -> mem -> Prop) base k n m :
  0 <= k -> 0 <= n ->
  (forall s m, 0 <= s < n -> (forall a, base <= a < base + k * n -> allocated m a) ->
     exists m', f s m = Some m' /\ am_frame (base + k * s) k m m' /\ (forall a, allocated m a -> allocated m' a) /\ Q s m') ->
  (forall s m m', Q s m -> (forall a, base + k * s <= a < base + k * s + k -> m' a = m a) -> Q s m') ->
  (forall a, base <= a < base + k * n -> allocated m a) ->
  exists m', foldM f (zrange 0 n) m = Some m' /\ (forall s, 0 <= s < n -> Q s m') /\ am_frame base (k * n) m m'.
Proof.
  intros Hk Hn Hf HQ Ha.
  assert (W : forall t, (Z.of_nat t <= n) -> exists m', foldM f (zrange 0 (Z.of_nat t)) m = Some m' /\ (forall s, 0 <= s < Z.of_nat t -> Q s m')
     /\ am_frame base (k * n) m m' /\ (forall a, allocated m a -> allocated m' a)).
  { induction t as [|t IH]; intros Ht.
    - exists m. rewrite zrange_nil by lia. cbn. repeat split; auto using am_frame_refl. intros; lia.
    - rewrite Nat2Z.inj_succ in *. destruct IH as (m1 & E1 & Q1 & F1 & A1); [lia|].
      destruct (Hf (Z.of_nat t) m1) as (m2 & E2 & F2 & A2 & Q2); [lia|intros; auto|].
      exists m2. rewrite <- Z.add_1_r, zrange_snoc, foldM_app, E1 by lia. cbn [bind foldM]. rewrite E2. split; [reflexivity|]. split; [|split].
      + intros s Hs. destruct (Z.eq_dec s (Z.of_nat t)) as [->|]; [exact Q2|]. apply (HQ s m1); [apply Q1; lia|]. intros a Hw. apply F2. nia.
      + eapply am_frame_trans; [exact F1|]. intros a Hna. apply F2. nia.
      + intros; auto. }
  destruct (W (Z.to_nat n)) as (m' & E & A & B & _); [lia|]. rewrite Z2Nat.id in * by lia. eauto.
Qed.

Lemma chk_argmax_facts tin tout axis topk : fits32 tin -> fits32 tout -> length (t_shape tout) = 2%nat ->
  chk_argmax tin tout axis topk = ST_OK ->
  chk_tensor tin = ST_OK /\ chk_tensor tout = ST_OK /\ axis < t_rank tin
  /\ t_shape tout = [(if axis >=? 0 then nth (Z.to_nat axis) (t_shape tin) 0 else 1); topk] /\ t_stride tout = [topk; 1]
  /\ topk <= am_slice_size (t_shape tin) axis.
Proof.
  intros Hin Hout H2. unfold chk_argmax. destruct (chk_tensor tin) eqn:C1; try discriminate. destruct (chk_tensor tout) eqn:C2; try discriminate.
  destruct (layout_is_contiguous _ _) eqn:Hc; cbn [negb]; [|discriminate]. destruct (axis <=? t_rank tin); cbn [negb]; [|discriminate].
  destruct (inner_stride_is_one tin); cbn [negb]; [|discriminate]. destruct (Z.ltb_spec axis (t_rank tin)); cbn [negb]; [|discriminate].
  set (dim := if axis >=? 0 then _ else 1). set (lim := wrap 32 _).
  destruct (Z.leb_spec topk lim); cbn [negb]; [|discriminate]. destruct (Z.eqb_spec (nth 0 (t_shape tout) 0) dim); cbn [negb orb]; [|discriminate].
  destruct (Z.eqb_spec (wrap 32 (nth 1 (t_shape tout) 0)) topk); cbn [negb orb]; [|discriminate]. intros _.
  destruct (chk_tensor_nested tin Hin C1) as (N1 & S1 & _). destruct (chk_tensor_nested tout Hout C2) as (N2 & S2 & _).
  pose proof Hin as (L1 & E1 & B1 & Sp1). pose proof Hout as (L2 & E2 & B2 & Sp2).
  destruct (chk_tensor_pos tin C1 L1) as (R4 & P1 & _).
  destruct (nested_prod _ _ N1) as [Hprod _].
  split; [auto|]. split; [auto|]. split; [auto|].
  assert (Hshape : t_shape tout = [dim; topk] /\ t_stride tout = [topk; 1]).
  { unfold layout_is_contiguous in Hc. rewrite H2 in Hc. change (Nat.eqb 2 0) with false in Hc. change (negb (Z.of_nat 2 <=? 4)) with false in Hc. cbn iota in Hc.
    destruct (contiguous_fold (t_shape tout) (t_stride tout) L2 B2) as (f & Ef & Hf). rewrite Ef in Hc. cbn [fst] in Hc.
    specialize (Hf ltac:(destruct f; [discriminate|reflexivity])).
    destruct (t_shape tout) as [|a [|b [|]]]; try discriminate H2. cbn [nth] in *. rewrite Hf. cbn [contiguous_strides] in *.
    rewrite Hf in B2, N2, Sp2. cbn [nested span combine] in *. inversion B2 as [|x y HB1 HB2]; subst x y. inversion HB2 as [|x y HB3 HB4]; subst x y. cbn [fst snd] in *.
    rewrite Z.mul_1_r in HB3. rewrite wrap_id in e0 by (auto; lia). subst b. subst a. split; [reflexivity|]. f_equal. lia. }
  destruct Hshape as [A B]. split; [exact A|]. split; [exact B|].
  assert (Hcnt : count_elem_num_part (t_shape tin) = prod (t_shape tin)).
  { rewrite count_elem_num_part_spec by (eapply Forall_impl; [|exact P1]; cbn; lia). apply Z.mod_small. split; [|nia].
    clear - P1. induction P1; unfold prod in *; cbn [fold_right]; nia. }
  assert (Hpp : 0 < prod (t_shape tin)). { clear - P1. induction P1; unfold prod in *; cbn [fold_right]; nia. }
  unfold lim in *. rewrite Hcnt in *. unfold am_slice_size, dim in *. destruct (Z.geb_spec axis 0) as [Hx|Hx].
  - unfold t_rank in *. pose proof (am_prod_set (t_shape tin) (Z.to_nat axis) ltac:(lia)) as Hset.
    pose proof (nth_forall _ _ (Z.to_nat axis) 0 P1 ltac:(lia)) as Hd. cbn beta in Hd.
    rewrite Hset in H0. rewrite Z.mul_comm, Z.div_mul in H0 by lia. rewrite wrap_id in H0; [lia|lia|].
    unfold in_bits, smin, smax. change (32 - 1) with 31. nia.
  - rewrite wrap_id in H0; [lia|lia|]. unfold in_bits, smin, smax. change (32 - 1) with 31. nia.
Qed.

(** C26. The kernel succeeds, row [s] of the output holds what has to be reported for slice [s], and no other
    memory changes. *)
Theorem argmax_correct tin tout axis topk min mout :
  fits32 tin -> fits32 tout -> length (t_shape tout) = 2%nat -> backed tin min -> backed tout mout ->
  chk_argmax tin tout axis topk = ST_OK ->
  exists m', argmax_run tin tout axis topk min mout = Some m'
  /\ (forall s, 0 <= s < nth 0 (t_shape tout) 0 -> exists R, Z.of_nat (length R) = topk
        /\ (forall i, 0 <= i < topk -> m' (t_data tout + addr (t_stride tout) [s; i]) = Some (nth (Z.to_nat i) R 0))
        /\ am_result tin min axis s R)
  /\ (forall a, (forall c, valid (t_shape tout) c -> a <> t_data tout + addr (t_stride tout) c) -> m' a = mout a).
Proof.
  intros Hin Hout H2 Bin Bout Hchk.
  destruct (chk_argmax_facts _ _ _ _ Hin Hout H2 Hchk) as (C1 & C2 & Hax & Hsh & Hst & Hk).
  pose proof Hin as (L1 & E1 & B1 & Sp1). pose proof Hout as (L2 & _).
  destruct (chk_tensor_pos tin C1 L1) as (R4 & P1 & _). destruct (chk_tensor_pos tout C2 L2) as (_ & P2 & _).
  destruct (chk_tensor_nested tin Hin C1) as (N1 & _).
  rewrite Hsh in P2. inversion P2 as [|x y Pd P2']; subst x y. inversion P2' as [|x y Pk _]; subst x y. clear P2 P2'.
  rewrite Hsh, Hst. cbn [nth]. set (n := if axis >=? 0 then nth (Z.to_nat axis) (t_shape tin) 0 else 1) in *.
  set (kf := fun p => match min (t_data tin + p) with Some v => v | None => 0 end).
  assert (Halloc : forall a, t_data tout <= a < t_data tout + topk * n -> allocated mout a).
  { intros a Ha. set (off := a - t_data tout). pose proof (chk_backed tout mout Hout C2 Bout [off / topk; off mod topk]) as Hb.
    rewrite Hsh, Hst in Hb. cbn [valid addr] in Hb. replace a with (t_data tout + (topk * (off / topk) + (1 * (off mod topk) + 0))).
    - apply Hb. pose proof (Z.mod_pos_bound off topk Pk). repeat split; try lia.
      + apply Z.div_pos; unfold off; lia.
      + apply Z.div_lt_upper_bound; unfold off; lia.
    - pose proof (Z.div_mod off topk ltac:(lia)). unfold off in *. lia. }
  set (k4 := (4 - length (t_shape tin))%nat).
  set (Q := fun s (m : mem) => exists R, Z.of_nat (length R) = topk
        /\ (forall i, 0 <= i < topk -> m (t_data tout + topk * s + i) = Some (nth (Z.to_nat i) R 0)) /\ am_result tin min axis s R).
  assert (Hslices : (if axis >=? 0 then nth (Z.to_nat (if axis >=? 0 then axis + (4 - t_rank tin) else -1)) (repeat 1 k4 ++ t_shape tin) 0 else 1) = n).
  { unfold n. destruct (Z.geb_spec axis 0); [|reflexivity]. rewrite app_nth2; rewrite repeat_length; unfold t_rank, k4 in *; [|lia]. f_equal. lia. }
  unfold argmax_run. fold k4. cbv zeta. rewrite Hslices.
  destruct (am_slices_loop (fun slice m =>
      do r <- am_fill (t_data tout + topk * slice) topk (repeat 0 k4 ++ t_stride tin)
           (am_end (if axis >=? 0 then axis + (4 - t_rank tin) else -1) slice (repeat 1 k4 ++ t_shape tin))
           (am_box (am_cont (if axis >=? 0 then axis + (4 - t_rank tin) else -1) slice)
              (am_end (if axis >=? 0 then axis + (4 - t_rank tin) else -1) slice (repeat 1 k4 ++ t_shape tin))) 0 m;
      do m <- am_select (fun p => load min (t_data tin + p)) (t_data tout + topk * slice) topk (repeat 0 k4 ++ t_stride tin) (snd r)
            (am_cont (if axis >=? 0 then axis + (4 - t_rank tin) else -1) slice)
            (am_end (if axis >=? 0 then axis + (4 - t_rank tin) else -1) slice (repeat 1 k4 ++ t_shape tin)) (fst r);
      am_heap_sort (fun p => load min (t_data tin + p)) (t_data tout + topk * slice) topk m) Q (t_data tout) topk n mout) as (m' & E & HQ & HF); try lia.
  - intros s m Hs Ha.
    destruct (am_slice_box (t_shape tin) axis s) as (X1 & X2 & X3 & X4); auto. { intros Hx. unfold n in Hs. destruct (Z.geb_spec axis 0); [auto|lia]. }
    fold k4 in X1, X2, X3, X4. change (am_dim axis (t_shape tin)) with (if axis >=? 0 then axis + (4 - t_rank tin) else -1) in *.
    set (cont := am_cont _ s) in *. set (en := am_end _ s _) in *. set (st := repeat 0 k4 ++ t_stride tin).
    assert (Lst : length st = 4%nat) by (unfold st, k4; rewrite app_length, repeat_length; lia).
    assert (Hpos : forall c, valid (t_shape tin) c -> am_posl st (repeat 0 k4 ++ c) = addr (t_stride tin) c).
    { intros c Hc. rewrite am_posl_addr; auto. - apply addr_lpad. - rewrite app_length, repeat_length, (valid_length _ _ Hc). unfold k4. lia. }
    assert (Hbox : forall p, In p (map (am_posl st) (am_box cont en)) <-> am_in_slice tin axis s p).
    { intros p. rewrite in_map_iff. split.
      - intros (q & <- & Hq). apply in_am_box in Hq; [|reflexivity]. destruct (X2 q Hq) as (c & -> & Hc & Hcs). exists c. split; [auto|]. split; [auto|]. now apply Hpos.
      - intros (c & Hc & Hcs & ->). exists (repeat 0 k4 ++ c). split; [now apply Hpos|]. apply in_am_box; [reflexivity|]. now apply X3. }
    assert (Hval : forall p, am_in_slice tin axis s p -> min (t_data tin + p) = Some (kf p)).
    { intros p (c & Hc & _ & ->). pose proof (chk_backed tin min Hin C1 Bin c Hc) as Hal. unfold allocated in Hal. unfold kf. destruct (min _); congruence. }
    destruct (am_slice_ok (fun p => load min (t_data tin + p)) kf (t_data tout + topk * s) topk st cont en m) as (m1 & h & rest & E & R & F & P & T & S); auto.
    + intros p Hp. apply Hval. now apply Hbox.
    + rewrite map_length. rewrite am_box_length; [|reflexivity|eapply Forall_impl; [|exact X1]; cbn; lia]. rewrite X4. lia.
    + intros j Hj. apply Ha. nia.
    + exists m1. split; [exact E|]. split; [exact F|]. split.
      * intros a Hal. destruct (Z_le_gt_dec (t_data tout + topk * s) a); [destruct (Z_lt_le_dec a (t_data tout + topk * s + topk))|].
        -- unfold allocated. replace a with (t_data tout + topk * s + (a - (t_data tout + topk * s))) by lia. rewrite R by lia. congruence.
        -- unfold allocated. rewrite F by lia. exact Hal.
        -- unfold allocated. rewrite F by lia. exact Hal.
      * assert (NDB : NoDup (map (am_posl st) (am_box cont en))).
        { assert (W : forall l, (forall q, In q l -> am_inbox cont en q) -> NoDup l -> NoDup (map (am_posl st) l)).
          { induction l as [|q l IHl]; intros Hq Hn; cbn [map]; [constructor|]. inversion Hn; subst. constructor; [|apply IHl; auto; intros; apply Hq; now right].
            intros Hi. apply in_map_iff in Hi. destruct Hi as (q' & Eq & Hq'). apply H1.
            destruct (X2 q) as (c & -> & Hc & _); [apply Hq; now left|]. destruct (X2 q') as (c' & -> & Hc' & _); [apply Hq; now right|].
            rewrite !Hpos in Eq by auto. rewrite (nested_inj _ _ _ _ N1 Hc Hc') by auto. exact Hq'. }
          apply W; [|apply am_box_NoDup]. intros q Hq. now apply in_am_box in Hq. }
        assert (NDP : NoDup (am_arr h topk ++ rest)) by (eapply Permutation_NoDup; eauto).
        assert (Hin_h : forall p, In p (am_arr h topk) -> am_in_slice tin axis s p).
        { intros p Hp. apply Hbox. eapply Permutation_in; [symmetry; exact P|]. apply in_app_iff. now left. }
        assert (Lh : length (am_arr h topk) = Z.to_nat topk) by (unfold am_arr; rewrite map_length, zrange_length; f_equal; lia).
        assert (Nh : forall i, (i < Z.to_nat topk)%nat -> nth i (am_arr h topk) 0 = h (Z.of_nat i)).
        { intros i Hi. unfold am_arr, zrange. rewrite map_map. rewrite nth_indep with (l := map _ _) (d' := (fun x => h (0 + Z.of_nat x)) 0%nat) by (rewrite map_length, seq_length; lia).
          rewrite (map_nth (fun x => h (0 + Z.of_nat x))). rewrite seq_nth by lia. reflexivity. }
        exists (am_arr h topk). split; [lia|]. split; [|split; [|split; [|split]]].
        -- intros i Hi. rewrite Nh by lia. rewrite Z2Nat.id by lia. apply R. lia.
        -- clear - NDP. induction (am_arr h topk); [constructor|]. cbn [app] in NDP. inversion NDP; subst. constructor; [|auto]. intros Hi. apply H1. apply in_app_iff. now left.
        -- exact Hin_h.
        -- intros i j Hij. rewrite Lh in Hij. rewrite !Nh by lia. exists (kf (h (Z.of_nat i))), (kf (h (Z.of_nat j))). unfold am_value.
           split; [|split]; [apply Hval, Hin_h, am_arr_in; lia|apply Hval, Hin_h, am_arr_in; lia|]. destruct S as [S _]. apply S; lia.
        -- intros p q Hp Hq. apply Hbox in Hp as Hp'. eapply Permutation_in in Hp'; [|exact P]. apply in_app_iff in Hp'. destruct Hp' as [Hp'|Hp']; [now left|right].
           exists (kf p), (kf q). unfold am_value. split; [apply Hval; auto|]. split; [apply Hval; auto|].
           apply in_map_iff in Hq. destruct Hq as (i & <- & Hi). apply in_zrange in Hi. apply T; auto.
  - intros s m m0 (R & HR & HRv & HRr) Hw. exists R. split; [auto|]. split; [|auto]. intros i Hi. rewrite Hw by lia. auto.
  - exact Halloc.
  - exists m'. split; [exact E|]. split.
    + intros s Hs. destruct (HQ s Hs) as (R & HR & HRv & HRr). exists R. split; [auto|]. split; [|auto]. intros i Hi. rewrite <- HRv by auto. f_equal. cbn [addr]. lia.
    + intros a Ha. apply HF. intros Hr. set (off := a - t_data tout).
      apply (Ha [off / topk; off mod topk]).
      * pose proof (Z.mod_pos_bound off topk Pk). cbn [valid]. repeat split; try lia; [apply Z.div_pos; unfold off; lia|apply Z.div_lt_upper_bound; unfold off; lia].
      * cbn [addr]. pose proof (Z.div_mod off topk ltac:(lia)). unfold off in *. lia.
Qed.

(** The hypotheses hold for a 2x3 tensor with padded rows and ties, top 2 of each row. *)
Definition am_ex_in : tensor := mkTensor 0 7 1 [2; 3] [4; 1] true (-1) 0.
Definition am_ex_out : tensor := mkTensor 0 16 4 [2; 2] [2; 1] true (-1) 0.
Definition am_ex_mem (l : list Z) : mem := fun a => if a <? 0 then None else nth_error l (Z.to_nat a).
Example argmax_ex :
  fits32 am_ex_in /\ fits32 am_ex_out /\ length (t_shape am_ex_out) = 2%nat
  /\ backed am_ex_in (am_ex_mem [5; -3; 5; 100; 1; 2; 9]) /\ backed am_ex_out (am_ex_mem [0; 0; 0; 0])
  /\ chk_argmax am_ex_in am_ex_out 0 2 = ST_OK
  /\ option_map (fun m => map m [0; 1; 2; 3]) (argmax_run am_ex_in am_ex_out 0 2 (am_ex_mem [5; -3; 5; 100; 1; 2; 9]) (am_ex_mem [0; 0; 0; 0]))
     = Some [Some 0; Some 2; Some 6; Some 5].
Proof.
  assert (HB : forall l b n, (length l = n)%nat -> b = Z.of_nat n -> forall a, 0 <= a -> a + 1 <= b -> allocated (am_ex_mem l) (0 + a)).
  { intros l b n Hl Hb a H0 H1. unfold allocated, am_ex_mem. destruct (Z.ltb_spec (0 + a) 0); [lia|]. apply nth_error_Some. lia. }
  split; [|split; [|split; [|split; [|split; [|split]]]]].
  1-2: unfold fits32; cbn; repeat split; try lia; repeat constructor; unfold in_bits; vm_compute; congruence.
  - reflexivity.
  - intros a H0 H1. cbn [am_ex_in t_esz t_cap t_data] in *. apply (HB _ 7 7%nat); auto; lia.
  - intros a H0 H1. cbn [am_ex_out t_esz t_cap t_data] in *. apply (HB _ 4 4%nat); auto; lia.
  - vm_compute. reflexivity.
  - vm_compute. reflexivity.
Qed.
