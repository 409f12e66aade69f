(** Common vocabulary of the model: fixed width integers, option-monad loops and memories.
    Nothing here models a particular function of /repo; it is the meta-language the
    model files are written in. *)
From Coq Require Import ZArith List Lia Bool FinFun.
Import ListNotations.
Open Scope Z_scope.

Ltac Zify.zify_post_hook ::= Z.div_mod_to_equations.

(** * Fixed width integers *)

(** Smallest and largest value of the signed n-bit type. *)
Definition smin (n : Z) : Z := - 2 ^ (n - 1).
Definition smax (n : Z) : Z := 2 ^ (n - 1) - 1.

(** [x] is a value of the signed n-bit type. *)
Definition in_bits (n x : Z) : Prop := smin n <= x <= smax n.
(** [x] is a value of the unsigned n-bit type. *)
Definition in_ubits (n x : Z) : Prop := 0 <= x < 2 ^ n.

(** Nearest value inside an interval. *)
Definition clamp (lo hi x : Z) : Z := Z.max lo (Z.min hi x).
(** Saturation to the signed n-bit type. *)
Definition sat (n x : Z) : Z := clamp (smin n) (smax n) x.
(** Two's complement truncation to the signed n-bit type. *)
Definition wrap (n x : Z) : Z := (x + 2 ^ (n - 1)) mod 2 ^ n - 2 ^ (n - 1).
(** Truncation to the unsigned n-bit type. *)
Definition uwrap (n x : Z) : Z := x mod 2 ^ n.

Lemma pow2_pos k : 0 < 2 ^ k \/ k < 0.
Proof. destruct (Z_lt_le_dec k 0); [now right|left; apply Z.pow_pos_nonneg; lia]. Qed.

Lemma pow2_gt0 k : 0 <= k -> 0 < 2 ^ k.
Proof. intros; apply Z.pow_pos_nonneg; lia. Qed.

Lemma pow2_ge1 k : 0 <= k -> 1 <= 2 ^ k.
Proof. intros H; generalize (pow2_gt0 k H); lia. Qed.

Lemma pow2_split a b : 0 <= a -> 0 <= b -> 2 ^ (a + b) = 2 ^ a * 2 ^ b.
Proof. intros; apply Z.pow_add_r; lia. Qed.

Lemma pow2_succ k : 0 < k -> 2 ^ k = 2 * 2 ^ (k - 1).
Proof. intros. replace k with (1 + (k - 1)) at 1 by lia. rewrite pow2_split by lia. reflexivity. Qed.

Lemma pow2_le a b : 0 <= a -> a <= b -> 2 ^ a <= 2 ^ b.
Proof. intros; apply Z.pow_le_mono_r; lia. Qed.

Lemma clamp_bounds lo hi x : lo <= hi -> lo <= clamp lo hi x <= hi.
Proof. unfold clamp; lia. Qed.

Lemma clamp_id lo hi x : lo <= x <= hi -> clamp lo hi x = x.
Proof. unfold clamp; lia. Qed.

Lemma clamp_mono lo hi x y : x <= y -> clamp lo hi x <= clamp lo hi y.
Proof. unfold clamp; lia. Qed.

Lemma smin_le_smax n : 1 <= n -> smin n <= smax n.
Proof. intros; unfold smin, smax; generalize (pow2_ge1 (n-1)); lia. Qed.

Lemma sat_in_bits n x : 1 <= n -> in_bits n (sat n x).
Proof. intros; unfold in_bits, sat; apply clamp_bounds, smin_le_smax; lia. Qed.

Lemma sat_id n x : in_bits n x -> sat n x = x.
Proof. apply clamp_id. Qed.

Lemma sat_mono n x y : x <= y -> sat n x <= sat n y.
Proof. apply clamp_mono. Qed.

Lemma wrap_id n x : 1 <= n -> in_bits n x -> wrap n x = x.
Proof.
  unfold in_bits, smin, smax, wrap; intros Hn H.
  pose proof (pow2_succ n ltac:(lia)). rewrite Z.mod_small; lia.
Qed.

Lemma wrap_in_bits n x : 1 <= n -> in_bits n (wrap n x).
Proof.
  unfold in_bits, smin, smax, wrap; intros Hn.
  pose proof (pow2_succ n ltac:(lia)). pose proof (pow2_gt0 n ltac:(lia)).
  pose proof (Z.mod_pos_bound (x + 2 ^ (n-1)) (2 ^ n) ltac:(lia)). lia.
Qed.

Lemma wrap_add_mod n x y : 1 <= n -> wrap n (wrap n x + y) = wrap n (x + y).
Proof.
  intros Hn. unfold wrap. f_equal.
  replace ((x + 2 ^ (n - 1)) mod 2 ^ n - 2 ^ (n - 1) + y + 2 ^ (n - 1))
    with ((x + 2 ^ (n - 1)) mod 2 ^ n + y) by lia.
  rewrite Zplus_mod_idemp_l. f_equal. lia.
Qed.

Lemma uwrap_id n x : in_ubits n x -> uwrap n x = x.
Proof. unfold in_ubits, uwrap; intros; apply Z.mod_small; lia. Qed.

(** * Ranges and option-monad loops *)

(** The integers lo, lo+1, ..., hi-1. *)
Definition zrange (lo hi : Z) : list Z := map (fun k => lo + Z.of_nat k) (seq 0 (Z.to_nat (hi - lo))).

Lemma in_zrange lo hi x : In x (zrange lo hi) <-> lo <= x < hi.
Proof.
  unfold zrange. rewrite in_map_iff. split.
  - intros [k [<- Hk]]. apply in_seq in Hk. lia.
  - intros H. exists (Z.to_nat (x - lo)). split; [lia|]. apply in_seq. lia.
Qed.

Lemma zrange_length lo hi : length (zrange lo hi) = Z.to_nat (hi - lo).
Proof. unfold zrange. now rewrite map_length, seq_length. Qed.

Lemma zrange_nil lo hi : hi <= lo -> zrange lo hi = [].
Proof. intros. unfold zrange. replace (Z.to_nat (hi - lo)) with 0%nat by lia. reflexivity. Qed.

Lemma zrange_cons lo hi : lo < hi -> zrange lo hi = lo :: zrange (lo + 1) hi.
Proof.
  intros. unfold zrange. replace (Z.to_nat (hi - lo)) with (S (Z.to_nat (hi - (lo + 1)))) by lia.
  cbn [seq map]. f_equal; [lia|]. rewrite <- seq_shift, map_map. apply map_ext. intros; lia.
Qed.

Lemma zrange_split lo mid hi : lo <= mid <= hi -> zrange lo hi = zrange lo mid ++ zrange mid hi.
Proof.
  intros [H1 H2]. remember (Z.to_nat (mid - lo)) as k eqn:Hk. revert lo H1 Hk.
  induction k; intros.
  - assert (mid = lo) by lia. subst. now rewrite (zrange_nil lo lo) by lia.
  - rewrite (zrange_cons lo hi), (zrange_cons lo mid) by lia. cbn [app]. f_equal. apply IHk; lia.
Qed.

Lemma zrange_snoc lo hi : lo <= hi -> zrange lo (hi + 1) = zrange lo hi ++ [hi].
Proof.
  intros. rewrite (zrange_split lo hi (hi + 1)) by lia. f_equal.
  rewrite zrange_cons, zrange_nil by lia. reflexivity.
Qed.

Lemma zrange_shift lo hi d : zrange (lo + d) (hi + d) = map (fun x => x + d) (zrange lo hi).
Proof.
  unfold zrange. rewrite map_map. replace (hi + d - (lo + d)) with (hi - lo) by lia.
  apply map_ext; intros; lia.
Qed.

Lemma zrange_NoDup lo hi : NoDup (zrange lo hi).
Proof.
  unfold zrange. apply FinFun.Injective_map_NoDup; [|apply seq_NoDup].
  intros a b. lia.
Qed.

(** Monadic left-to-right loop: the model of [for (x : l) s = f(x, s);]. *)
Fixpoint foldM {A S : Type} (f : A -> S -> option S) (l : list A) (s : S) : option S :=
  match l with
  | [] => Some s
  | x :: tl => match f x s with Some s' => foldM f tl s' | None => None end
  end.

Definition bind {A B} (o : option A) (f : A -> option B) : option B :=
  match o with Some x => f x | None => None end.
Notation "'do' x <- o ; e" := (bind o (fun x => e)) (at level 200, x name, o at level 100, e at level 200).

Lemma foldM_app {A S} (f : A -> S -> option S) l1 l2 s :
  foldM f (l1 ++ l2) s = bind (foldM f l1 s) (foldM f l2).
Proof. revert s; induction l1; intros; cbn; [reflexivity|]. destruct (f a s); cbn; auto. Qed.

Lemma foldM_ext {A S} (f g : A -> S -> option S) l s :
  (forall x s, In x l -> f x s = g x s) -> foldM f l s = foldM g l s.
Proof.
  revert s; induction l; intros s H; cbn; [reflexivity|].
  rewrite H by now left. destruct (g a s); [|reflexivity]. apply IHl; intros; apply H; now right.
Qed.

Lemma foldM_nested {A B S} (f : A -> B -> S -> option S) (l2 : A -> list B) l1 s :
  foldM (fun i s => foldM (f i) (l2 i) s) l1 s
  = foldM (fun p s => f (fst p) (snd p) s) (flat_map (fun i => map (pair i) (l2 i)) l1) s.
Proof.
  revert s; induction l1; intros; cbn; [reflexivity|].
  rewrite foldM_app. assert (E : forall l s, foldM (f a) l s = foldM (fun p s => f (fst p) (snd p) s) (map (pair a) l) s).
  { induction l; intros; cbn; [reflexivity|]. destruct (f a a0 s0); auto. }
  rewrite <- E. destruct (foldM (f a) (l2 a) s); cbn; auto.
Qed.

(** Pure accumulation: a loop that never fails is a [fold_left]. *)
Lemma foldM_pure {A S} (f : A -> S -> option S) (g : A -> S -> S) l s :
  (forall x s, In x l -> f x s = Some (g x s)) -> foldM f l s = Some (fold_left (fun s x => g x s) l s).
Proof.
  revert s; induction l; intros s H; cbn; [reflexivity|].
  rewrite H by now left. apply IHl; intros; apply H; now right.
Qed.

(** Sum over a range. *)
Definition zsum (lo hi : Z) (f : Z -> Z) : Z := fold_right Z.add 0 (map f (zrange lo hi)).

Lemma zsum_nil lo hi f : hi <= lo -> zsum lo hi f = 0.
Proof. intros; unfold zsum; now rewrite zrange_nil. Qed.

Lemma zsum_cons lo hi f : lo < hi -> zsum lo hi f = f lo + zsum (lo + 1) hi f.
Proof. intros; unfold zsum; now rewrite zrange_cons. Qed.

Lemma fold_right_add_app l1 l2 : fold_right Z.add 0 (l1 ++ l2) = fold_right Z.add 0 l1 + fold_right Z.add 0 l2.
Proof. induction l1; cbn; lia. Qed.

Lemma zsum_split lo mid hi f : lo <= mid <= hi -> zsum lo hi f = zsum lo mid f + zsum mid hi f.
Proof. intros; unfold zsum. rewrite (zrange_split lo mid hi), map_app by lia. apply fold_right_add_app. Qed.

Lemma zsum_snoc lo hi f : lo <= hi -> zsum lo (hi + 1) f = zsum lo hi f + f hi.
Proof.
  intros. rewrite (zsum_split lo hi (hi + 1)) by lia. f_equal.
  rewrite zsum_cons, zsum_nil by lia. lia.
Qed.

Lemma zsum_ext lo hi f g : (forall i, lo <= i < hi -> f i = g i) -> zsum lo hi f = zsum lo hi g.
Proof.
  intros H; unfold zsum; f_equal; apply map_ext_in; intros i Hi; apply H; now apply in_zrange.
Qed.

Lemma zsum_add lo hi f g : zsum lo hi (fun i => f i + g i) = zsum lo hi f + zsum lo hi g.
Proof. unfold zsum; induction (zrange lo hi); cbn; lia. Qed.

Lemma zsum_sub lo hi f g : zsum lo hi (fun i => f i - g i) = zsum lo hi f - zsum lo hi g.
Proof. unfold zsum; induction (zrange lo hi); cbn; lia. Qed.

Lemma zsum_mul_l lo hi c f : zsum lo hi (fun i => c * f i) = c * zsum lo hi f.
Proof. unfold zsum; induction (zrange lo hi); cbn [map fold_right]; lia. Qed.

Lemma zsum_mul_r lo hi c f : zsum lo hi (fun i => f i * c) = zsum lo hi f * c.
Proof. unfold zsum; induction (zrange lo hi); cbn [map fold_right]; lia. Qed.

Lemma zsum_0 lo hi : zsum lo hi (fun _ => 0) = 0.
Proof. unfold zsum; induction (zrange lo hi); cbn; lia. Qed.

Lemma zsum_const lo hi c : lo <= hi -> zsum lo hi (fun _ => c) = (hi - lo) * c.
Proof.
  intros. remember (Z.to_nat (hi - lo)) as k eqn:Hk. revert lo H Hk. induction k; intros.
  - rewrite zsum_nil by lia. assert (hi = lo) by lia. subst; lia.
  - rewrite zsum_cons, IHk by lia. lia.
Qed.

Lemma zsum_zero lo hi f : (forall i, lo <= i < hi -> f i = 0) -> zsum lo hi f = 0.
Proof. intros H. rewrite (zsum_ext lo hi f (fun _ => 0)) by auto. apply zsum_0. Qed.

Lemma zsum_shift lo hi d f : zsum (lo + d) (hi + d) f = zsum lo hi (fun i => f (i + d)).
Proof. unfold zsum. rewrite zrange_shift, map_map. reflexivity. Qed.

Lemma zsum_swap lo1 hi1 lo2 hi2 (f : Z -> Z -> Z) :
  zsum lo1 hi1 (fun i => zsum lo2 hi2 (f i)) = zsum lo2 hi2 (fun j => zsum lo1 hi1 (fun i => f i j)).
Proof.
  unfold zsum at 1 4. induction (zrange lo1 hi1); cbn [map fold_right].
  - symmetry; apply zsum_zero. intros. unfold zsum. reflexivity.
  - rewrite IHl. rewrite <- zsum_add. apply zsum_ext. reflexivity.
Qed.

Lemma zsum_le lo hi f g : (forall i, lo <= i < hi -> f i <= g i) -> zsum lo hi f <= zsum lo hi g.
Proof.
  intros H. unfold zsum.
  assert (forall i, In i (zrange lo hi) -> f i <= g i) as H' by (intros; apply H; now apply in_zrange).
  clear H. induction (zrange lo hi); cbn [map fold_right]; [lia|].
  pose proof (H' a (or_introl eq_refl)). assert (forall i, In i l -> f i <= g i) by (intros; apply H'; now right).
  specialize (IHl H0). lia.
Qed.

(** Accumulating loop over a range is a sum. *)
Lemma fold_left_zsum lo hi f a : fold_left (fun s x => s + f x) (zrange lo hi) a = a + zsum lo hi f.
Proof.
  unfold zsum. revert a. induction (zrange lo hi); intros; cbn [fold_left map fold_right]; [lia|].
  rewrite IHl. lia.
Qed.

(** * Memories *)

(** Content of one buffer, by element index. [None] means that the index is outside of the buffer. *)
Definition mem := Z -> option Z.

Definition load (m : mem) (a : Z) : option Z := m a.
Definition store (m : mem) (a v : Z) : option mem :=
  match m a with
  | Some _ => Some (fun b => if b =? a then Some v else m b)
  | None => None
  end.

Definition allocated (m : mem) (a : Z) : Prop := m a <> None.

Lemma store_ok m a v : allocated m a -> store m a v = Some (fun b => if b =? a then Some v else m b).
Proof. unfold allocated, store. destruct (m a); congruence. Qed.

(** A loop of stores at addresses [addr i] of values [val i]: when every address is allocated and
    equal addresses get equal values, the loop succeeds, each address ends up with its value and
    everything else is unchanged. *)
Lemma foldM_store {A} (addr val : A -> Z) (f : A -> mem -> option mem) (l : list A) (m : mem) :
  (forall i m', In i l -> f i m' = store m' (addr i) (val i)) ->
  (forall i, In i l -> allocated m (addr i)) ->
  (forall i j, In i l -> In j l -> addr i = addr j -> val i = val j) ->
  exists m', foldM f l m = Some m'
    /\ (forall i, In i l -> m' (addr i) = Some (val i))
    /\ (forall a, (forall i, In i l -> addr i <> a) -> m' a = m a).
Proof.
  revert m. induction l as [|x l IH]; intros m Hf Ha Hc.
  - exists m. cbn. repeat split; auto. intros ? [].
  - cbn [foldM]. rewrite Hf by now left. rewrite store_ok by (apply Ha; now left).
    set (m1 := fun b => if b =? addr x then Some (val x) else m b).
    destruct (IH m1) as (m' & E & H1 & H2).
    + intros; apply Hf; now right.
    + intros i Hi. unfold allocated, m1. destruct (addr i =? addr x); [congruence|]. apply Ha; now right.
    + intros; apply Hc; auto; now right.
    + exists m'. split; [exact E|]. split.
      * intros i [<-|Hi]; [|auto].
        destruct (in_dec Z.eq_dec (addr x) (map addr l)) as [Hin|Hnin].
        { apply in_map_iff in Hin. destruct Hin as (j & Hj & Hjl). rewrite <- Hj, (H1 j Hjl).
          f_equal. apply Hc; [now right|now left|auto]. }
        rewrite H2. { unfold m1. now rewrite Z.eqb_refl. }
        intros j Hj Hjx. apply Hnin. rewrite <- Hjx. now apply in_map.
      * intros a Hna. rewrite H2 by (intros; apply Hna; now right).
        unfold m1. destruct (Z.eqb_spec a (addr x)); [|reflexivity].
        exfalso. apply (Hna x); [now left|auto].
Qed.

(** All elements of [m] are values of the signed n-bit type. *)
Definition mem_bits (n : Z) (m : mem) : Prop := forall a v, m a = Some v -> in_bits n v.

(** Invariant of a counting loop. *)
Lemma zloop_inv {S} (f : Z -> S -> option S) (P : Z -> S -> Prop) n s : 0 <= n -> P 0 s ->
  (forall k s, 0 <= k < n -> P k s -> exists s', f k s = Some s' /\ P (k + 1) s') ->
  exists s', foldM f (zrange 0 n) s = Some s' /\ P n s'.
Proof.
  intros Hn H0 Hf.
  assert (G : forall d : nat, Z.of_nat d <= n -> exists s', foldM f (zrange 0 (Z.of_nat d)) s = Some s' /\ P (Z.of_nat d) s').
  { induction d; intros Hd.
    - exists s. rewrite zrange_nil by lia. split; [reflexivity|exact H0].
    - destruct IHd as (s1 & E1 & P1); [lia|]. destruct (Hf (Z.of_nat d) s1 ltac:(lia) P1) as (s2 & E2 & P2).
      exists s2. replace (Z.of_nat (Datatypes.S d)) with (Z.of_nat d + 1) by lia.
      rewrite zrange_snoc, foldM_app, E1 by lia. cbn [bind foldM]. rewrite E2. auto. }
  specialize (G (Z.to_nat n)). rewrite Z2Nat.id in G by lia. apply G. lia.
Qed.
