(** Proofs about permute (C17, C18). *)
From Coq Require Import ZArith List Lia Bool Permutation.
From Verif Require Import Base Tensor TensorProofs Permute.
Import ListNotations.
Open Scope Z_scope.

(** * Addresses under permutation *)

Definition lsum (l : list Z) : Z := fold_right Z.add 0 l.

Lemma lsum_perm l l' : Permutation l l' -> lsum l = lsum l'.
Proof. induction 1; unfold lsum in *; cbn [fold_right]; lia. Qed.

Lemma addr_sum st : forall c, length st = length c ->
  addr st c = lsum (map (fun j => nth j st 0 * nth j c 0) (seq 0 (length c))).
Proof.
  induction st as [|s st IH]; intros [|i c]; cbn [length]; try lia; [reflexivity|]. intros H.
  cbn [seq map lsum fold_right addr nth]. fold (lsum (map (fun j => nth j (s :: st) 0 * nth j (i :: c) 0) (seq 1 (length c)))).
  rewrite <- seq_shift, map_map. cbn [nth]. rewrite <- IH by lia. reflexivity.
Qed.

Lemma map_nth_seq {A} (d : A) l : map (fun k => nth k l d) (seq 0 (length l)) = l.
Proof.
  induction l; cbn [length seq map nth]; [reflexivity|]. f_equal. rewrite <- seq_shift, map_map. apply IHl.
Qed.

Lemma addr_perm perm st p c :
  Permutation perm (seq 0 (length perm)) -> length st = length perm -> length p = length perm -> length c = length perm ->
  (forall d, (d < length perm)%nat -> nth d c 0 = nth (nth d perm 0%nat) p 0) ->
  addr (map (fun j => nth j st 0) perm) c = addr st p.
Proof.
  intros HP H1 H2 H3 H. rewrite !addr_sum by (try rewrite map_length; lia).
  rewrite H2, H3. rewrite <- (lsum_perm _ _ (Permutation_map (fun j => nth j st 0 * nth j p 0) HP)).
  f_equal. rewrite <- (map_nth_seq 0%nat perm) at 2. rewrite map_map. apply map_ext_in. intros d Hd. apply in_seq in Hd.
  rewrite H by lia. f_equal. rewrite nth_indep with (d' := nth 0 st 0) by (rewrite map_length; lia). exact (map_nth (fun j => nth j st 0) perm 0%nat d).
Qed.

(** * Loops over padded shapes *)

Lemma pad4_eq d l : (length l <= 4)%nat -> pad4 d l = l ++ repeat d (4 - length l).
Proof.
  intros H. unfold pad4. rewrite firstn_app, firstn_all2 by lia. f_equal.
  assert (forall n m, (n <= m)%nat -> firstn n (repeat d m) = repeat d n) as E.
  { induction n; intros [|m]; cbn; try lia; auto. intros. f_equal. apply IHn; lia. }
  apply E. lia.
Qed.

Lemma coords_pad sh k : coords (sh ++ repeat 1 k) = map (fun c => c ++ repeat 0 k) (coords sh).
Proof.
  induction sh as [|d sh IH]; cbn [app coords].
  - induction k; [reflexivity|]. cbn [repeat coords]. rewrite IHk. cbn. reflexivity.
  - rewrite IH. induction (zrange 0 d); cbn [flat_map map]; [reflexivity|]. rewrite map_app, <- IHl. f_equal.
    rewrite !map_map. reflexivity.
Qed.

Lemma addr_pad st c k : length st = length c -> addr (st ++ repeat 0 k) (c ++ repeat 0 k) = addr st c.
Proof.
  intros H. rewrite addr_app by auto. replace (addr (repeat 0 k) (repeat 0 k)) with 0; [lia|].
  induction k; cbn [repeat addr]; lia.
Qed.

(** The pointer-increment loop nest visits the coordinates in row-major order at their addresses. *)
Lemma perm_loop_spec min sh : forall os is ipos pos m,
  length os = length sh -> length is = length sh -> Forall (fun n => 0 <= n) sh ->
  perm_loop min (combine (combine sh (perm_increments sh os)) is) ipos (pos, m)
  = bind (foldM (fun c m => do v <- min (ipos + addr is c); store m (pos + addr os c) v) (coords sh) m)
         (fun m' => Some (pos + match sh, os with n :: _, s :: _ => n * s | _, _ => 0 end, m')).
Proof.
  induction sh as [|n sh IH]; intros [|s os] [|i is] ipos pos m; cbn [length]; try lia; intros H1 H2 H3.
  - cbn [perm_increments combine perm_loop coords foldM addr snd fst]. rewrite !Z.add_0_r. unfold load.
    destruct (min ipos); cbn [bind]; [|reflexivity]. destruct (store m pos z); reflexivity.
  - inversion H3; subst. cbn [perm_increments combine perm_loop].
    set (inc := match sh with [] => s | n' :: _ => _ end).
    (* one iteration *)
    assert (Hit : forall d pos m, 
      bind (perm_loop min (combine (combine sh (perm_increments sh os)) is) (ipos + d * i) (pos, m))
           (fun st' => Some (fst st' + inc, snd st'))
      = bind (foldM (fun c m => do v <- min (ipos + d * i + addr is c); store m (pos + addr os c) v) (coords sh) m)
             (fun m' => Some (pos + s, m'))).
    { intros d pos' m'. rewrite IH by (auto; lia).
      destruct (foldM _ (coords sh) m'); cbn [bind fst snd]; [|reflexivity]. f_equal. f_equal.
      unfold inc. destruct sh as [|n' sh], os as [|s' os]; cbn in H1; try lia. }
    (* the loop, from d0 on *)
    assert (Hl : forall k d0 pos m, Z.of_nat k = n - d0 -> 0 <= d0 ->
      foldM (fun d st => bind (perm_loop min (combine (combine sh (perm_increments sh os)) is) (ipos + d * i) st)
               (fun st' => Some (fst st' + inc, snd st'))) (zrange d0 n) (pos, m)
      = bind (foldM (fun c m => do v <- min (ipos + addr (i :: is) c); store m (pos - d0 * s + addr (s :: os) c) v)
                 (flat_map (fun d => map (cons d) (coords sh)) (zrange d0 n)) m)
             (fun m' => Some (pos + (n - d0) * s, m'))).
    { induction k; intros d0 pos' m' Hk Hd0.
      - rewrite zrange_nil by lia. cbn [foldM flat_map bind]. f_equal. f_equal. lia.
      - rewrite zrange_cons by lia. cbn [foldM flat_map]. rewrite Hit. rewrite foldM_app.
        assert (Em : forall l m0, foldM (fun c m => do v <- min (ipos + addr (i :: is) c); store m (pos' - d0 * s + addr (s :: os) c) v) (map (cons d0) l) m0
           = foldM (fun c m => do v <- min (ipos + d0 * i + addr is c); store m (pos' + addr os c) v) l m0).
        { induction l as [|c l IHl]; intros m0; cbn [map foldM]; [reflexivity|]. cbn [addr].
          replace (ipos + (i * d0 + addr is c)) with (ipos + d0 * i + addr is c) by lia.
          replace (pos' - d0 * s + (s * d0 + addr os c)) with (pos' + addr os c) by lia.
          destruct (do v <- min (ipos + d0 * i + addr is c); store m0 (pos' + addr os c) v); auto. }
        rewrite Em. destruct (foldM _ (coords sh) m') as [m1|]; cbn [bind]; [|reflexivity].
        rewrite IHk by lia. replace (pos' + s - (d0 + 1) * s) with (pos' - d0 * s) by lia.
        destruct (foldM _ (flat_map _ _) m1); cbn [bind]; [|reflexivity]. f_equal. f_equal. lia. }
    rewrite (Hl (Z.to_nat n) 0 pos m) by lia. cbn [coords]. replace (pos - 0 * s) with pos by lia.
    destruct (foldM _ _ m); cbn [bind]; [|reflexivity]. f_equal. f_equal. lia.
Qed.

(** * C17 *)

(** No 32-bit overflow in the checker for this tensor (see [chk_tensor_sound]). *)
Definition fits32 (t : tensor) : Prop :=
  length (t_shape t) = length (t_stride t) /\ 1 <= t_esz t
  /\ Forall (fun ds => in_bits 32 (fst ds * snd ds)) (combine (t_shape t) (t_stride t))
  /\ span (t_shape t) (t_stride t) * t_esz t <= 2 ^ 31 - 1.

(** The buffer really has the capacity the tensor declares. *)
Definition backed (t : tensor) (m : mem) : Prop :=
  forall a, 0 <= a -> (a + 1) * t_esz t <= t_cap t -> allocated m (t_data t + a).

Lemma chk_backed t m : fits32 t -> chk_tensor t = ST_OK -> backed t m ->
  forall c, valid (t_shape t) c -> allocated m (t_data t + addr (t_stride t) c).
Proof.
  intros (H1 & H2 & H3 & H4) Hc Hb c Hv. destruct (chk_tensor_sound t H1 H2 H3 H4 Hc) as [Hin _].
  destruct (Hin c Hv). apply Hb; nia.
Qed.

Lemma chk_tensor_pos t : chk_tensor t = ST_OK -> length (t_shape t) = length (t_stride t) ->
  (length (t_shape t) <= 4)%nat /\ Forall (fun d => 0 < d) (t_shape t) /\ Forall (fun d => 0 < d) (t_stride t).
Proof.
  intros Hct Hl. unfold chk_tensor, check_tensor_private in Hct.
  destruct (Z.leb_spec (Z.of_nat (length (t_shape t))) 4); cbn [negb orb] in Hct; [|discriminate].
  destruct (negb (t_cap t <=? 2 ^ 31 - 1)); [discriminate|].
  destruct (forallb dim_ok (combine (t_shape t) (t_stride t))) eqn:Hd; cbn [negb] in Hct; [|discriminate].
  split; [lia|]. clear - Hd Hl. revert Hd Hl. generalize (t_stride t).
  induction (t_shape t) as [|d sh IH]; intros [|s st]; cbn [length combine forallb]; try lia; auto.
  intros H1 H2. apply andb_true_iff in H1. destruct H1 as [H1 H3]. unfold dim_ok in H1.
  destruct (IH st) as [A B]; [auto|lia|]. split; constructor; auto; lia.
Qed.

Lemma perm_unique_NoDup l : perm_unique l = true -> NoDup l.
Proof.
  induction l; cbn; [constructor|]. intros H. apply andb_true_iff in H. destruct H as [H1 H2].
  constructor; [|auto]. intros Hin. rewrite forallb_forall in H1. specialize (H1 _ Hin).
  rewrite Nat.eqb_refl in H1. discriminate.
Qed.

Lemma perm_ok perm r : length perm = r -> forallb (fun p => Nat.ltb p r) perm = true -> perm_unique perm = true ->
  Permutation perm (seq 0 r).
Proof.
  intros Hl Hr Hu. apply NoDup_Permutation_bis.
  - now apply perm_unique_NoDup.
  - rewrite seq_length. lia.
  - intros x Hx. rewrite forallb_forall in Hr. specialize (Hr _ Hx). apply Nat.ltb_lt in Hr. apply in_seq. lia.
Qed.

Lemma valid_nth sh c : length c = length sh -> (forall d, (d < length sh)%nat -> 0 <= nth d c 0 < nth d sh 1) -> valid sh c.
Proof.
  revert c; induction sh as [|n sh IH]; intros [|i c]; cbn [length valid]; try lia; auto. intros Hl H. split.
  - apply (H 0%nat). lia.
  - apply IH; [lia|]. intros d Hd. apply (H (S d)). lia.
Qed.

Lemma nth_valid sh c d : valid sh c -> (d < length sh)%nat -> 0 <= nth d c 0 < nth d sh 1.
Proof.
  revert c d; induction sh as [|n sh IH]; intros [|i c] [|d]; cbn [length valid nth]; try lia; try tauto.
  intros [_ Hv] Hd. apply IH; auto. lia.
Qed.

(** The input coordinate of an output coordinate: entry perm[d] of [p] is entry d of [c]. *)
Definition permuted (perm : list nat) (c p : list Z) : Prop :=
  length p = length perm /\ length c = length perm
  /\ forall d, (d < length perm)%nat -> nth (nth d perm 0%nat) p 0 = nth d c 0.

Lemma permuted_exists perm c : Permutation perm (seq 0 (length perm)) -> length c = length perm -> exists p, permuted perm c p.
Proof.
  intros HP Hc.
  (* position of j in perm *)
  assert (Hpos : forall j, (j < length perm)%nat -> exists d, (d < length perm)%nat /\ nth d perm 0%nat = j).
  { intros j Hj. assert (In j perm) as Hin by (eapply Permutation_in; [symmetry; exact HP|]; apply in_seq; lia).
    apply In_nth with (d := 0%nat) in Hin. destruct Hin as (d & H1 & H2). eauto. }
  assert (Hg : forall n, (n <= length perm)%nat -> exists p, length p = n /\ forall d, (d < length perm)%nat ->
     (nth d perm 0%nat < n)%nat -> nth (nth d perm 0%nat) p 0 = nth d c 0).
  { induction n; intros Hn.
    - exists []. split; [reflexivity|]. intros; lia.
    - destruct IHn as (p & Hp1 & Hp2); [lia|]. destruct (Hpos n ltac:(lia)) as (e & He1 & He2).
      exists (p ++ [nth e c 0]). split; [rewrite app_length; cbn; lia|]. intros d Hd Hlt.
      destruct (Nat.eq_dec (nth d perm 0%nat) n) as [E|E].
      + rewrite E. rewrite app_nth2 by lia. rewrite Hp1, Nat.sub_diag. cbn.
        assert (NoDup perm) as HN by (eapply Permutation_NoDup; [symmetry; exact HP|apply seq_NoDup]).
        rewrite (NoDup_nth perm 0%nat) in HN. f_equal. symmetry. apply HN; auto. congruence.
      + rewrite app_nth1 by lia. apply Hp2; auto. lia. }
  destruct (Hg (length perm) (le_n _)) as (p & H1 & H2). exists p. split; [auto|]. split; [auto|].
  intros d Hd. apply H2; auto. assert (In (nth d perm 0%nat) (seq 0 (length perm))) as Hin.
  { eapply Permutation_in; [exact HP|]. now apply nth_In. } apply in_seq in Hin. lia.
Qed.

Lemma permuted_valid perm sh osh c p : Permutation perm (seq 0 (length perm)) ->
  length sh = length perm -> length osh = length perm ->
  (forall d, (d < length perm)%nat -> nth d osh 1 = nth (nth d perm 0%nat) sh 1) ->
  permuted perm c p -> (valid osh c <-> valid sh p).
Proof.
  intros HP H1 H2 Hs (L1 & L2 & H). split; intros Hv.
  - apply valid_nth; [lia|]. intros j Hj.
    assert (In j perm) as Hin by (eapply Permutation_in; [symmetry; exact HP|]; apply in_seq; lia).
    apply In_nth with (d := 0%nat) in Hin. destruct Hin as (d & Hd1 & <-).
    rewrite H, <- Hs by auto. apply nth_valid; auto. lia.
  - apply valid_nth; [lia|]. intros d Hd. rewrite <- H, Hs by lia. apply nth_valid; auto.
    assert (In (nth d perm 0%nat) (seq 0 (length perm))) as Hin.
    { eapply Permutation_in; [exact HP|]. apply nth_In. lia. } apply in_seq in Hin. lia.
Qed.

(** C17. When the checker accepts: the kernel terminates without leaving the buffers, each output
    element is the input element with permuted coordinates, and no other location is written. *)
Theorem permute_correct tin tout perm min mout :
  fits32 tin -> fits32 tout -> length perm = length (t_shape tin) -> length (t_shape tout) = length (t_shape tin) ->
  backed tin min -> backed tout mout ->
  chk_permute tin tout perm = ST_OK ->
  exists m', permute_run tin tout perm min mout = Some m'
  /\ (forall c, valid (t_shape tout) c -> exists p, permuted perm c p)
  /\ (forall c p, permuted perm c p -> valid (t_shape tout) c ->
        valid (t_shape tin) p
        /\ m' (t_data tout + addr (t_stride tout) c) = min (t_data tin + addr (t_stride tin) p)
        /\ m' (t_data tout + addr (t_stride tout) c) <> None)
  /\ (forall a, (forall c, valid (t_shape tout) c -> t_data tout + addr (t_stride tout) c <> a) -> m' a = mout a).
Proof.
  intros Fi Fo Hlp Hlo Bi Bo Hchk. unfold chk_permute in Hchk.
  destruct (chk_tensor tin) eqn:Ci; try discriminate. destruct (chk_tensor tout) eqn:Co; try discriminate.
  destruct (forallb (fun p => Nat.ltb p (length (t_shape tin))) perm) eqn:Hr; cbn [andb negb] in Hchk; [|discriminate].
  destruct (perm_unique perm) eqn:Hu; cbn [negb] in Hchk; [|discriminate].
  destruct (forallb _ (combine _ perm)) eqn:Hs; cbn [negb] in Hchk; [|discriminate]. clear Hchk.
  rewrite <- Hlp in Hr, Hs.
  pose proof (perm_ok perm (length perm) eq_refl Hr Hu) as HP.
  assert (Hsh : forall d, (d < length perm)%nat -> nth d (t_shape tout) 1 = nth (nth d perm 0%nat) (t_shape tin) 1).
  { intros d Hd. rewrite forallb_forall in Hs. apply Z.eqb_eq.
    apply (Hs (d, nth d perm 0%nat)). 
    assert (E : (d, nth d perm 0%nat) = nth d (combine (seq 0 (length perm)) perm) (0%nat, 0%nat))
      by (rewrite combine_nth by (now rewrite seq_length); rewrite seq_nth by auto; reflexivity).
    rewrite E. apply nth_In. rewrite combine_length, seq_length. lia. }
  destruct (chk_tensor_pos tin Ci (proj1 Fi)) as (R4 & Pi & _). destruct (chk_tensor_pos tout Co (proj1 Fo)) as (_ & Po & _).
  pose proof (proj1 Fi) as Li. pose proof (proj1 Fo) as Lo.
  set (r := length perm) in *.
  (* the loop *)
  unfold permute_run. rewrite <- Hlp. fold r.
  set (dims_in := map (fun p => nth p (pad4 0 (t_stride tin)) 0) (perm ++ seq r (4 - r))).
  assert (Edi : dims_in = map (fun j => nth j (t_stride tin) 0) perm ++ repeat 0 (4 - r)).
  { unfold dims_in. rewrite map_app. rewrite pad4_eq by lia. replace (length (t_stride tin)) with r by lia. f_equal.
    - apply map_ext_in. intros j Hj. rewrite app_nth1; [reflexivity|].
      rewrite forallb_forall in Hr. specialize (Hr _ Hj). apply Nat.ltb_lt in Hr. lia.
    - assert (E : forall k s, (r <= s)%nat -> map (fun p => nth p (t_stride tin ++ repeat 0 (4 - r)) 0) (seq s k) = repeat 0 k).
      { induction k; intros s Hsge; cbn [seq map repeat]; [reflexivity|]. f_equal; [|apply IHk; lia].
        rewrite app_nth2 by lia. apply nth_repeat. }
      apply E. lia. }
  rewrite perm_loop_spec.
  2:{ rewrite !pad4_eq, !app_length, !repeat_length by lia. lia. }
  2:{ rewrite Edi, pad4_eq, !app_length, map_length, !repeat_length by lia. fold r. lia. }
  2:{ rewrite pad4_eq by lia. apply Forall_app. split.
      - eapply Forall_impl; [|exact Po]. cbn; lia.
      - clear. induction (4 - length (t_shape tout))%nat; cbn; constructor; auto; lia. }
  rewrite Edi, !pad4_eq by lia. rewrite coords_pad.
  replace (4 - length (t_stride tout))%nat with (4 - r)%nat by lia. replace (4 - length (t_shape tout))%nat with (4 - r)%nat by lia.
  assert (Hin : forall c p, permuted perm c p -> addr (map (fun j => nth j (t_stride tin) 0) perm) c = addr (t_stride tin) p).
  { intros c p (L1 & L2 & H). apply addr_perm; auto; [fold r; lia|]. intros. now rewrite H. }
  assert (Hex : forall c, valid (t_shape tout) c -> exists p, permuted perm c p).
  { intros c Hv. apply permuted_exists; auto. rewrite (valid_length _ _ Hv). fold r. lia. }
  assert (Hvp : forall c p, permuted perm c p -> valid (t_shape tout) c -> valid (t_shape tin) p).
  { intros c p Hcp Hv. eapply (permuted_valid perm (t_shape tin) (t_shape tout) c p); eauto. fold r; lia. }
  set (k := (4 - r)%nat) in *.
  set (f := fun c m => do v <- min (t_data tin + addr (map (fun j => nth j (t_stride tin) 0) perm ++ repeat 0 k) c);
                       store m (t_data tout + addr (t_stride tout ++ repeat 0 k) c) v).
  set (istr := map (fun j => nth j (t_stride tin) 0) perm) in *.
  assert (Hist : length istr = r) by (unfold istr; now rewrite map_length).
  set (val := fun c => match min (t_data tin + addr istr c) with Some v => v | None => 0 end).
  assert (Em : forall l m, (forall c, In c l -> valid (t_shape tout) c) ->
     foldM f (map (fun c => c ++ repeat 0 k) l) m = foldM (fun c m => store m (t_data tout + addr (t_stride tout) c) (val c)) l m).
  { induction l as [|c l IHl]; intros m Hl; cbn [map foldM]; [reflexivity|].
    assert (Hv : valid (t_shape tout) c) by (apply Hl; now left). pose proof (valid_length _ _ Hv) as Hlc.
    unfold f at 1. rewrite !addr_pad by lia. destruct (Hex c Hv) as (p & Hp).
    pose proof (chk_backed tin min Fi Ci Bi p (Hvp c p Hp Hv)) as Ha. rewrite <- (Hin c p Hp) in Ha.
    unfold val at 1. unfold allocated in Ha. destruct (min (t_data tin + addr istr c)); [|congruence]. cbn [bind].
    destruct (store m _ z); [|reflexivity]. apply IHl. intros; apply Hl; now right. }
  rewrite Em by (intros c Hc; now apply in_coords).
  destruct (foldM_store (fun c => t_data tout + addr (t_stride tout) c) val
              (fun c m => store m (t_data tout + addr (t_stride tout) c) (val c)) (coords (t_shape tout)) mout) as (m' & E & W & U).
  - reflexivity.
  - intros c Hc. apply (chk_backed tout mout Fo Co Bo). now apply in_coords.
  - intros c1 c2 H1 H2 He. f_equal. destruct Fo as (O1 & O2 & O3 & O4).
    destruct (chk_tensor_sound tout O1 O2 O3 O4 Co) as [_ Hinj]. apply Hinj; [now apply in_coords|now apply in_coords|lia].
  - rewrite E. cbn [bind snd]. exists m'. split; [reflexivity|]. split; [exact Hex|]. split.
    + intros c p Hp Hv. split; [eauto|].
      pose proof (chk_backed tin min Fi Ci Bi p (Hvp c p Hp Hv)) as Ha. unfold allocated in Ha.
      rewrite (W c) by (now apply in_coords). unfold val. rewrite (Hin c p Hp).
      destruct (min (t_data tin + addr (t_stride tin) p)); [|congruence]. split; [reflexivity|discriminate].
    + intros a Ha. apply U. intros c Hc. apply Ha. now apply in_coords.
Qed.

(** The quantization axis follows its dimension: parameter entry of output coordinate c is that of the
    input coordinate p. *)
Theorem permute_qdim_correct tin perm c p :
  length perm = length (t_shape tin) -> Permutation perm (seq 0 (length perm)) ->
  0 <= t_qdim tin < t_rank tin -> permuted perm c p ->
  0 <= permute_qdim tin perm < t_rank tin
  /\ nth (Z.to_nat (permute_qdim tin perm)) c 0 = nth (Z.to_nat (t_qdim tin)) p 0.
Proof.
  intros Hl HP Hq (L1 & L2 & H). unfold permute_qdim. destruct (Z.ltb_spec (t_qdim tin) 0); [lia|].
  assert (Hin : In (Z.to_nat (t_qdim tin)) perm).
  { eapply Permutation_in; [symmetry; exact HP|]. apply in_seq. unfold t_rank in Hq. lia. }
  assert (G : forall l k, In (Z.to_nat (t_qdim tin)) l -> exists d, (d < length l)%nat /\ perm_find k l (t_qdim tin) = Z.of_nat (k + d)
              /\ nth d l 0%nat = Z.to_nat (t_qdim tin)).
  { induction l as [|a l IH]; intros k; cbn [In]; [tauto|]. cbn [perm_find length]. destruct (Z.eqb_spec (Z.of_nat a) (t_qdim tin)).
    - intros _. exists 0%nat. cbn. repeat split; lia.
    - intros [Ha|Ha]; [lia|]. destruct (IH (S k) Ha) as (d & A & B & C). exists (S d). cbn. repeat split; [lia|rewrite B; f_equal; lia|auto]. }
  destruct (G perm 0%nat Hin) as (d & A & B & C). rewrite B. rewrite Nat.add_0_l, Nat2Z.id. unfold t_rank. split; [lia|].
  rewrite <- C. symmetry. apply H. auto.
Qed.

(** * C18: permuting back *)

Definition inverse_perm (p q : list nat) : Prop :=
  length p = length q /\ forall d, (d < length p)%nat -> nth (nth d q 0%nat) p 0%nat = d.

Theorem permute_inverse tin tmid tout perm inv m0 m1 m2 mid out :
  fits32 tin -> fits32 tmid -> fits32 tout ->
  length perm = length (t_shape tin) -> length (t_shape tmid) = length (t_shape tin) -> length (t_shape tout) = length (t_shape tin) ->
  backed tin m0 -> backed tmid m1 -> backed tout m2 -> inverse_perm perm inv ->
  chk_permute tin tmid perm = ST_OK -> permute_run tin tmid perm m0 m1 = Some mid ->
  chk_permute tmid tout inv = ST_OK -> permute_run tmid tout inv mid m2 = Some out ->
  t_shape tout = t_shape tin
  /\ forall c, valid (t_shape tin) c ->
       out (t_data tout + addr (t_stride tout) c) = m0 (t_data tin + addr (t_stride tin) c).
Proof.
  intros F0 F1 F2 Lp L1 L2 B0 B1 B2 [Li Hinv] C1 R1 C2 R2.
  destruct (permute_correct tin tmid perm m0 m1) as (mid' & E1 & X1 & W1 & U1); auto.
  rewrite R1 in E1. inversion E1; subst mid'; clear E1.
  assert (Bm : backed tmid mid).
  { intros a Ha1 Ha2. unfold allocated.
    destruct (in_dec Z.eq_dec (t_data tmid + a) (map (fun c => t_data tmid + addr (t_stride tmid) c) (coords (t_shape tmid)))) as [Hin|Hnin].
    - apply in_map_iff in Hin. destruct Hin as (c & <- & Hc). apply in_coords in Hc.
      destruct (X1 c Hc) as (p & Hp). apply (W1 c p Hp Hc).
    - rewrite U1; [apply B1; auto|]. intros c Hc E. apply Hnin. apply in_map_iff. exists c. split; [auto|now apply in_coords]. }
  destruct (permute_correct tmid tout inv mid m2) as (out' & E2 & X2 & W2 & _); auto; try lia.
  rewrite R2 in E2. inversion E2; subst out'; clear E2.
  (* shapes *)
  assert (Hs : forall ti to p, length p = length (t_shape ti) -> chk_permute ti to p = ST_OK ->
     forall d, (d < length p)%nat -> nth d (t_shape to) 1 = nth (nth d p 0%nat) (t_shape ti) 1).
  { clear. intros ti to p Hl Hchk d Hd. unfold chk_permute in Hchk.
    destruct (chk_tensor ti); try discriminate. destruct (chk_tensor to); try discriminate.
    destruct (negb _) eqn:Hr; [discriminate|]. destruct (forallb _ (combine _ p)) eqn:Hs; cbn [negb] in Hchk; [|discriminate].
    rewrite <- Hl in Hs. rewrite forallb_forall in Hs. apply Z.eqb_eq.
    apply (Hs (d, nth d p 0%nat)). 
    assert (E : (d, nth d p 0%nat) = nth d (combine (seq 0 (length p)) p) (0%nat, 0%nat))
      by (rewrite combine_nth by (now rewrite seq_length); rewrite seq_nth by auto; reflexivity).
    rewrite E. apply nth_In. rewrite combine_length, seq_length. lia. }
  assert (Hrng : forall d, (d < length inv)%nat -> (nth d inv 0%nat < length perm)%nat).
  { intros d Hd. clear - Hd C2 Li L1 Lp. unfold chk_permute in C2.
    destruct (chk_tensor tmid); try discriminate. destruct (chk_tensor tout); try discriminate.
    destruct (forallb _ inv) eqn:Hr; cbn [andb negb] in C2; [|discriminate]. rewrite forallb_forall in Hr.
    specialize (Hr _ (nth_In _ 0%nat Hd)). apply Nat.ltb_lt in Hr. lia. }
  assert (Esh : t_shape tout = t_shape tin).
  { apply nth_ext with (d := 1) (d' := 1); [auto|]. intros d Hd.
    rewrite (Hs tmid tout inv) by (auto; lia). rewrite (Hs tin tmid perm) by (auto; apply Hrng; lia).
    rewrite Hinv by lia. reflexivity. }
  split; [exact Esh|]. intros c Hv. rewrite <- Esh in Hv.
  destruct (X2 c Hv) as (p & Hp). destruct (W2 c p Hp Hv) as (Hvp & -> & _).
  assert (Hpc : permuted perm p c).
  { destruct Hp as (Q1 & Q2 & Q3). split; [lia|]. split; [lia|]. intros d Hd.
    rewrite <- (Q3 (nth d perm 0%nat)).
    - f_equal. assert (Hd' : (nth d perm 0%nat < length inv)%nat).
      { clear - Hd C1 Li Lp. unfold chk_permute in C1.
        destruct (chk_tensor tin); try discriminate. destruct (chk_tensor tmid); try discriminate.
        destruct (forallb _ perm) eqn:Hr; cbn [andb negb] in C1; [|discriminate]. rewrite forallb_forall in Hr.
        specialize (Hr _ (nth_In _ 0%nat Hd)). apply Nat.ltb_lt in Hr. lia. }
      (* perm is injective and perm (inv (perm d)) = perm d *)
      assert (HN : NoDup perm).
      { clear - C1. unfold chk_permute in C1.
        destruct (chk_tensor tin); try discriminate. destruct (chk_tensor tmid); try discriminate.
        destruct (forallb _ perm); cbn [andb negb] in C1; [|discriminate].
        destruct (perm_unique perm) eqn:Hu; cbn [negb] in C1; [|discriminate]. now apply perm_unique_NoDup. }
      rewrite (NoDup_nth perm 0%nat) in HN. apply HN; auto. apply Hinv. lia.
    - clear - Hd C1 Li Lp. unfold chk_permute in C1.
      destruct (chk_tensor tin); try discriminate. destruct (chk_tensor tmid); try discriminate.
      destruct (forallb _ perm) eqn:Hr; cbn [andb negb] in C1; [|discriminate]. rewrite forallb_forall in Hr.
      specialize (Hr _ (nth_In _ 0%nat Hd)). apply Nat.ltb_lt in Hr. lia. }
  apply (W1 p c Hpc Hvp).
Qed.

(** Non-trivial instance: a strided 2x3x4 tensor permuted by (2,0,1). *)
Example permute_ex :
  let tin := mkTensor 3 200 1 [2; 3; 4] [30; 9; 2] false (-1) 0 in
  let tout := mkTensor 0 24 1 [4; 2; 3] [6; 3; 1] false (-1) 0 in
  let min : mem := fun a => if (0 <=? a) && (a <? 300) then Some (a * a mod 127) else None in
  let mout : mem := fun a => if (0 <=? a) && (a <? 30) then Some 0 else None in
  chk_permute tin tout [2; 0; 1]%nat = ST_OK /\ fits32 tin /\ fits32 tout
  /\ match permute_run tin tout [2; 0; 1]%nat min mout with
      | Some m => m (6 * 3 + 3 * 1 + 2) = min (3 + 30 * 1 + 9 * 2 + 2 * 3) /\ m 24 = Some 0
      | None => False
      end.
Proof.
  split; [vm_compute; reflexivity|]. split; [|split].
  1,2: split; [reflexivity|]; split; [cbn; lia|]; split; [repeat constructor; cbn; lia|cbn; lia].
  vm_compute. split; reflexivity.
Qed.
