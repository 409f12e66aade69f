(** Proofs about data movement (C19-C22). *)
From Coq Require Import ZArith List Lia Bool Permutation.
From Verif Require Import Base Tensor TensorProofs Permute PermuteProofs Mov.
Import ListNotations.
Open Scope Z_scope.

(** * The transfer as one loop over the written coordinates *)

Lemma foldM_map {A B S} (g : A -> B) (f : B -> S -> option S) l s : foldM f (map g l) s = foldM (fun x => f (g x)) l s.
Proof. revert s; induction l; intros; cbn; [reflexivity|]. destruct (f (g a) s); auto. Qed.

Lemma foldM_coords {S} (f : list Z -> S -> option S) d sh s :
  foldM f (coords (d :: sh)) s = foldM (fun i s => foldM (fun c s => f (i :: c) s) (coords sh) s) (zrange 0 d) s.
Proof.
  cbn [coords]. revert s. induction (zrange 0 d); intros; cbn [flat_map foldM]; [reflexivity|].
  rewrite foldM_app, foldM_map. destruct (foldM _ (coords sh) s); cbn [bind]; auto.
Qed.

Lemma foldM_coords1 {S} (f : list Z -> S -> option S) d s :
  foldM f (coords [d]) s = foldM (fun i s => f [i] s) (zrange 0 d) s.
Proof. rewrite foldM_coords. apply foldM_ext. intros. cbn. destruct (f [x] s0); reflexivity. Qed.

(** Source position for output coordinate q, per output dimension. *)
Fixpoint mov_pos (q sub off pre : list Z) : list Z :=
  match q, sub, off, pre with
  | i :: q', s :: sub', o :: off', p :: pre' => i * s + o - p :: mov_pos q' sub' off' pre'
  | _, _, _, _ => []
  end.
Fixpoint inr (sh c : list Z) : bool :=
  match sh, c with
  | [], [] => true
  | d :: sh', i :: c' => (0 <=? i) && (i <? d) && inr sh' c'
  | _, _ => false
  end.

Lemma inr_valid sh c : inr sh c = true <-> valid sh c.
Proof.
  revert c; induction sh as [|d sh IH]; intros [|i c]; cbn [inr valid]; try (split; [discriminate|tauto]); try tauto.
  rewrite !andb_true_iff, IH, Z.leb_le, Z.ltb_lt. tauto.
Qed.

(** One element of the transfer: arrays in the order of the output dimensions. *)
Definition mov_elem (msrc : mem) (src dst : Z) (sub off pre shp sst dstr doff : list Z) (c : list Z) (m : mem) : option mem :=
  let sp := mov_pos c sub off pre in
  if inr shp sp then do v <- msrc (src + addr sst sp); store m (dst + addr dstr (zip_add c doff)) v
  else store m (dst + addr dstr (zip_add c doff)) 0.

Definition PS (o : mov_ord) (l : list Z) : list Z := map (psel o l) [0; 1; 2; 3]%nat.
Definition AT (l : list Z) : list Z := map (at_ l) [0; 1; 2; 3]%nat.

Lemma mov_basic_pad msrc src dst o m :
  mov_basic_operation msrc src dst o false m
  = foldM (mov_elem msrc src dst (PS o (o_sub o)) (PS o (o_off o)) (PS o (o_pre o)) (PS o (o_sshape o)) (PS o (o_sstr o))
             (AT (o_dstr o)) (AT (o_doff o))) (coords (AT (o_wsize o))) m.
Proof.
  unfold mov_basic_operation, AT at 3. cbn [map].
  rewrite foldM_coords. apply foldM_ext. intros p0 m0 _.
  rewrite foldM_coords. apply foldM_ext. intros p1 m1 _.
  rewrite foldM_coords. apply foldM_ext. intros p2 m2 _.
  rewrite foldM_coords1. unfold mov_inner_pad.
  set (s0 := p0 * _ + _ - _). set (s1 := p1 * _ + _ - _). set (s2 := p2 * _ + _ - _).
  destruct ((s0 <? 0) || (s0 >=? psel o (o_sshape o) 0) || ((s1 <? 0) || (s1 >=? psel o (o_sshape o) 1)) || ((s2 <? 0) || (s2 >=? psel o (o_sshape o) 2))) eqn:Hz.
  - apply foldM_ext. intros p3 m3 _. unfold mov_elem, PS, AT. cbn [map mov_pos inr zip_add addr].
    fold s0 s1 s2. replace ((0 <=? s0) && (s0 <? psel o (o_sshape o) 0) && ((0 <=? s1) && (s1 <? psel o (o_sshape o) 1) && ((0 <=? s2) && (s2 <? psel o (o_sshape o) 2) && ((0 <=? p3 * psel o (o_sub o) 3 + psel o (o_off o) 3 - psel o (o_pre o) 3) && (p3 * psel o (o_sub o) 3 + psel o (o_off o) 3 - psel o (o_pre o) 3 <? psel o (o_sshape o) 3) && true)))) with false by lia.
    f_equal. ring.
  - apply foldM_ext. intros p3 m3 _. unfold mov_elem, PS, AT. cbn [map mov_pos inr zip_add addr].
    fold s0 s1 s2. set (s3 := p3 * _ + _ - _).
    destruct ((s3 <? 0) || (s3 >=? psel o (o_sshape o) 3)) eqn:H3.
    + replace ((0 <=? s0) && (s0 <? psel o (o_sshape o) 0) && ((0 <=? s1) && (s1 <? psel o (o_sshape o) 1) && ((0 <=? s2) && (s2 <? psel o (o_sshape o) 2) && ((0 <=? s3) && (s3 <? psel o (o_sshape o) 3) && true)))) with false by lia.
      f_equal. ring.
    + replace ((0 <=? s0) && (s0 <? psel o (o_sshape o) 0) && ((0 <=? s1) && (s1 <? psel o (o_sshape o) 1) && ((0 <=? s2) && (s2 <? psel o (o_sshape o) 2) && ((0 <=? s3) && (s3 <? psel o (o_sshape o) 3) && true)))) with true by lia.
      unfold load. replace (src + (s0 * psel o (o_sstr o) 0 + s1 * psel o (o_sstr o) 1 + s2 * psel o (o_sstr o) 2) + s3 * psel o (o_sstr o) 3)
        with (src + (psel o (o_sstr o) 0 * s0 + (psel o (o_sstr o) 1 * s1 + (psel o (o_sstr o) 2 * s2 + (psel o (o_sstr o) 3 * s3 + 0))))) by ring.
      destruct (msrc _); cbn [bind]; [|reflexivity]. f_equal. ring.
Qed.

Lemma mov_basic_nopad msrc src dst o m :
  PS o (o_pre o) = [0; 0; 0; 0] ->
  (forall c, valid (AT (o_wsize o)) c -> inr (PS o (o_sshape o)) (mov_pos c (PS o (o_sub o)) (PS o (o_off o)) (PS o (o_pre o))) = true) ->
  mov_basic_operation msrc src dst o true m
  = foldM (mov_elem msrc src dst (PS o (o_sub o)) (PS o (o_off o)) (PS o (o_pre o)) (PS o (o_sshape o)) (PS o (o_sstr o))
             (AT (o_dstr o)) (AT (o_doff o))) (coords (AT (o_wsize o))) m.
Proof.
  intros Hp Hin. unfold mov_basic_operation. unfold AT at 3. cbn [map].
  rewrite foldM_coords. apply foldM_ext. intros p0 m0 H0.
  rewrite foldM_coords. apply foldM_ext. intros p1 m1 H1.
  rewrite foldM_coords. apply foldM_ext. intros p2 m2 H2.
  rewrite foldM_coords1. unfold mov_inner. apply foldM_ext. intros p3 m3 H3.
  apply in_zrange in H0, H1, H2, H3. unfold mov_elem.
  rewrite Hin by (unfold AT; cbn [map valid]; tauto). rewrite Hp. unfold PS, AT. cbn [map mov_pos zip_add addr]. unfold load.
  rewrite !Z.sub_0_r.
  match goal with |- context [msrc ?a] => match goal with |- _ = bind (msrc ?b) _ => replace b with a by ring end end.
  destruct (msrc _); cbn [bind]; [|reflexivity]. f_equal. ring.
Qed.

(** * Removing the alignment to four entries *)

Lemma AT_id l : length l = 4%nat -> AT l = l.
Proof. destruct l as [|? [|? [|? [|? [|]]]]]; cbn; intros; try lia. reflexivity. Qed.

Lemma ralign_length {A} (d : A) l : (length l <= 4)%nat -> length (ralign d l) = 4%nat.
Proof. intros. unfold ralign. rewrite app_length, repeat_length. lia. Qed.

Lemma PS_ordered src sst dstr cfg d l : length (mc_perm cfg) = length (t_shape src) -> (length (t_shape src) <= 4)%nat ->
  length l = length (t_shape src) -> (forall p, In p (mc_perm cfg) -> (p < length (t_shape src))%nat) ->
  PS (mov_ordered src sst dstr cfg) (ralign d l) = repeat d (4 - length (t_shape src)) ++ map (fun j => nth j l 0) (mc_perm cfg).
Proof.
  intros Hp H4 Hl Hr. unfold PS, psel. cbn [mov_ordered o_pdim]. set (k := (4 - length (t_shape src))%nat).
  set (pd := seq 0 k ++ map (fun p => (p + k)%nat) (mc_perm cfg)).
  assert (Lpd : length pd = 4%nat) by (unfold pd; rewrite app_length, seq_length, map_length; lia).
  transitivity (map (fun j => nth j (ralign d l) 0) (map (fun i => nth i pd 0%nat) (seq 0 4))).
  { rewrite map_map. reflexivity. }
  rewrite <- Lpd at 1. rewrite map_nth_seq. unfold pd. rewrite map_app. unfold ralign. rewrite Hl. fold k. f_equal.
  - assert (E : forall n s, (s + n <= k)%nat -> map (fun j => nth j (repeat d k ++ l) 0) (seq s n) = repeat d n).
    { induction n; intros s Hs; cbn [seq map repeat]; [reflexivity|]. f_equal; [|apply IHn; lia].
      rewrite app_nth1 by (rewrite repeat_length; lia). rewrite nth_indep with (d' := d) by (rewrite repeat_length; lia). apply nth_repeat. }
    apply E. lia.
  - rewrite map_map. apply map_ext. intros j. rewrite app_nth2 by (rewrite repeat_length; lia). rewrite repeat_length. f_equal. lia.
Qed.

Lemma coords_lpad sh k : coords (repeat 1 k ++ sh) = map (fun c => repeat 0 k ++ c) (coords sh).
Proof.
  induction k; cbn [repeat app]; [now rewrite map_id|]. cbn [coords]. rewrite IHk.
  replace (zrange 0 1) with [0] by reflexivity. cbn [flat_map]. rewrite app_nil_r, map_map. reflexivity.
Qed.

Lemma mov_pos_lpad k q s o p : mov_pos (repeat 0 k ++ q) (repeat 1 k ++ s) (repeat 0 k ++ o) (repeat 0 k ++ p) = repeat 0 k ++ mov_pos q s o p.
Proof. induction k; cbn [repeat app mov_pos]; [reflexivity|]. now rewrite IHk. Qed.

Lemma inr_lpad k sh c : inr (repeat 1 k ++ sh) (repeat 0 k ++ c) = inr sh c.
Proof. induction k; cbn [repeat app inr]; [reflexivity|]. now rewrite IHk. Qed.

Lemma addr_lpad k st c : addr (repeat 0 k ++ st) (repeat 0 k ++ c) = addr st c.
Proof. induction k; cbn [repeat app addr]; [reflexivity|]. rewrite IHk. lia. Qed.

Lemma zip_add_lpad k a b : zip_add (repeat 0 k ++ a) (repeat 0 k ++ b) = repeat 0 k ++ zip_add a b.
Proof. induction k; cbn [repeat app zip_add]; [reflexivity|]. now rewrite IHk. Qed.

Lemma mov_elem_lpad msrc src dst k sub off pre shp sst dstr doff c m :
  mov_elem msrc src dst (repeat 1 k ++ sub) (repeat 0 k ++ off) (repeat 0 k ++ pre) (repeat 1 k ++ shp) (repeat 0 k ++ sst)
     (repeat 0 k ++ dstr) (repeat 0 k ++ doff) (repeat 0 k ++ c) m
  = mov_elem msrc src dst sub off pre shp sst dstr doff c m.
Proof. unfold mov_elem. now rewrite mov_pos_lpad, inr_lpad, zip_add_lpad, !addr_lpad. Qed.

(** Array [l] of the source dimensions in the order of the output dimensions. *)
Definition sel (cfg : mov_cfg) (l : list Z) : list Z := map (fun j => nth j l 0) (mc_perm cfg).

(** Well formed configuration for a source of a given rank. *)
Definition cfg_ok (src : tensor) (cfg : mov_cfg) : Prop :=
  let r := length (t_shape src) in
  length (mc_offset cfg) = r /\ length (mc_size cfg) = r /\ length (mc_sub cfg) = r /\ length (mc_dst_offset cfg) = r
  /\ length (mc_dst_stride cfg) = r /\ length (mc_perm cfg) = r /\ length (mc_pre cfg) = r /\ length (mc_post cfg) = r
  /\ Permutation (mc_perm cfg) (seq 0 r)
  /\ Forall (fun x => 0 < x) (mc_sub cfg)
  /\ Forall (fun x => 0 <= x) (mc_offset cfg) /\ Forall (fun x => 0 <= x) (mc_size cfg)
  /\ Forall (fun x => 0 <= x) (mc_dst_offset cfg)
  /\ Forall (fun x => 0 <= x) (mc_pre cfg) /\ Forall (fun x => 0 <= x) (mc_post cfg).

(** Without padding the selected region lies inside the source (the library does not check it). *)
Definition cfg_inside (src : tensor) (cfg : mov_cfg) : Prop :=
  mov_no_padding cfg = true ->
  forall j, (j < length (t_shape src))%nat ->
    nth j (mc_offset cfg) 0 <= nth j (t_shape src) 0
    /\ nth j (mc_offset cfg) 0 + nth j (mc_size cfg) 0 <= nth j (t_shape src) 0.

Definition mov_loop (msrc : mem) (src : tensor) (dst : Z) (dstr : list Z) (cfg : mov_cfg) (m : mem) : option mem :=
  foldM (mov_elem msrc (t_data src) dst (sel cfg (mc_sub cfg)) (sel cfg (mc_offset cfg)) (sel cfg (mc_pre cfg))
           (sel cfg (t_shape src)) (sel cfg (t_stride src)) dstr (mc_dst_offset cfg)) (coords (mov_write_size src cfg)) m.

Lemma zip_add_length a b : length a = length b -> length (zip_add a b) = length a.
Proof. revert b; induction a; intros [|y b]; cbn; try lia. intros. rewrite IHa; lia. Qed.

Lemma nth_forall {A} (P : A -> Prop) l j d : Forall P l -> (j < length l)%nat -> P (nth j l d).
Proof. intros H Hj. rewrite Forall_forall in H. apply H. now apply nth_In. Qed.

Lemma nopad_zero cfg l : forallb (Z.eqb 0) l = true -> sel cfg l = repeat 0 (length (mc_perm cfg)).
Proof.
  intros H. unfold sel. induction (mc_perm cfg) as [|p tl IH]; cbn [map length repeat]; [reflexivity|]. f_equal; [|exact IH].
  destruct (Nat.lt_ge_cases p (length l)) as [Hp|Hp]; [|now apply nth_overflow].
  rewrite forallb_forall in H. symmetry. apply Z.eqb_eq. apply H. now apply nth_In.
Qed.

(** Without padding every written coordinate has its source position inside the source. *)
Lemma nopad_inside src cfg q : cfg_ok src cfg -> cfg_inside src cfg -> mov_no_padding cfg = true ->
  valid (mov_write_size src cfg) q ->
  inr (sel cfg (t_shape src)) (mov_pos q (sel cfg (mc_sub cfg)) (sel cfg (mc_offset cfg)) (sel cfg (mc_pre cfg))) = true.
Proof.
  intros (L1 & L2 & L3 & L4 & L5 & L6 & L7 & L8 & HP & P1 & P2 & P3 & P4 & P5 & P6) Hin Hnp Hv.
  specialize (Hin Hnp). unfold mov_no_padding in Hnp. apply andb_true_iff in Hnp. destruct Hnp as [Np1 Np2].
  assert (Hr : forall p, In p (mc_perm cfg) -> (p < length (t_shape src))%nat).
  { intros p Hp. eapply Permutation_in in Hp; [|exact HP]. apply in_seq in Hp. lia. }
  unfold sel, mov_write_size in *. revert q Hv Hr. generalize (mc_perm cfg) as perm.
  induction perm as [|p perm IH]; intros [|i q]; cbn [map valid mov_pos inr]; try tauto.
  intros [Hi Hv] Hr. rewrite IH by (auto; intros; apply Hr; now right). rewrite andb_true_r.
  assert (Hp : (p < length (t_shape src))%nat) by (apply Hr; now left).
  assert (Hpre : forall l, length l = length (t_shape src) -> forallb (Z.eqb 0) l = true -> nth p l 0 = 0).
  { intros l Hl Hf. rewrite forallb_forall in Hf. symmetry. apply Z.eqb_eq, Hf, nth_In. lia. }
  rewrite (Hpre _ L7 Np1). destruct (Hin p Hp) as [Ho Hs].
  unfold mov_cpy_size in Hi. rewrite (Hpre _ L7 Np1), (Hpre _ L8 Np2) in Hi.
  pose proof (nth_forall _ _ p 0 P1 ltac:(lia)) as Hsub. pose proof (nth_forall _ _ p 0 P2 ltac:(lia)) as Hoff.
  cbn beta in Hsub, Hoff. set (sub := nth p (mc_sub cfg) 0) in *. set (off := nth p (mc_offset cfg) 0) in *.
  set (n := nth p (t_shape src) 0) in *. set (sz := nth p (mc_size cfg) 0) in *.
  assert (Hc : forall x, i < ceil_div x sub -> i * sub < x).
  { intros x Hx. unfold ceil_div in Hx. clear - Hx Hsub Hi. nia. }
  destruct Hi as [Hi0 Hi1]. apply Hc in Hi1. clear Hc.
  assert (0 <= i * sub) by nia. destruct (Z.gtb_spec sz 0); lia.
Qed.

(** The general path is the loop over the written coordinates. *)
Lemma mov_general_loop msrc src dst cfg m :
  cfg_ok src cfg -> cfg_inside src cfg -> (length (t_shape src) <= 4)%nat -> length (t_stride src) = length (t_shape src) ->
  length (t_stride dst) = length (t_shape src) ->
  mov_general msrc src dst (t_stride src) cfg m = mov_loop msrc src (t_data dst) (t_stride dst) cfg m.
Proof.
  intros Hok Hin H4 Hls Hld. pose proof Hok as (L1 & L2 & L3 & L4 & L5 & L6 & L7 & L8 & HP & P1 & P2 & P3 & P4 & P5 & P6).
  assert (Hr : forall p, In p (mc_perm cfg) -> (p < length (t_shape src))%nat).
  { intros p Hp. eapply Permutation_in in Hp; [|exact HP]. apply in_seq in Hp. lia. }
  unfold mov_general. set (o := mov_ordered src (t_stride src) (t_stride dst) cfg).
  set (k := (4 - length (t_shape src))%nat).
  assert (E1 : PS o (o_sub o) = repeat 1 k ++ sel cfg (mc_sub cfg)) by (apply PS_ordered; auto).
  assert (E2 : PS o (o_off o) = repeat 0 k ++ sel cfg (mc_offset cfg)) by (apply PS_ordered; auto).
  assert (E3 : PS o (o_pre o) = repeat 0 k ++ sel cfg (mc_pre cfg)) by (apply PS_ordered; auto).
  assert (E4 : PS o (o_sshape o) = repeat 1 k ++ sel cfg (t_shape src)) by (apply PS_ordered; auto).
  assert (E5 : PS o (o_sstr o) = repeat 0 k ++ sel cfg (t_stride src)) by (apply PS_ordered; auto).
  assert (Lw : length (mov_write_size src cfg) = length (t_shape src)) by (unfold mov_write_size; rewrite map_length; auto).
  assert (E6 : AT (o_dstr o) = repeat 0 k ++ t_stride dst).
  { rewrite AT_id by (apply ralign_length; lia). cbn [o mov_ordered o_dstr]. unfold ralign. now rewrite Hld. }
  assert (E7 : AT (o_doff o) = repeat 0 k ++ mc_dst_offset cfg).
  { rewrite AT_id by (apply ralign_length; lia). cbn [o mov_ordered o_doff]. unfold ralign. now rewrite L4. }
  assert (E8 : AT (o_wsize o) = repeat 1 k ++ mov_write_size src cfg).
  { rewrite AT_id by (apply ralign_length; lia). cbn [o mov_ordered o_wsize]. unfold ralign. now rewrite Lw. }
  assert (Hcommon : mov_basic_operation msrc (t_data src) (t_data dst) o (mov_no_padding cfg) m
    = foldM (mov_elem msrc (t_data src) (t_data dst) (PS o (o_sub o)) (PS o (o_off o)) (PS o (o_pre o)) (PS o (o_sshape o)) (PS o (o_sstr o))
             (AT (o_dstr o)) (AT (o_doff o))) (coords (AT (o_wsize o))) m).
  { destruct (mov_no_padding cfg) eqn:Hnp; [|apply mov_basic_pad]. apply mov_basic_nopad.
    - rewrite E3. pose proof Hnp as Hnp'. unfold mov_no_padding in Hnp'. apply andb_true_iff in Hnp'. destruct Hnp' as [Np1 _].
      rewrite (nopad_zero cfg _ Np1). rewrite <- repeat_app. replace (k + length (mc_perm cfg))%nat with 4%nat by lia. reflexivity.
    - intros c Hc. rewrite E8 in Hc. apply in_coords in Hc. rewrite coords_lpad in Hc. apply in_map_iff in Hc.
      destruct Hc as (q & <- & Hq). rewrite E1, E2, E3, E4, mov_pos_lpad, inr_lpad. apply nopad_inside; auto. now apply in_coords. }
  rewrite Hcommon, E1, E2, E3, E4, E5, E6, E7, E8, coords_lpad, foldM_map. unfold mov_loop. apply foldM_ext. intros. apply mov_elem_lpad.
Qed.

(** * The contiguous copy *)

Lemma contiguous_strides_pos sh : Forall (fun d => 0 <= d) sh -> visited sh (contiguous_strides sh) = zrange 0 (prod sh).
Proof.
  induction sh as [|d sh IH]; intros H; [reflexivity|]. inversion H; subst. cbn [contiguous_strides]. rewrite visited_cons, IH by auto.
  assert (E : match sh with [] => 1 | d' :: _ => match contiguous_strides sh with [] => 1 | s' :: _ => s' * d' end end = prod sh).
  { clear. induction sh as [|d' sh IH]; [reflexivity|]. cbn [contiguous_strides prod fold_right]. fold (prod sh). rewrite IH. ring. }
  assert (Ep : 0 <= prod sh).
  { clear - H3. induction sh; cbn; [lia|]. inversion H3; subst. fold (prod sh). specialize (IHsh H2). nia. }
  rewrite E. cbn [prod fold_right]. fold (prod sh). rewrite <- zrange_merge by lia. reflexivity.
Qed.

Lemma single_loop_spec idx sst dstr ssh dsh cfg : forall stride,
  mov_single_loop idx sst dstr ssh dsh cfg stride = true ->
  forall i, (i < idx)%nat ->
    nth i sst 0 = stride * prod (map (fun j => nth j ssh 0) (seq (S i) (idx - S i)))
    /\ nth i dstr 0 = stride * prod (map (fun j => nth j ssh 0) (seq (S i) (idx - S i)))
    /\ nth i ssh 0 = nth i dsh 0 /\ nth i (mc_pre cfg) 0 = 0 /\ nth i (mc_post cfg) 0 = 0
    /\ nth i (mc_perm cfg) 0%nat = i /\ nth i (mc_sub cfg) 0 = 1.
Proof.
  induction idx as [|n IH]; intros stride H i Hi; [lia|]. cbn [mov_single_loop] in H.
  rewrite !andb_true_iff in H. destruct H as [[[[[[[H1 H2] H3] H4] H5] H6] H7] H8].
  destruct (Nat.eq_dec i n) as [->|Hne].
  - replace (S n - S n)%nat with 0%nat by lia. cbn [seq map prod fold_right].
    apply Nat.eqb_eq in H6. repeat split; try lia; auto.
  - destruct (IH _ H8 i ltac:(lia)) as (A & B & C & D & E & F & G).
    replace (S n - S i)%nat with (S (n - S i))%nat by lia.
    assert (Es : prod (map (fun j => nth j ssh 0) (seq (S i) (S (n - S i)))) = prod (map (fun j => nth j ssh 0) (seq (S i) (n - S i))) * nth n ssh 0).
    { rewrite seq_S, map_app. replace (S i + (n - S i))%nat with n by lia. cbn [map]. clear.
      induction (map (fun j => nth j ssh 0) (seq (S i) (n - S i))); cbn [app prod fold_right]; [lia|]. fold (prod l). fold (prod (l ++ [nth n ssh 0])) in *. rewrite IHl. ring. }
    rewrite Es. repeat split; auto; lia.
Qed.

Lemma contiguous_nth sh : forall i, (i < length sh)%nat ->
  nth i (contiguous_strides sh) 0 = prod (map (fun j => nth j sh 0) (seq (S i) (length sh - S i))).
Proof.
  induction sh as [|d sh IH]; intros i Hi; cbn [length] in Hi; [lia|]. cbn [contiguous_strides length].
  destruct i as [|i]; cbn [nth].
  - replace (S (length sh) - 1)%nat with (length sh) by lia.
    assert (Em : map (fun j => match j with O => d | S m => nth m sh 0 end) (seq 1 (length sh)) = sh)
      by (rewrite <- seq_shift, map_map; apply map_nth_seq).
    rewrite Em.
    clear. induction sh as [|d' sh IH]; [reflexivity|]. cbn [contiguous_strides prod fold_right]. fold (prod sh). rewrite IH. ring.
  - rewrite IH by lia. replace (S (length sh) - S (S i))%nat with (length sh - S i)%nat by lia.
    rewrite <- (seq_shift _ (S i)), map_map. reflexivity.
Qed.

Lemma single_contiguous st sh idx : length st = length sh -> idx = length sh ->
  (forall i, (i < idx)%nat -> nth i st 0 = 1 * prod (map (fun j => nth j sh 0) (seq (S i) (idx - S i)))) -> st = contiguous_strides sh.
Proof.
  intros Hl -> H. apply nth_ext with (d := 0) (d' := 0); [now rewrite contiguous_length|].
  intros i Hi. rewrite H, contiguous_nth by lia. lia.
Qed.

Lemma list_eq_id l n : length l = n -> (forall i, (i < n)%nat -> nth i l 0%nat = i) -> l = seq 0 n.
Proof.
  intros Hl H. apply nth_ext with (d := 0%nat) (d' := 0%nat); [now rewrite seq_length|]. intros i Hi. rewrite H, seq_nth by lia. lia.
Qed.

Lemma sel_id cfg l : mc_perm cfg = seq 0 (length l) -> sel cfg l = l.
Proof. intros H. unfold sel. rewrite H. apply map_nth_seq. Qed.

Lemma mov_pos_id q n : length q = n -> mov_pos q (repeat 1 n) (repeat 0 n) (repeat 0 n) = q.
Proof. revert n; induction q; intros [|n]; cbn [length repeat mov_pos]; try lia; auto. intros. rewrite IHq by lia. f_equal. lia. Qed.

Lemma zip_add_0 q n : length q = n -> zip_add q (repeat 0 n) = q.
Proof. revert n; induction q; intros [|n]; cbn [length repeat zip_add]; try lia; auto. intros. rewrite IHq by lia. f_equal. lia. Qed.

Lemma list_const l n (v : Z) : length l = n -> (forall i, (i < n)%nat -> nth i l 0 = v) -> l = repeat v n.
Proof.
  intros Hl H. apply nth_ext with (d := 0) (d' := 0); [now rewrite repeat_length|]. intros i Hi. rewrite H by lia.
  rewrite nth_indep with (d' := v) by (rewrite repeat_length; lia). now rewrite nth_repeat.
Qed.

(** If the single-transfer test succeeds, dst_offset is zero and the region is inside the source, the
    contiguous copy does what the general loop does. *)
Lemma mov_memcpy_loop msrc src dst dstr cfg m :
  cfg_ok src cfg -> cfg_inside src cfg -> Forall (fun d => 0 < d) (t_shape src) -> prod (t_shape src) < 2 ^ 32 ->
  (1 <= length (t_shape src) <= 4)%nat -> length (t_stride src) = length (t_shape src) -> length dstr = length (t_shape src) ->
  Forall (eq 0) (mc_dst_offset cfg) ->
  mov_single_loop (length (t_shape src)) (t_stride src) dstr (t_shape src) (mov_dst_shape src cfg) cfg 1 = true ->
  mov_memcpy msrc (t_data src) dst (hlp_count_elem_num (t_shape src) 0) m = mov_loop msrc src dst dstr cfg m.
Proof.
  intros Hok Hin Hpos Hprod Hr Hls Hld Hdo Hs.
  pose proof Hok as (L1 & L2 & L3 & L4 & L5 & L6 & L7 & L8 & HP & P1 & P2 & P3 & P4 & P5 & P6).
  set (r := length (t_shape src)) in *. pose proof (single_loop_spec _ _ _ _ _ _ _ Hs) as HS.
  assert (Es : t_stride src = contiguous_strides (t_shape src)).
  { apply (single_contiguous _ _ r); auto. intros i Hi. apply (HS i Hi). }
  assert (Ed : dstr = contiguous_strides (t_shape src)).
  { apply (single_contiguous _ _ r); auto. intros i Hi. apply (HS i Hi). }
  assert (Eperm : mc_perm cfg = seq 0 r) by (apply list_eq_id; auto; intros i Hi; apply (HS i Hi)).
  assert (Esub : mc_sub cfg = repeat 1 r) by (apply list_const; auto; intros i Hi; apply (HS i Hi)).
  assert (Epre : mc_pre cfg = repeat 0 r) by (apply list_const; auto; intros i Hi; apply (HS i Hi)).
  assert (Epost : mc_post cfg = repeat 0 r) by (apply list_const; auto; intros i Hi; apply (HS i Hi)).
  assert (Edo : mc_dst_offset cfg = repeat 0 r).
  { apply list_const; auto. intros i Hi. symmetry. apply (nth_forall (eq 0)); auto. lia. }
  assert (Hnp : mov_no_padding cfg = true).
  { unfold mov_no_padding. rewrite Epre, Epost. clear. induction r; cbn; auto. }
  specialize (Hin Hnp).
  assert (Ew : mov_write_size src cfg = t_shape src).
  { assert (Lw : length (mov_write_size src cfg) = r) by (unfold mov_write_size; now rewrite map_length).
    apply nth_ext with (d := 0) (d' := 0); [auto|]. intros i Hi. rewrite Lw in Hi.
    destruct (HS i Hi) as (_ & _ & A & _). rewrite A. unfold mov_dst_shape. rewrite Edo, zip_add_0 by auto. reflexivity. }
  assert (Eo : mc_offset cfg = repeat 0 r).
  { apply list_const; auto. intros i Hi. destruct (Hin i Hi) as [A B].
    assert (Ei : nth i (mov_write_size src cfg) 0 = nth i (t_shape src) 0) by (now rewrite Ew).
    assert (Ei2 : nth i (mov_write_size src cfg) 0 = ceil_div (mov_cpy_size src cfg i) (nth i (mc_sub cfg) 0)).
    { unfold mov_write_size. rewrite Eperm.
      rewrite nth_indep with (d' := ceil_div (mov_cpy_size src cfg 0) (nth 0 (mc_sub cfg) 0)) by (rewrite map_length, seq_length; lia).
      rewrite (map_nth (fun p => ceil_div (mov_cpy_size src cfg p) (nth p (mc_sub cfg) 0)) (seq 0 r) 0%nat i).
      rewrite seq_nth by lia. reflexivity. }
    rewrite Ei in Ei2. destruct (HS i Hi) as (_ & _ & _ & C & D & _ & E). rewrite E in Ei2. unfold ceil_div in Ei2.
    rewrite Z.div_1_r in Ei2. unfold mov_cpy_size in Ei2. rewrite C, D in Ei2.
    pose proof (nth_forall _ _ i 0 P2 ltac:(lia)) as Ho. cbn beta in Ho.
    destruct (Z.gtb_spec (nth i (mc_size cfg) 0) 0); lia. }
  (* the copy *)
  assert (En : hlp_count_elem_num (t_shape src) 0 = prod (t_shape src)).
  { destruct (count_elem_num_correct (t_shape src) 0) as [_ Hc]; [lia| |lia|].
    - eapply Forall_impl; [|exact Hpos]. cbn; lia.
    - cbn [Z.to_nat skipn] in Hc. destruct (Hc Hprod) as [Hc1 _]. exact Hc1. }
  unfold mov_memcpy, mov_loop. rewrite En, <- contiguous_strides_pos by (eapply Forall_impl; [|exact Hpos]; cbn; lia).
  unfold visited. rewrite foldM_map, Ew. apply foldM_ext. intros q m0 Hq. apply in_coords in Hq.
  pose proof (valid_length _ _ Hq) as Lq. fold r in Lq. unfold mov_elem.
  rewrite !sel_id by (rewrite Eperm; f_equal; lia). rewrite Esub, Eo, Epre, Edo, mov_pos_id, zip_add_0 by auto.
  rewrite (proj2 (inr_valid _ _) Hq). rewrite Es, Ed. reflexivity.
Qed.

(** * The transfer (C19, C20) *)

(** Specification. Source position [p] of destination coordinate [c]:
    p[perm d] = (c[d] - dst_offset[d]) * sub[perm d] + offset[perm d] - pre[perm d]. *)
Definition mov_source (cfg : mov_cfg) (c p : list Z) : Prop :=
  length p = length (mc_perm cfg) /\ length c = length (mc_perm cfg)
  /\ forall d, (d < length (mc_perm cfg))%nat ->
       let j := nth d (mc_perm cfg) 0%nat in
       nth j p 0 = (nth d c 0 - nth d (mc_dst_offset cfg) 0) * nth j (mc_sub cfg) 0 + nth j (mc_offset cfg) 0 - nth j (mc_pre cfg) 0.

(** [c] is not in front of the destination offset. *)
Definition past_offset (cfg : mov_cfg) (c : list Z) : Prop :=
  forall d, (d < length (mc_perm cfg))%nat -> nth d (mc_dst_offset cfg) 0 <= nth d c 0.

Lemma zip_add_nth a b d : length a = length b -> (d < length a)%nat -> nth d (zip_add a b) 0 = nth d a 0 + nth d b 0.
Proof.
  revert b d; induction a as [|x a IH]; intros [|y b] [|d]; cbn [length zip_add nth]; try lia. intros. apply IH; lia.
Qed.

Lemma zip_add_inj a b o : length a = length o -> length b = length o -> zip_add a o = zip_add b o -> a = b.
Proof.
  revert b o; induction a as [|x a IH]; intros [|y b] [|z o]; cbn [length zip_add]; try lia; auto. intros H1 H2 E.
  inversion E. f_equal; [lia|]. apply (IH b o); auto; lia.
Qed.

Lemma zip_add_sub c o : length c = length o -> zip_add (zip_add c (map Z.opp o)) o = c.
Proof. revert o; induction c as [|x c IH]; intros [|y o]; cbn [length map zip_add]; try lia; auto. intros. f_equal; [lia|]. apply IH; lia. Qed.

Lemma valid_zip_add w o q : length w = length o -> length q = length o -> Forall (fun x => 0 <= x) o ->
  (valid w q -> valid (zip_add w o) (zip_add q o)).
Proof.
  revert o q; induction w as [|x w IH]; intros [|y o] [|z q]; cbn [length zip_add valid]; try lia; auto.
  intros H1 H2 H3 [H4 H5]. inversion H3; subst. split; [lia|]. apply IH; auto.
Qed.

Lemma zip_add_valid w o q : length w = length o -> length q = length o -> Forall (fun x => 0 <= x) q ->
  (valid (zip_add w o) (zip_add q o) -> valid w q).
Proof.
  revert o q; induction w as [|x w IH]; intros [|y o] [|z q]; cbn [length zip_add valid]; try lia; auto.
  intros H1 H2 H3 [H4 H5]. inversion H3; subst. split; [lia|]. apply (IH o q); auto; lia.
Qed.

Lemma mov_pos_length q s o p : length s = length q -> length o = length q -> length p = length q -> length (mov_pos q s o p) = length q.
Proof. revert s o p; induction q; intros [|? s] [|? o] [|? p]; cbn [length mov_pos]; try lia; auto. Qed.

Lemma mov_pos_nth q : forall s o p d, length s = length q -> length o = length q -> length p = length q -> (d < length q)%nat ->
  nth d (mov_pos q s o p) 0 = nth d q 0 * nth d s 0 + nth d o 0 - nth d p 0.
Proof. induction q; intros [|? s] [|? o] [|? p] [|d]; cbn [length mov_pos nth]; try lia. intros. apply IHq; lia. Qed.

Lemma sel_nth cfg l d : (d < length (mc_perm cfg))%nat -> nth d (sel cfg l) 0 = nth (nth d (mc_perm cfg) 0%nat) l 0.
Proof.
  intros Hd. unfold sel. rewrite nth_indep with (d' := nth 0 l 0) by (rewrite map_length; lia).
  exact (map_nth (fun j => nth j l 0) (mc_perm cfg) 0%nat d).
Qed.

Lemma mov_dst_strides_length sh : forall cs ds, length cs = length sh -> length ds = length sh -> length (mov_dst_strides sh cs ds) = length sh.
Proof. induction sh; intros [|c cs] [|d ds]; cbn [length mov_dst_strides]; try lia. intros. rewrite IHsh; lia. Qed.

Lemma past_split cfg src c : cfg_ok src cfg -> length c = length (t_shape src) -> past_offset cfg c ->
  exists q, length q = length (t_shape src) /\ Forall (fun x => 0 <= x) q /\ c = zip_add q (mc_dst_offset cfg).
Proof.
  intros (L1 & L2 & L3 & L4 & L5 & L6 & _) Hc Hp. exists (zip_add c (map Z.opp (mc_dst_offset cfg))).
  assert (Ll : length (zip_add c (map Z.opp (mc_dst_offset cfg))) = length c) by (rewrite zip_add_length; rewrite ?map_length; lia).
  split; [lia|]. split; [|rewrite zip_add_sub by lia; reflexivity].
  apply Forall_forall. intros x Hx. apply In_nth with (d := 0) in Hx. destruct Hx as (d & Hd & <-). rewrite Ll in Hd.
  rewrite zip_add_nth by (rewrite ?map_length; lia). specialize (Hp d ltac:(lia)).
  assert (Em : nth d (map Z.opp (mc_dst_offset cfg)) 0 = - nth d (mc_dst_offset cfg) 0) by exact (map_nth Z.opp (mc_dst_offset cfg) 0 d).
  rewrite Em. lia.
Qed.

(** The loop stores, for every written coordinate, the value required by the specification. *)
Lemma mov_loop_correct msrc src dst dstr cfg m :
  cfg_ok src cfg -> fits32 src -> chk_tensor src = ST_OK -> backed src msrc ->
  let dsh := mov_dst_shape src cfg in
  length dstr = length (t_shape src) ->
  (forall c, valid dsh c -> allocated m (dst + addr dstr c)) ->
  (forall c1 c2, valid dsh c1 -> valid dsh c2 -> addr dstr c1 = addr dstr c2 -> c1 = c2) ->
  exists m', mov_loop msrc src dst dstr cfg m = Some m'
  /\ (forall c, valid dsh c -> past_offset cfg c -> exists p, mov_source cfg c p)
  /\ (forall c p, valid dsh c -> past_offset cfg c -> mov_source cfg c p ->
        (valid (t_shape src) p -> m' (dst + addr dstr c) = msrc (t_data src + addr (t_stride src) p))
        /\ (~ valid (t_shape src) p -> m' (dst + addr dstr c) = Some 0))
  /\ (forall a, (forall c, valid dsh c -> past_offset cfg c -> dst + addr dstr c <> a) -> m' a = m a).
Proof.
  intros Hok Hf Hct Hb dsh Hld Hal Hinj.
  pose proof Hok as (L1 & L2 & L3 & L4 & L5 & L6 & L7 & L8 & HP & P1 & P2 & P3 & P4 & P5 & P6).
  pose proof Hf as (Hls & _). set (r := length (t_shape src)) in *. assert (HP' : Permutation (mc_perm cfg) (seq 0 (length (mc_perm cfg)))) by (rewrite L6; exact HP).
  assert (Lw : length (mov_write_size src cfg) = r) by (unfold mov_write_size; now rewrite map_length).
  set (pos := fun q => mov_pos q (sel cfg (mc_sub cfg)) (sel cfg (mc_offset cfg)) (sel cfg (mc_pre cfg))).
  assert (Lsel : forall l, length (sel cfg l) = r) by (intros; unfold sel; now rewrite map_length).
  (* relation between the position list and the specification *)
  assert (Hspec : forall q, length q = r -> forall p,
            mov_source cfg (zip_add q (mc_dst_offset cfg)) p <-> permuted (mc_perm cfg) (pos q) p).
  { intros q Lq p. unfold mov_source, permuted. unfold pos. rewrite zip_add_length, mov_pos_length by (rewrite ?Lsel; lia).
    split; intros (A & B & C); split; auto; split; auto; intros d Hd; specialize (C d Hd); cbn zeta in *.
    - rewrite mov_pos_nth by (rewrite ?Lsel; lia). rewrite !sel_nth by lia. rewrite C, zip_add_nth by lia. ring.
    - rewrite mov_pos_nth in C by (rewrite ?Lsel; lia). rewrite !sel_nth in C by lia. rewrite C, zip_add_nth by lia. ring. }
  assert (Hval : forall q p, length q = r -> permuted (mc_perm cfg) (pos q) p ->
            (inr (sel cfg (t_shape src)) (pos q) = true <-> valid (t_shape src) p)
            /\ addr (sel cfg (t_stride src)) (pos q) = addr (t_stride src) p).
  { intros q p Lq Hp. pose proof Hp as (A & B & C). split.
    - rewrite inr_valid. apply (permuted_valid (mc_perm cfg)); auto; [rewrite Lsel; lia|]. intros d Hd.
      rewrite nth_indep with (d' := 0) by (rewrite Lsel; lia). rewrite sel_nth by lia. apply nth_indep.
      assert (In (nth d (mc_perm cfg) 0%nat) (mc_perm cfg)) as Hin by (apply nth_In; lia).
      eapply Permutation_in in Hin; [|exact HP]. apply in_seq in Hin. lia.
    - unfold sel. apply addr_perm; auto; try lia. intros d Hd. now rewrite C. }
  assert (Hex : forall q, length q = r -> exists p, permuted (mc_perm cfg) (pos q) p).
  { intros q Lq. apply permuted_exists; auto. unfold pos. rewrite mov_pos_length; rewrite ?Lsel; lia. }
  set (val := fun q => if inr (sel cfg (t_shape src)) (pos q)
                       then match msrc (t_data src + addr (sel cfg (t_stride src)) (pos q)) with Some v => v | None => 0 end else 0).
  destruct (foldM_store (fun q => dst + addr dstr (zip_add q (mc_dst_offset cfg))) val
     (mov_elem msrc (t_data src) dst (sel cfg (mc_sub cfg)) (sel cfg (mc_offset cfg)) (sel cfg (mc_pre cfg))
           (sel cfg (t_shape src)) (sel cfg (t_stride src)) dstr (mc_dst_offset cfg)) (coords (mov_write_size src cfg)) m)
    as (m' & E & H1 & H2).
  - intros q m' Hq. apply in_coords in Hq. pose proof (valid_length _ _ Hq) as Lq. rewrite Lw in Lq.
    unfold mov_elem, val. fold (pos q). destruct (inr (sel cfg (t_shape src)) (pos q)) eqn:Hi; [|reflexivity].
    destruct (Hex q Lq) as (p & Hp). destruct (Hval q p Lq Hp) as [V1 V2]. rewrite V2.
    pose proof (chk_backed src msrc Hf Hct Hb p (proj1 V1 Hi)) as Ha. unfold allocated in Ha.
    destruct (msrc (t_data src + addr (t_stride src) p)); [reflexivity|congruence].
  - intros q Hq. apply in_coords in Hq. pose proof (valid_length _ _ Hq) as Lq. apply Hal. apply valid_zip_add; auto; lia.
  - intros q1 q2 Hq1 Hq2 He. apply in_coords in Hq1, Hq2. pose proof (valid_length _ _ Hq1). pose proof (valid_length _ _ Hq2).
    assert (q1 = q2); [|now subst]. apply (zip_add_inj _ _ (mc_dst_offset cfg)); try lia.
    apply Hinj; [apply valid_zip_add; auto; lia|apply valid_zip_add; auto; lia|lia].
  - exists m'. split; [exact E|].
    assert (Hpast : forall c, valid dsh c -> past_offset cfg c ->
              exists q, valid (mov_write_size src cfg) q /\ length q = r /\ c = zip_add q (mc_dst_offset cfg)).
    { intros c Hc Hpo. pose proof (valid_length _ _ Hc) as Lc. unfold dsh, mov_dst_shape in Lc. rewrite zip_add_length in Lc by lia.
      destruct (past_split cfg src c Hok ltac:(lia) Hpo) as (q & Lq & Pq & ->). exists q. split; [|split; auto].
      apply (zip_add_valid _ (mc_dst_offset cfg)); auto; lia. }
    split; [|split].
    + intros c Hc Hpo. destruct (Hpast c Hc Hpo) as (q & Hq & Lq & ->). destruct (Hex q Lq) as (p & Hp). exists p. now apply Hspec.
    + intros c p Hc Hpo Hs. destruct (Hpast c Hc Hpo) as (q & Hq & Lq & ->). apply Hspec in Hs; auto.
      destruct (Hval q p Lq Hs) as [V1 V2]. specialize (H1 q (proj2 (in_coords _ _) Hq)). cbn beta in H1. rewrite H1. unfold val.
      split; intros Hv.
      * rewrite (proj2 V1 Hv), V2. pose proof (chk_backed src msrc Hf Hct Hb p Hv) as Ha. unfold allocated in Ha.
        destruct (msrc (t_data src + addr (t_stride src) p)); [reflexivity|congruence].
      * destruct (inr (sel cfg (t_shape src)) (pos q)); [|reflexivity]. exfalso. apply Hv, V1. reflexivity.
    + intros a Ha. apply H2. intros q Hq. apply in_coords in Hq. pose proof (valid_length _ _ Hq) as Lq. apply Ha.
      * apply valid_zip_add; auto; lia.
      * intros d Hd. rewrite zip_add_nth by lia. pose proof (nth_valid _ _ d Hq ltac:(lia)). lia.
Qed.

Lemma prod_span sh st : length st = length sh -> Forall (fun d => 0 < d) sh -> st = contiguous_strides sh -> prod sh = span sh st.
Proof.
  intros Hl Hp ->. clear Hl. induction sh as [|d sh IH]; [reflexivity|]. inversion Hp; subst. cbn [contiguous_strides span prod fold_right].
  fold (prod sh). rewrite <- IH by auto.
  assert (E : match sh with [] => 1 | d' :: _ => match contiguous_strides sh with [] => 1 | s' :: _ => s' * d' end end = prod sh).
  { clear. induction sh as [|d' sh IH]; [reflexivity|]. cbn [contiguous_strides prod fold_right]. fold (prod sh). rewrite IH. ring. }
  rewrite E. ring.
Qed.

Lemma single_facts src dstr dsh cfg : length (t_stride src) = length (t_shape src) -> length dstr = length (t_shape src) ->
  length dsh = length (t_shape src) ->
  mov_single_loop (length (t_shape src)) (t_stride src) dstr (t_shape src) dsh cfg 1 = true ->
  t_stride src = contiguous_strides (t_shape src) /\ dstr = contiguous_strides (t_shape src) /\ dsh = t_shape src.
Proof.
  intros H1 H2 H3 Hs. pose proof (single_loop_spec _ _ _ _ _ _ _ Hs) as HS. split; [|split].
  - apply (single_contiguous _ _ (length (t_shape src))); auto. intros i Hi. apply (HS i Hi).
  - apply (single_contiguous _ _ (length (t_shape src))); auto. intros i Hi. apply (HS i Hi).
  - apply nth_ext with (d := 0) (d' := 0); [auto|]. intros i Hi. symmetry. apply (HS i). lia.
Qed.

Lemma sub_positive src cfg : cfg_ok src cfg -> existsb (fun p => nth p (mc_sub cfg) 0 =? 0) (mc_perm cfg) = false.
Proof.
  intros (L1 & L2 & L3 & L4 & L5 & L6 & L7 & L8 & HP & P1 & _). apply not_true_is_false. intros He.
  apply existsb_exists in He. destruct He as (p & Hp & Hz). eapply Permutation_in in Hp; [|exact HP]. apply in_seq in Hp.
  pose proof (nth_forall _ _ p 0 P1 ltac:(lia)) as H0. cbn beta in H0. lia.
Qed.

Lemma chk_data_movement_tensor src cfg : chk_data_movement src cfg = ST_OK -> chk_tensor src = ST_OK.
Proof. unfold chk_data_movement. destruct (chk_tensor src); auto; discriminate. Qed.

(** C22. Both ways of doing an accepted transfer give the same memory, when the fast path is chosen and the
    destination offsets are zero. *)
Theorem mov_fast_path_agrees src cfg dst msrc m :
  cfg_ok src cfg -> cfg_inside src cfg -> fits32 src -> length (t_stride dst) = length (t_shape src) ->
  (1 <= length (t_shape src))%nat ->
  chk_tensor src = ST_OK -> Forall (eq 0) (mc_dst_offset cfg) ->
  mov_single src cfg dst = true ->
  mov_memcpy msrc (t_data src) (t_data dst) (hlp_count_elem_num (t_shape src) 0) m
  = mov_general msrc src (mov_dst_tensor src cfg dst) (eff_strides (t_shape src) (t_stride src)) cfg m.
Proof.
  intros Hok Hin Hf Hld H1 Hct Hdo Hs. pose proof Hok as (L1 & L2 & L3 & L4 & L5 & L6 & _).
  pose proof Hf as (Hls & He & _ & Hsp). destruct (chk_tensor_pos src Hct Hls) as (H4 & Hp1 & Hp2).
  unfold mov_single in Hs. rewrite eff_strides_id in * by auto.
  set (dst' := mov_dst_tensor src cfg dst) in *.
  assert (Lw : length (mov_dst_shape src cfg) = length (t_shape src)).
  { unfold mov_dst_shape. rewrite zip_add_length; unfold mov_write_size; rewrite map_length; lia. }
  assert (Ld : length (t_stride dst') = length (t_shape src)).
  { cbn [dst' mov_dst_tensor t_stride]. rewrite mov_dst_strides_length; lia. }
  destruct (single_facts src _ _ cfg (eq_sym Hls) Ld Lw Hs) as (Es & Ed & Esh).
  rewrite mov_general_loop by (auto; lia). change (t_data dst') with (t_data dst). apply mov_memcpy_loop; auto; try lia.
  rewrite (prod_span _ _ (eq_sym Hls) Hp1 Es). nia.
Qed.

(** C19 and C20. An accepted transfer has no undefined behaviour; every destination element past the
    destination offset is the source element selected by the configuration, or 0 where the selected
    position is outside of the source (padding); nothing else is written. *)
Theorem mov_prepare_correct src cfg dst msrc m :
  cfg_ok src cfg -> cfg_inside src cfg -> fits32 src -> (1 <= length (t_shape src))%nat ->
  length (t_stride dst) = length (t_shape src) ->
  let dst' := mov_dst_tensor src cfg dst in
  fits32 dst' -> backed src msrc -> backed dst' m ->
  (Forall (eq 0) (mc_dst_offset cfg) \/ t_shape dst' <> t_shape src) ->
  chk_data_movement src cfg = ST_OK -> chk_tensor dst' = ST_OK ->
  exists m', mov_prepare msrc src cfg dst m = Some (ST_OK, dst', m')
  /\ (forall c, valid (t_shape dst') c -> past_offset cfg c -> exists p, mov_source cfg c p)
  /\ (forall c p, valid (t_shape dst') c -> past_offset cfg c -> mov_source cfg c p ->
        (valid (t_shape src) p ->
           m' (t_data dst + addr (t_stride dst') c) = msrc (t_data src + addr (t_stride src) p))
        /\ (~ valid (t_shape src) p -> m' (t_data dst + addr (t_stride dst') c) = Some 0))
  /\ (forall a, (forall c, valid (t_shape dst') c -> past_offset cfg c ->
                   t_data dst + addr (t_stride dst') c <> a) -> m' a = m a).
Proof.
  intros Hok Hin Hf H1 Hld dst' Hfd Hb Hbd Hdo Hchk Hcd. pose proof (chk_data_movement_tensor _ _ Hchk) as Hct.
  pose proof Hok as (L1 & L2 & L3 & L4 & L5 & L6 & _).
  pose proof Hf as (Hls & He & _ & Hsp). destruct (chk_tensor_pos src Hct Hls) as (H4 & Hp1 & Hp2).
  assert (Lw : length (mov_dst_shape src cfg) = length (t_shape src)).
  { unfold mov_dst_shape. rewrite zip_add_length; unfold mov_write_size; rewrite map_length; lia. }
  assert (Ld : length (t_stride dst') = length (t_shape src)).
  { cbn [dst' mov_dst_tensor t_stride]. rewrite mov_dst_strides_length; lia. }
  destruct (chk_tensor_sound dst') as [_ Hinj]; [apply Hfd..|auto|].
  destruct (mov_loop_correct msrc src (t_data dst) (t_stride dst') cfg m) as (m' & E & R); auto.
  { intros c Hc. exact (chk_backed dst' m Hfd Hcd Hbd c Hc). }
  exists m'. split; [|exact R].
  unfold mov_prepare. rewrite Hchk, (sub_positive src) by auto. fold dst'. cbn zeta. rewrite Hcd.
  assert (Eg : mov_general msrc src dst' (eff_strides (t_shape src) (t_stride src)) cfg m = Some m').
  { rewrite eff_strides_id by auto. rewrite mov_general_loop by (auto; lia). exact E. }
  destruct (mov_single src cfg dst) eqn:Hs; [|rewrite Eg; reflexivity].
  rewrite mov_fast_path_agrees with (cfg := cfg); auto; [fold dst'; rewrite Eg; reflexivity|].
  destruct Hdo as [Hdo|Hdo]; [exact Hdo|]. exfalso. apply Hdo.
  unfold mov_single in Hs. rewrite eff_strides_id in Hs by auto. apply (single_facts src _ _ cfg (eq_sym Hls) Ld Lw Hs).
Qed.

(** The shape reported for the destination: dst_offset[d] + ceil(n / sub[perm d]) where n is the configured
    size or, when it is 0, what is left of the padded source after the offset. *)
Theorem mov_dst_shape_correct src cfg d :
  cfg_ok src cfg -> (d < length (t_shape src))%nat ->
  let j := nth d (mc_perm cfg) 0%nat in
  let n := if nth j (mc_size cfg) 0 =? 0
           then nth j (t_shape src) 0 + nth j (mc_pre cfg) 0 + nth j (mc_post cfg) 0 - nth j (mc_offset cfg) 0
           else nth j (mc_size cfg) 0 in
  exists w, nth d (mov_dst_shape src cfg) 0 = nth d (mc_dst_offset cfg) 0 + w
         /\ (w - 1) * nth j (mc_sub cfg) 0 < n <= w * nth j (mc_sub cfg) 0.
Proof.
  intros (L1 & L2 & L3 & L4 & L5 & L6 & L7 & L8 & HP & P1 & P2 & P3 & _) Hd j n.
  assert (Hj : (j < length (t_shape src))%nat).
  { assert (In j (mc_perm cfg)) as Hin by (apply nth_In; lia). eapply Permutation_in in Hin; [|exact HP]. apply in_seq in Hin. lia. }
  exists (ceil_div (mov_cpy_size src cfg j) (nth j (mc_sub cfg) 0)). split.
  - unfold mov_dst_shape. rewrite zip_add_nth by (unfold mov_write_size; rewrite map_length; lia).
    unfold mov_write_size. rewrite nth_indep with (d' := (fun p => ceil_div (mov_cpy_size src cfg p) (nth p (mc_sub cfg) 0)) 0%nat) by (rewrite map_length; lia).
    rewrite (map_nth (fun p => ceil_div (mov_cpy_size src cfg p) (nth p (mc_sub cfg) 0)) (mc_perm cfg) 0%nat d). fold j. lia.
  - pose proof (nth_forall _ _ j 0 P1 ltac:(lia)) as Hs. cbn beta in Hs. pose proof (nth_forall _ _ j 0 P3 ltac:(lia)) as Hz. cbn beta in Hz.
    assert (En : mov_cpy_size src cfg j = n).
    { unfold mov_cpy_size, n. destruct (Z.gtb_spec (nth j (mc_size cfg) 0) 0), (Z.eqb_spec (nth j (mc_size cfg) 0) 0); lia. }
    rewrite En. unfold ceil_div. generalize (nth j (mc_sub cfg) 0) Hs. clearbody n. clear. intros s Hs. nia.
Qed.

(** * Acceptance of smaller shapes *)

Lemma check_fold_nested sh st : length sh = length st ->
  Forall (fun ds => in_bits 32 (fst ds * snd ds)) (combine sh st) -> nested sh st ->
  fold_right check_step (false, 1, 1, 1) (combine sh st) = (false, wrap 32 (span sh st), hd 1 sh, hd 1 st).
Proof.
  revert st; induction sh as [|d sh IH]; intros [|s st]; cbn [combine fold_right length]; try (intros; discriminate).
  - intros _ _ _. cbn [span hd]. rewrite wrap_id by (unfold in_bits; cbn; lia). reflexivity.
  - intros Hl Hb Hn. inversion Hb; subst. cbn [nested] in Hn. destruct Hn as (Hd & Hs & Hi & Hn). rewrite IH by auto.
    cbn [check_step span hd orb]. do 3 f_equal.
    + apply negb_false_iff. destruct sh as [|d' sh], st as [|s' st]; cbn in Hl; try lia; cbn [hd].
      * rewrite wrap_id by (cbn; try lia; unfold in_bits; cbn; lia). lia.
      * inversion H2; subst. cbn [fst snd] in *. rewrite wrap_id by (auto; lia). lia.
    + rewrite wrap_add2, wrap_add_mod by lia. f_equal. lia.
Qed.

(** The checker accepts every tensor that fits its buffer with nested strides. *)
Theorem chk_tensor_complete t : fits32 t -> (length (t_shape t) <= 4)%nat -> t_cap t <= 2 ^ 31 - 1 ->
  nested (t_shape t) (t_stride t) -> span (t_shape t) (t_stride t) * t_esz t <= t_cap t -> chk_tensor t = ST_OK.
Proof.
  intros (Hl & He & Hb & Hsp) H4 Hc Hn Hs. unfold chk_tensor, check_tensor_private.
  destruct (Z.leb_spec (Z.of_nat (length (t_shape t))) 4); [|lia]. destruct (Z.leb_spec (t_cap t) (2 ^ 31 - 1)); [|lia]. cbn [negb orb].
  assert (Hd : forallb dim_ok (combine (t_shape t) (t_stride t)) = true).
  { clear - Hn Hb. revert Hn Hb. generalize (t_stride t). induction (t_shape t) as [|d sh IH]; intros [|s st]; cbn [nested combine forallb]; try tauto; auto.
    intros (A & B & _ & C) Hb. inversion Hb; subst. rewrite IH by auto. unfold in_bits, smin, smax in H1. cbn [fst snd] in H1.
    change (32 - 1) with 31 in H1. unfold dim_ok. rewrite andb_true_r. assert (d * 1 <= d * s) by nia. lia. }
  rewrite Hd. cbn [negb]. rewrite check_fold_nested by auto. rewrite wrap_mul by lia.
  assert (Hspan : 1 <= span (t_shape t) (t_stride t)).
  { clear - Hn. revert Hn. generalize (t_stride t). induction (t_shape t); intros [|s st]; cbn; try tauto; try lia.
    intros (?&?&_&H1). specialize (IHl _ H1). nia. }
  rewrite wrap_id; [|lia|unfold in_bits, smin, smax; change (32 - 1) with 31; nia].
  destruct (Z.geb_spec (t_cap t) (span (t_shape t) (t_stride t) * t_esz t)); [reflexivity|lia].
Qed.

Lemma chk_tensor_nested t : fits32 t -> chk_tensor t = ST_OK ->
  nested (t_shape t) (t_stride t) /\ span (t_shape t) (t_stride t) * t_esz t <= t_cap t /\ t_cap t <= 2 ^ 31 - 1.
Proof.
  intros (Hl & He & Hb & Hs). unfold chk_tensor, check_tensor_private.
  destruct (Z.leb_spec (Z.of_nat (length (t_shape t))) 4); cbn [negb orb]; [|discriminate].
  destruct (Z.leb_spec (t_cap t) (2 ^ 31 - 1)); cbn [negb]; [|discriminate].
  destruct (forallb dim_ok (combine (t_shape t) (t_stride t))) eqn:Hd; cbn [negb]; [|discriminate].
  destruct (check_fold (t_shape t) (t_stride t) Hl Hb) as (f & E & Hf). rewrite E.
  destruct f; [discriminate|]. intros Hcap.
  assert (Hn : nested (t_shape t) (t_stride t)).
  { apply Hf; auto. apply Forall_forall. intros [d s] Hin. rewrite forallb_forall in Hd.
    specialize (Hd _ Hin). unfold dim_ok in Hd. cbn. lia. }
  assert (Hspan : 1 <= span (t_shape t) (t_stride t)).
  { clear - Hn. revert Hn. generalize (t_stride t). induction (t_shape t); intros [|s st]; cbn; try tauto; try lia.
    intros (?&?&_&H1). specialize (IHl _ H1). nia. }
  rewrite wrap_mul, wrap_id in Hcap; [|lia| |lia].
  2: { unfold in_bits, smin, smax. change (32 - 1) with 31. nia. }
  destruct (Z.geb_spec (t_cap t) (span (t_shape t) (t_stride t) * t_esz t)); cbn [negb] in Hcap; [|discriminate].
  split; [exact Hn|]. lia.
Qed.

(** [sh'] is not larger than [sh] in any dimension. *)
Definition smaller (sh' sh : list Z) : Prop := Forall2 (fun a b => 0 < a <= b) sh' sh.

Lemma smaller_nested sh' sh : smaller sh' sh -> forall st, nested sh st -> nested sh' st.
Proof.
  induction 1 as [|a b sh' sh Hab H IH]; intros [|s st]; cbn [nested]; try tauto. intros (A & B & C & D).
  repeat split; try lia; auto. inversion H; subst; auto. destruct st; auto. nia.
Qed.

Lemma smaller_span sh' sh : smaller sh' sh -> forall st, nested sh st -> span sh' st <= span sh st.
Proof.
  induction 1 as [|a b sh' sh Hab H IH]; intros [|s st]; cbn [nested span]; try tauto; try lia. intros (A & B & C & D).
  specialize (IH _ D). nia.
Qed.

Lemma smaller_bits sh' sh : smaller sh' sh -> forall st, nested sh st ->
  Forall (fun ds => in_bits 32 (fst ds * snd ds)) (combine sh st) -> Forall (fun ds => in_bits 32 (fst ds * snd ds)) (combine sh' st).
Proof.
  induction 1 as [|a b sh' sh Hab H IH]; intros [|s st]; cbn [nested combine]; try tauto; auto. intros (A & B & C & D) Hb.
  inversion Hb; subst. constructor; [|apply IH; auto]. cbn [fst snd] in *. unfold in_bits, smin, smax in *. change (32 - 1) with 31 in *. nia.
Qed.

Lemma chk_tensor_smaller t t' : fits32 t -> chk_tensor t = ST_OK -> smaller (t_shape t') (t_shape t) ->
  t_stride t' = t_stride t -> t_cap t' = t_cap t -> t_esz t' = t_esz t -> fits32 t' /\ chk_tensor t' = ST_OK.
Proof.
  intros Hf Hc Hs Est Ecap Eesz. destruct (chk_tensor_nested t Hf Hc) as (Hn & Hsp & Hcap). pose proof Hf as (Hl & He & Hb & H31).
  assert (Hl' : length (t_shape t') = length (t_shape t)) by (clear - Hs; induction Hs; cbn; auto).
  pose proof (smaller_span _ _ Hs _ Hn). destruct (chk_tensor_pos t Hc Hl) as (H4 & _).
  assert (Hf' : fits32 t').
  { unfold fits32. rewrite Est, Eesz. repeat split; try lia; [eapply smaller_bits; eauto|]. nia. }
  split; [exact Hf'|]. apply chk_tensor_complete; auto; try lia.
  - rewrite Est. eapply smaller_nested; eauto.
  - rewrite Est, Ecap, Eesz. nia.
Qed.

(** * Slices and concatenations (C21) *)

(** Transfer a list of (source memory, source, configuration) to one destination tensor. *)
Definition mov_all (l : list (mem * tensor * mov_cfg)) (dst : tensor) (m : mem) : option (tensor * mem) :=
  foldM (fun x s => match mov_prepare (fst (fst x)) (snd (fst x)) (snd x) (fst s) (snd s) with
                    | Some (ST_OK, dst', m') => Some (dst', m') | _ => None end) l (dst, m).

(** The configuration that copies the window [off, off+size) to the same place of the destination. *)
Definition cfg_window (off size ds : list Z) : mov_cfg :=
  mkMovCfg off size (repeat 1 (length off)) off ds (seq 0 (length off)) (repeat 0 (length off)) (repeat 0 (length off)).

Lemma backed_alloc t m m' : (forall a, allocated m a -> allocated m' a) -> backed t m -> backed t m'.
Proof. unfold backed. intros H Hb a H0 H1. apply H, Hb; auto. Qed.

Lemma mov_dst_strides_cfg sh : forall cs ds, length cs = length sh -> length ds = length sh -> Forall (fun x => 0 < x) cs ->
  mov_dst_strides sh cs ds = cs.
Proof.
  induction sh; intros [|c cs] [|d ds]; cbn [length mov_dst_strides]; try lia; auto. intros H1 H2 H3. inversion H3; subst.
  destruct (Z.eqb_spec c 0); [lia|]. cbn [negb]. f_equal. apply IHsh; auto; lia.
Qed.

Lemma Forall_repeat {A} (P : A -> Prop) x n : P x -> Forall P (repeat x n).
Proof. intros. induction n; cbn; constructor; auto. Qed.

(** A window inside the shape, each side at least one element. *)
Definition slice_of (sh off size : list Z) : Prop :=
  in_window sh off size /\ Forall (fun x => 0 < x) size.

(** [c] lies in the window. *)
Definition in_slice (off size c : list Z) : Prop :=
  length c = length off /\ forall d, (d < length off)%nat -> nth d off 0 <= nth d c 0 < nth d off 0 + nth d size 0.

Lemma in_window_nth sh off size d : in_window sh off size -> (d < length sh)%nat ->
  0 <= nth d off 0 /\ 0 <= nth d size 0 /\ nth d off 0 + nth d size 0 <= nth d sh 0.
Proof.
  intros (H1 & H2 & H). revert off size d H1 H2 H. induction sh as [|x sh IH]; intros [|o off] [|s size] [|d]; cbn [length combine nth]; try lia.
  - intros _ _ H _. inversion H; subst. tauto.
  - intros H1 H2 H Hd. inversion H; subst. apply IH; auto; lia.
Qed.

Lemma in_window_off sh off size : in_window sh off size -> Forall (fun x => 0 <= x) off.
Proof.
  intros H. apply Forall_forall. intros x Hx. pose proof H as (L1 & L2 & _). apply In_nth with (d := 0) in Hx. destruct Hx as (d & Hd & <-).
  apply (in_window_nth sh off size d H). lia.
Qed.

Lemma cfg_window_ok src off size ds : slice_of (t_shape src) off size -> length ds = length (t_shape src) ->
  cfg_ok src (cfg_window off size ds) /\ cfg_inside src (cfg_window off size ds)
  /\ mov_write_size src (cfg_window off size ds) = size.
Proof.
  intros [Hw Hs] Hd. pose proof Hw as (L1 & L2 & _). split; [|split].
  - unfold cfg_ok, cfg_window; cbn [mc_offset mc_size mc_sub mc_dst_offset mc_dst_stride mc_perm mc_pre mc_post].
    rewrite !repeat_length, !seq_length, L1. pose proof (in_window_off _ _ _ Hw).
    repeat split; auto; try apply Forall_repeat; try lia. eapply Forall_impl; [|exact Hs]. cbn; lia.
  - intros _ j Hj. cbn [cfg_window mc_offset mc_size]. destruct (in_window_nth _ _ _ j Hw Hj). lia.
  - unfold mov_write_size, cfg_window; cbn [mc_perm mc_sub].
    transitivity (map (fun k => nth k size 0) (seq 0 (length size))); [|apply map_nth_seq]. rewrite L1, <- L2. apply map_ext_in. intros j Hj. apply in_seq in Hj.
    unfold mov_cpy_size. cbn [mc_size]. pose proof (nth_forall _ _ j 0 Hs ltac:(lia)) as Hp. cbn beta in Hp.
    destruct (Z.gtb_spec (nth j size 0) 0); [|lia]. rewrite nth_indep with (l := repeat 1 _) (d' := 1) by (rewrite repeat_length; lia).
    rewrite nth_repeat. unfold ceil_div. rewrite Z.div_1_r. lia.
Qed.

Lemma slice_smaller sh off size : slice_of sh off size -> smaller (zip_add size off) sh.
Proof.
  intros [(H1 & H2 & H) Hs]. revert off size H1 H2 H Hs. induction sh as [|x sh IH]; intros [|o off] [|s size]; cbn [length combine zip_add]; try lia.
  - constructor.
  - intros H1 H2 H Hs. inversion H; inversion Hs; subst. constructor; [lia|]. apply IH; auto.
Qed.

Lemma in_slice_iff sh off size c : slice_of sh off size ->
  (valid (zip_add size off) c /\ (forall d, (d < length off)%nat -> nth d off 0 <= nth d c 0)) <-> in_slice off size c.
Proof.
  intros [Hw Hs]. pose proof Hw as (L1 & L2 & _). assert (Lz : length (zip_add size off) = length off) by (rewrite zip_add_length; lia).
  split.
  - intros [Hv Hp]. pose proof (valid_length _ _ Hv). split; [lia|]. intros d Hd. specialize (Hp d Hd).
    pose proof (nth_valid _ _ d Hv ltac:(lia)) as H0. rewrite nth_indep with (l := zip_add size off) (d' := 0) in H0 by lia. rewrite zip_add_nth in H0 by lia. lia.
  - intros [Lc Hc]. split; [|intros d Hd; apply Hc; lia]. apply valid_nth; [lia|]. intros d Hd. rewrite Lz in Hd.
    rewrite nth_indep with (l := zip_add size off) (d' := 0) by lia. rewrite zip_add_nth by lia. specialize (Hc d Hd).
    destruct (in_window_nth _ _ _ d Hw ltac:(lia)). lia.
Qed.

(** The source position of an identity configuration without subsampling and padding. *)
Lemma mov_source_shift cfg c n : mc_perm cfg = seq 0 n -> mc_sub cfg = repeat 1 n -> mc_pre cfg = repeat 0 n -> length c = n ->
  length (mc_offset cfg) = n -> length (mc_dst_offset cfg) = n ->
  forall p, length p = n -> (forall d, (d < n)%nat -> nth d p 0 = nth d c 0 - nth d (mc_dst_offset cfg) 0 + nth d (mc_offset cfg) 0) ->
  mov_source cfg c p.
Proof.
  intros E1 E2 E3 Lc L1 L2 p Lp H. unfold mov_source. rewrite E1, seq_length. repeat split; auto. intros d Hd. cbn zeta.
  rewrite seq_nth by lia. cbn [Nat.add]. rewrite H by auto. rewrite E2, E3.
  rewrite nth_indep with (l := repeat 1 n) (d' := 1) by (rewrite repeat_length; lia). rewrite !nth_repeat. ring.
Qed.

(** One window: the window is copied, every other element of the destination keeps its value or already gets the
    source's (the fast path copies the whole source), nothing else is written. *)
Lemma mov_window_step src off size dst msrc m whole :
  slice_of (t_shape src) off size -> fits32 src -> (1 <= length (t_shape src))%nat ->
  length (t_stride dst) = length (t_shape src) ->
  chk_tensor src = ST_OK -> t_asym src = false -> backed src msrc ->
  (* the destination: same shape, its own strides *)
  t_shape whole = t_shape src -> t_esz whole = t_esz src -> t_data whole = t_data dst -> t_cap whole = t_cap dst ->
  fits32 whole -> chk_tensor whole = ST_OK -> backed whole m ->
  exists dst' m', mov_prepare msrc src (cfg_window off size (t_stride whole)) dst m = Some (ST_OK, dst', m')
  /\ t_data dst' = t_data dst /\ t_cap dst' = t_cap dst /\ length (t_stride dst') = length (t_shape src)
  /\ (forall c, in_slice off size c -> m' (t_data dst + addr (t_stride whole) c) = msrc (t_data src + addr (t_stride src) c))
  /\ (forall c, valid (t_shape src) c ->
        m' (t_data dst + addr (t_stride whole) c) = m (t_data dst + addr (t_stride whole) c)
        \/ m' (t_data dst + addr (t_stride whole) c) = msrc (t_data src + addr (t_stride src) c))
  /\ (forall a, (forall c, valid (t_shape src) c -> t_data dst + addr (t_stride whole) c <> a) -> m' a = m a)
  /\ (forall a, allocated m a -> allocated m' a).
Proof.
  intros Hsl Hf H1 Hld Hct Has Hb Wsh Wesz Wdata Wcap Wf Wc Wb.
  set (ds := t_stride whole) in *. set (cfg := cfg_window off size ds).
  pose proof Hf as (Hls & He & _ & Hsp). pose proof Wf as (Wls & _). fold ds in Wls. rewrite Wsh in Wls.
  destruct (cfg_window_ok src off size ds Hsl ltac:(lia)) as (Hok & Hin & Ew). fold cfg in Hok, Hin, Ew.
  destruct (chk_tensor_pos whole Wc ltac:(rewrite Wsh; exact Wls)) as (H4 & Hp1 & Hp2). fold ds in Hp2. rewrite Wsh in H4, Hp1.
  pose proof Hsl as [Hw Hs]. pose proof Hw as (L1 & L2 & _).
  destruct (chk_tensor_pos src Hct Hls) as (_ & _ & Hsp2).
  set (dst' := mov_dst_tensor src cfg dst).
  assert (Esh : t_shape dst' = zip_add size off) by (cbn [dst' mov_dst_tensor t_shape]; unfold mov_dst_shape; rewrite Ew; reflexivity).
  assert (Lsh : length (t_shape dst') = length (t_shape src)) by (rewrite Esh, zip_add_length; lia).
  assert (Est : t_stride dst' = ds).
  { cbn [dst' mov_dst_tensor t_stride]. change (mc_dst_stride cfg) with ds. change (mov_dst_shape src cfg) with (t_shape dst').
    apply mov_dst_strides_cfg; auto; lia. }
  destruct (chk_tensor_smaller whole dst' Wf Wc) as (Hfd & Hcd); [rewrite Esh, Wsh; now apply slice_smaller|auto|exact (eq_sym Wcap)|exact (eq_sym Wesz)|].
  assert (Hbd : backed dst' m).
  { intros a A1 A2. change (t_data dst') with (t_data dst). rewrite <- Wdata. apply Wb; auto. rewrite Wesz, Wcap. exact A2. }
  assert (Hchk : chk_data_movement src cfg = ST_OK) by (unfold chk_data_movement; rewrite Hct, Has; reflexivity).
  (* address facts *)
  destruct (chk_tensor_sound whole) as [_ Winj]; [apply Wf..|auto|]. fold ds in Winj. rewrite Wsh in Winj.
  assert (Hsrcv : forall c, valid (t_shape src) c -> exists v, msrc (t_data src + addr (t_stride src) c) = Some v).
  { intros c Hc. pose proof (chk_backed src msrc Hf Hct Hb c Hc) as Ha. unfold allocated in Ha. destruct (msrc _); [eauto|congruence]. }
  assert (Hslv : forall c, in_slice off size c -> valid (t_shape src) c).
  { intros c [Lc Hc]. apply valid_nth; [lia|]. intros d Hd. specialize (Hc d ltac:(lia)). destruct (in_window_nth _ _ _ d Hw Hd).
    rewrite nth_indep with (l := t_shape src) (d' := 0) by lia. lia. }
  destruct (mov_single src cfg dst) eqn:Hsing.
  - (* one contiguous copy of everything *)
    pose proof Hsing as Hs2. unfold mov_single in Hs2. rewrite eff_strides_id in Hs2 by auto.
    assert (Ld : length (t_stride dst') = length (t_shape src)) by (rewrite Est; lia).
    destruct (single_facts src _ _ cfg (eq_sym Hls) Ld Lsh Hs2) as (F1 & F2 & F3). fold dst' in F2. rewrite Est in F2.
    assert (Epr : prod (t_shape src) = span (t_shape src) (t_stride src)) by (apply prod_span; auto; lia).
    assert (En : hlp_count_elem_num (t_shape src) 0 = prod (t_shape src)).
    { destruct (count_elem_num_correct (t_shape src) 0) as [_ Hc]; [lia| |lia|].
      - eapply Forall_impl; [|exact Hp1]. cbn; lia.
      - cbn [Z.to_nat skipn] in Hc. destruct (Hc ltac:(nia)) as [Hc1 _]. exact Hc1. }
    destruct (foldM_store (fun c => t_data dst + addr ds c) (fun c => match msrc (t_data src + addr (t_stride src) c) with Some v => v | None => 0 end)
        (fun c m => do v <- load msrc (t_data src + addr (t_stride src) c); store m (t_data dst + addr ds c) v) (coords (t_shape src)) m)
      as (m' & E & S1 & S2).
    { intros c m0 Hc. apply in_coords in Hc. destruct (Hsrcv c Hc) as (v & Hv). unfold load. rewrite Hv. reflexivity. }
    { intros c Hc. apply in_coords in Hc. rewrite <- Wdata. apply (chk_backed whole m Wf Wc Wb). rewrite Wsh. exact Hc. }
    { intros c1 c2 Hc1 Hc2 Ea. apply in_coords in Hc1, Hc2. assert (Ec : c1 = c2); [|rewrite Ec; reflexivity]. apply Winj; auto; lia. }
    exists dst', m'. split.
    { unfold mov_prepare. rewrite Hchk, (sub_positive src) by auto. fold dst'. cbn zeta. rewrite Hcd, Hsing.
      assert (Em : mov_memcpy msrc (t_data src) (t_data dst) (hlp_count_elem_num (t_shape src) 0) m = Some m').
      { unfold mov_memcpy. rewrite En, <- contiguous_strides_pos by (eapply Forall_impl; [|exact Hp1]; cbn; lia).
        unfold visited. rewrite foldM_map, <- E. apply foldM_ext. intros c m0 _.
        replace (addr ds c) with (addr (contiguous_strides (t_shape src)) c) by (f_equal; symmetry; exact F2). now rewrite F1. }
      rewrite Em. reflexivity. }
    assert (Hall : forall c, valid (t_shape src) c -> m' (t_data dst + addr ds c) = msrc (t_data src + addr (t_stride src) c)).
    { intros c Hc. rewrite (S1 c (proj2 (in_coords _ _) Hc)). destruct (Hsrcv c Hc) as (v & ->). reflexivity. }
    split; [reflexivity|]. split; [reflexivity|]. split; [exact Ld|]. split; [intros; apply Hall, Hslv; auto|].
    split; [intros; right; auto|]. split.
    + intros a Ha. apply S2. intros c Hc. apply Ha. now apply in_coords.
    + intros a Ha. unfold allocated in *. destruct (in_dec Z.eq_dec a (map (fun c => t_data dst + addr ds c) (coords (t_shape src)))) as [Hin'|Hout].
      * apply in_map_iff in Hin'. destruct Hin' as (c & <- & Hc). rewrite (S1 c Hc). discriminate.
      * rewrite S2; auto. intros c Hc Ec. apply Hout. apply in_map_iff. eauto.
  - (* general path: mov_loop_correct through mov_prepare *)
    assert (Hinj' : forall c1 c2, valid (mov_dst_shape src cfg) c1 -> valid (mov_dst_shape src cfg) c2 -> addr ds c1 = addr ds c2 -> c1 = c2).
    { intros. destruct (chk_tensor_sound dst') as [_ Hi]; [apply Hfd..|auto|]. rewrite Est in Hi. apply Hi; auto. }
    destruct (mov_loop_correct msrc src (t_data dst) ds cfg m Hok Hf Hct Hb) as (m' & E & _ & R2 & R3); auto; try lia.
    { intros c Hc. pose proof (chk_backed dst' m Hfd Hcd Hbd c Hc) as Ha. rewrite Est in Ha. exact Ha. }
    exists dst', m'. split.
    { unfold mov_prepare. rewrite Hchk, (sub_positive src) by auto. fold dst'. cbn zeta. rewrite Hcd, Hsing.
      rewrite eff_strides_id by auto. rewrite mov_general_loop by (auto; try lia; rewrite Est; lia).
      rewrite Est. change (t_data dst') with (t_data dst). rewrite E. reflexivity. }
    change (mov_dst_shape src cfg) with (t_shape dst') in *.
    assert (Hreg : forall c, in_slice off size c <-> (valid (t_shape dst') c /\ past_offset cfg c)).
    { intros c. rewrite Esh, <- (in_slice_iff (t_shape src) off size c Hsl). unfold past_offset, cfg, cfg_window; cbn [mc_perm mc_dst_offset].
      rewrite seq_length. tauto. }
    assert (Hcopy : forall c, in_slice off size c -> m' (t_data dst + addr ds c) = msrc (t_data src + addr (t_stride src) c)).
    { intros c Hc. pose proof (proj1 (Hreg c) Hc) as [V P]. apply (R2 c c V P); [|now apply Hslv]. destruct Hc as [Lc Hc].
      apply (mov_source_shift _ _ (length off)); auto. intros d Hd. cbn [cfg cfg_window mc_dst_offset mc_offset]. lia. }
    split; [reflexivity|]. split; [reflexivity|]. split; [rewrite Est; lia|]. split; [exact Hcopy|].
    assert (Hdec : forall c, valid (t_shape src) c -> in_slice off size c \/ ~ in_slice off size c).
    { intros c Hc. destruct (inr (zip_add size off) c && forallb (fun d => nth d off 0 <=? nth d c 0) (seq 0 (length off))) eqn:Hd.
      - left. apply andb_true_iff in Hd. destruct Hd as [D1 D2]. apply (in_slice_iff (t_shape src) off size c Hsl). split; [now apply inr_valid|].
        intros d Hd. rewrite forallb_forall in D2. specialize (D2 d). rewrite in_seq in D2. specialize (D2 ltac:(lia)). lia.
      - right. intros Hi. apply (in_slice_iff (t_shape src) off size c Hsl) in Hi. destruct Hi as [I1 I2]. apply inr_valid in I1. rewrite I1 in Hd. cbn [andb] in Hd.
        assert (forallb (fun d => nth d off 0 <=? nth d c 0) (seq 0 (length off)) = true); [|congruence].
        apply forallb_forall. intros d Hd'. apply in_seq in Hd'. specialize (I2 d ltac:(lia)). lia. }
    split; [|split].
    + intros c Hc. destruct (Hdec c Hc) as [Hi|Hi]; [right; auto|left]. apply R3. intros c' V P Ea. apply Hi. 
      replace c with c'; [apply Hreg; auto|]. apply Winj; auto; [apply Hslv, Hreg; auto|lia].
    + intros a Ha. apply R3. intros c V P. apply Ha, Hslv, Hreg. auto.
    + intros a Ha. unfold allocated in *.
      destruct (in_dec Z.eq_dec a (map (fun c => t_data dst + addr ds c) (coords (t_shape src)))) as [Hin'|Hout].
      * apply in_map_iff in Hin'. destruct Hin' as (c & <- & Hc). apply in_coords in Hc. destruct (Hdec c Hc) as [Hi|Hi].
        { rewrite Hcopy by auto. destruct (Hsrcv c Hc) as (v & ->). discriminate. }
        rewrite R3; auto. intros c' V P Ea. apply Hi. replace c with c'; [apply Hreg; auto|]. apply Winj; auto; [apply Hslv, Hreg; auto|lia].
      * rewrite R3; auto. intros c V P Ec. apply Hout. apply in_map_iff. exists c. split; auto. apply in_coords, Hslv, Hreg. auto.
Qed.

(** C21, slices. Copying any list of windows, in any order and possibly overlapping, to their own places copies
    exactly their union: covered elements equal the source's, uncovered ones are the old ones or the source's,
    everything outside the destination tensor is unchanged. *)
Theorem mov_slices_correct src whole dst msrc m (l : list (list Z * list Z)) :
  Forall (fun w => slice_of (t_shape src) (fst w) (snd w)) l -> fits32 src -> (1 <= length (t_shape src))%nat ->
  length (t_stride dst) = length (t_shape src) -> chk_tensor src = ST_OK -> t_asym src = false -> backed src msrc ->
  t_shape whole = t_shape src -> t_esz whole = t_esz src -> t_data whole = t_data dst -> t_cap whole = t_cap dst ->
  fits32 whole -> chk_tensor whole = ST_OK -> backed whole m ->
  exists dst' m', mov_all (map (fun w => (msrc, src, cfg_window (fst w) (snd w) (t_stride whole))) l) dst m = Some (dst', m')
  /\ (forall c, (exists w, In w l /\ in_slice (fst w) (snd w) c) ->
        m' (t_data whole + addr (t_stride whole) c) = msrc (t_data src + addr (t_stride src) c))
  /\ (forall c, valid (t_shape src) c ->
        m' (t_data whole + addr (t_stride whole) c) = m (t_data whole + addr (t_stride whole) c)
        \/ m' (t_data whole + addr (t_stride whole) c) = msrc (t_data src + addr (t_stride src) c))
  /\ (forall a, (forall c, valid (t_shape src) c -> t_data whole + addr (t_stride whole) c <> a) -> m' a = m a).
Proof.
  intros Hl Hf H1 Hld Hct Has Hb Wsh Wesz Wdata Wcap Wf Wc. revert dst m Hld Wdata Wcap.
  induction Hl as [|[off size] l Hw Hl IH]; intros dst m Hld Wdata Wcap Wb.
  - exists dst, m. cbn. repeat split; auto. intros c (w & [] & _).
  - cbn [fst snd] in Hw. destruct (mov_window_step src off size dst msrc m whole) as (d1 & m1 & E & D1 & D2 & D3 & R1 & R2 & R3 & R4); auto.
    destruct (IH d1 m1) as (d2 & m2 & E2 & S1 & S2 & S3); auto; try congruence.
    { eapply backed_alloc; eauto. }
    exists d2, m2. split.
    { unfold mov_all in *. cbn [map foldM fst snd]. rewrite E. cbn [bind]. exact E2. }
    rewrite Wdata in *. split; [|split].
    + intros c (w & [<-|Hin] & Hc); [|apply S1; eauto]. cbn [fst snd] in Hc.
      assert (Hv : valid (t_shape src) c).
      { destruct Hc as [Lc Hc]. pose proof Hw as [Hw' _]. pose proof Hw' as (L1 & L2 & _). apply valid_nth; [lia|]. intros d Hd. specialize (Hc d ltac:(lia)).
        destruct (in_window_nth _ _ _ d Hw' Hd). rewrite nth_indep with (l := t_shape src) (d' := 0) by lia. lia. }
      destruct (S2 c Hv) as [Hx|Hx]; rewrite Hx; auto.
    + intros c Hc. destruct (S2 c Hc) as [Hx|Hx]; rewrite Hx; auto.
    + intros a Ha. rewrite S3, R3; auto.
Qed.

(** In particular slices that cover the tensor give the same memory as one copy of the whole tensor. *)
Corollary mov_slices_whole src whole dst msrc m l l' :
  Forall (fun w => slice_of (t_shape src) (fst w) (snd w)) l -> Forall (fun w => slice_of (t_shape src) (fst w) (snd w)) l' ->
  fits32 src -> (1 <= length (t_shape src))%nat ->
  length (t_stride dst) = length (t_shape src) -> chk_tensor src = ST_OK -> t_asym src = false -> backed src msrc ->
  t_shape whole = t_shape src -> t_esz whole = t_esz src -> t_data whole = t_data dst -> t_cap whole = t_cap dst ->
  fits32 whole -> chk_tensor whole = ST_OK -> backed whole m ->
  (forall c, valid (t_shape src) c -> exists w, In w l /\ in_slice (fst w) (snd w) c) ->
  (forall c, valid (t_shape src) c -> exists w, In w l' /\ in_slice (fst w) (snd w) c) ->
  exists d1 m1 d2 m2,
    mov_all (map (fun w => (msrc, src, cfg_window (fst w) (snd w) (t_stride whole))) l) dst m = Some (d1, m1)
    /\ mov_all (map (fun w => (msrc, src, cfg_window (fst w) (snd w) (t_stride whole))) l') dst m = Some (d2, m2)
    /\ forall a, m1 a = m2 a.
Proof.
  intros Hl Hl' Hf H1 Hld Hct Has Hb Wsh Wesz Wdata Wcap Wf Wc Wb C1 C2.
  destruct (mov_slices_correct src whole dst msrc m l) as (d1 & m1 & E1 & A1 & _ & B1); auto.
  destruct (mov_slices_correct src whole dst msrc m l') as (d2 & m2 & E2 & A2 & _ & B2); auto.
  exists d1, m1, d2, m2. split; [exact E1|]. split; [exact E2|]. intros a.
  destruct (in_dec Z.eq_dec a (map (fun c => t_data whole + addr (t_stride whole) c) (coords (t_shape src)))) as [Hin|Hout].
  - apply in_map_iff in Hin. destruct Hin as (c & <- & Hc). apply in_coords in Hc. rewrite A1, A2; auto.
  - rewrite B1, B2; auto; intros c Hc Ec; apply Hout; apply in_map_iff; exists c; split; auto; now apply in_coords.
Qed.

Lemma cfg_concat_ok src off ds : Forall (fun x => 0 < x) (t_shape src) -> length off = length (t_shape src) ->
  Forall (fun x => 0 <= x) off -> length ds = length (t_shape src) ->
  cfg_ok src (cfg_for_concat (length (t_shape src)) off ds) /\ cfg_inside src (cfg_for_concat (length (t_shape src)) off ds)
  /\ mov_write_size src (cfg_for_concat (length (t_shape src)) off ds) = t_shape src.
Proof.
  intros Hp Lo Ho Ld. split; [|split].
  - unfold cfg_ok, cfg_for_concat; cbn [mc_offset mc_size mc_sub mc_dst_offset mc_dst_stride mc_perm mc_pre mc_post].
    rewrite !repeat_length, !seq_length. repeat split; auto; try apply Forall_repeat; lia.
  - intros _ j Hj. cbn [cfg_for_concat mc_offset mc_size]. rewrite !nth_repeat.
    pose proof (nth_forall _ _ j 0 Hp ltac:(lia)) as H0. cbn beta in H0. lia.
  - unfold mov_write_size, cfg_for_concat; cbn [mc_perm mc_sub].
    transitivity (map (fun k => nth k (t_shape src) 0) (seq 0 (length (t_shape src)))); [|apply map_nth_seq]. apply map_ext_in. intros j Hj. apply in_seq in Hj.
    unfold mov_cpy_size. cbn [mc_size mc_offset mc_pre mc_post]. rewrite nth_indep with (l := repeat 1 _) (d' := 1) by (rewrite repeat_length; lia).
    rewrite !nth_repeat. cbn [Z.gtb Z.compare]. unfold ceil_div. rewrite Z.div_1_r. lia.
Qed.

Lemma zip_add_id sh off : length off = length sh -> zip_add sh off = sh -> Forall (eq 0) off.
Proof.
  revert off; induction sh as [|d sh IH]; intros [|o off]; cbn [length zip_add]; try lia; auto. intros Hl E. inversion E.
  constructor; [lia|]. apply IH; auto.
Qed.

Lemma addr_zip_add st a b : length a = length st -> length b = length st -> addr st (zip_add a b) = addr st a + addr st b.
Proof. revert a b; induction st; intros [|x a'] [|y b']; cbn [length addr zip_add]; try lia. intros. rewrite IHst by lia. ring. Qed.

(** One source placed at [off]: element [c] of the source goes to [c + off], nothing else is written. *)
Lemma mov_concat_step src off dst msrc m whole :
  slice_of (t_shape whole) off (t_shape src) -> fits32 src -> (1 <= length (t_shape src))%nat ->
  length (t_stride dst) = length (t_shape src) ->
  chk_tensor src = ST_OK -> t_asym src = false -> backed src msrc ->
  t_esz whole = t_esz src -> t_data whole = t_data dst -> t_cap whole = t_cap dst ->
  fits32 whole -> chk_tensor whole = ST_OK -> backed whole m ->
  exists dst' m', mov_prepare msrc src (cfg_for_concat (length (t_shape src)) off (t_stride whole)) dst m = Some (ST_OK, dst', m')
  /\ t_data dst' = t_data dst /\ t_cap dst' = t_cap dst /\ length (t_stride dst') = length (t_shape src)
  /\ (forall c, valid (t_shape src) c ->
        m' (t_data dst + addr (t_stride whole) (zip_add c off)) = msrc (t_data src + addr (t_stride src) c))
  /\ (forall a, (forall c, valid (t_shape src) c -> t_data dst + addr (t_stride whole) (zip_add c off) <> a) -> m' a = m a).
Proof.
  intros Hsl Hf H1 Hld Hct Has Hb Wesz Wdata Wcap Wf Wc Wb.
  set (ds := t_stride whole) in *. set (cfg := cfg_for_concat (length (t_shape src)) off ds).
  pose proof Hf as (Hls & He & _ & Hsp). pose proof Wf as (Wls & _). fold ds in Wls.
  pose proof Hsl as [Hw Hs]. pose proof Hw as (L1 & L2 & _). pose proof (in_window_off _ _ _ Hw) as Ho.
  destruct (cfg_concat_ok src off ds Hs ltac:(lia) Ho ltac:(lia)) as (Hok & Hin & Ew). fold cfg in Hok, Hin, Ew.
  destruct (chk_tensor_pos whole Wc Wls) as (H4 & Hp1 & Hp2). fold ds in Hp2.
  set (dst' := mov_dst_tensor src cfg dst).
  assert (Esh : t_shape dst' = zip_add (t_shape src) off) by (cbn [dst' mov_dst_tensor t_shape]; unfold mov_dst_shape; rewrite Ew; reflexivity).
  assert (Lsh : length (t_shape dst') = length (t_shape src)) by (rewrite Esh, zip_add_length; lia).
  assert (Est : t_stride dst' = ds).
  { cbn [dst' mov_dst_tensor t_stride]. change (mc_dst_stride cfg) with ds. change (mov_dst_shape src cfg) with (t_shape dst').
    apply mov_dst_strides_cfg; auto; lia. }
  destruct (chk_tensor_smaller whole dst' Wf Wc) as (Hfd & Hcd); [rewrite Esh; now apply slice_smaller|auto|exact (eq_sym Wcap)|exact (eq_sym Wesz)|].
  assert (Hbd : backed dst' m).
  { intros a A1 A2. change (t_data dst') with (t_data dst). rewrite <- Wdata. apply Wb; auto. rewrite Wesz, Wcap. exact A2. }
  assert (Hchk : chk_data_movement src cfg = ST_OK) by (unfold chk_data_movement; rewrite Hct, Has; reflexivity).
  destruct (mov_prepare_correct src cfg dst msrc m Hok Hin Hf H1 Hld Hfd Hb Hbd) as (m' & E & _ & R2 & R3); auto.
  { destruct (Forall_dec (eq 0) (Z.eq_dec 0) off) as [Hz|Hz]; [left; exact Hz|right]. fold dst'. rewrite Esh. intros E. apply Hz. apply (zip_add_id (t_shape src)); auto; lia. }
  fold dst' in E, R2, R3. exists dst', m'. split; [exact E|]. split; [reflexivity|]. split; [reflexivity|]. split; [rewrite Est; lia|].
  rewrite Est, Esh in R2, R3.
  assert (Hpo : forall c, valid (t_shape src) c -> past_offset cfg (zip_add c off)).
  { intros c Hc d Hd. pose proof (valid_length _ _ Hc) as Lc. cbn [cfg cfg_for_concat mc_perm mc_dst_offset] in *. rewrite seq_length in Hd.
    rewrite zip_add_nth by lia. pose proof (nth_valid _ _ d Hc ltac:(lia)). lia. }
  split.
  - intros c Hc. pose proof (valid_length _ _ Hc) as Lc. apply (R2 (zip_add c off) c); auto.
    + apply valid_zip_add; auto; lia.
    + apply (mov_source_shift _ _ (length (t_shape src))); auto; cbn [cfg cfg_for_concat mc_offset mc_dst_offset].
      * rewrite zip_add_length; lia.
      * apply repeat_length.
      * lia.
      * intros d Hd. rewrite zip_add_nth, nth_repeat by lia. lia.
  - intros a Ha. apply R3. intros c Hc Hp.
    assert (Lc : length c = length (t_shape src)) by (pose proof (valid_length _ _ Hc) as L0; rewrite zip_add_length in L0; lia).
    destruct (past_split cfg src c Hok Lc Hp) as (q & Lq & Pq & ->). apply Ha. apply (zip_add_valid _ off); auto; lia.
Qed.

(** C21, concatenation. Transferring a list of sources to non-overlapping boxes of one destination tensor with
    mli_mov_cfg_for_concat leaves source [i]'s element [c] at [c + off_i], for all sources, and changes nothing
    outside of the boxes. *)
Theorem mov_concat_correct whole dst m (l : list (mem * tensor * list Z)) :
  fits32 whole -> chk_tensor whole = ST_OK -> backed whole m -> (1 <= length (t_shape whole))%nat ->
  t_data whole = t_data dst -> t_cap whole = t_cap dst -> length (t_stride dst) = length (t_shape whole) ->
  Forall (fun '(ms, src, off) =>
    slice_of (t_shape whole) off (t_shape src) /\ fits32 src /\ chk_tensor src = ST_OK /\ t_asym src = false
    /\ backed src ms /\ t_esz whole = t_esz src) l ->
  ForallOrdPairs (fun '(_, src1, off1) '(_, src2, off2) =>
    forall c, ~ (in_slice off1 (t_shape src1) c /\ in_slice off2 (t_shape src2) c)) l ->
  exists dst' m',
    mov_all (map (fun '(ms, src, off) => (ms, src, cfg_for_concat (length (t_shape src)) off (t_stride whole))) l) dst m = Some (dst', m')
  /\ (forall ms src off c, In (ms, src, off) l -> valid (t_shape src) c ->
        m' (t_data whole + addr (t_stride whole) (zip_add c off)) = ms (t_data src + addr (t_stride src) c))
  /\ (forall a, (forall ms src off c, In (ms, src, off) l -> in_slice off (t_shape src) c ->
        t_data whole + addr (t_stride whole) c <> a) -> m' a = m a).
Proof.
  intros Wf Wc Wb Wr. revert dst m Wb. 
  destruct (chk_tensor_sound whole) as [_ Winj]; [apply Wf..|auto|]. 
  induction l as [|[[ms src] off] l IH]; intros dst m Wb Wdata Wcap Wld Hl Hd.
  - exists dst, m. cbn. repeat split; auto. intros ? ? ? ? [].
  - inversion Hl as [|x y HA Hl']; subst. cbn beta iota in HA. destruct HA as (A1 & A2 & A3 & A4 & A5 & A6). inversion Hd as [|x y Hd1 Hd2]; subst.
    pose proof A1 as [Aw As]. pose proof Aw as (L1 & L2 & _).
    destruct (mov_concat_step src off dst ms m whole) as (d1 & m1 & E & D1 & D2 & D3 & R1 & R2); auto; try lia.
    assert (Hin : forall c, valid (t_shape src) c -> in_slice off (t_shape src) (zip_add c off)).
    { intros c Hc. pose proof (valid_length _ _ Hc). split; [rewrite zip_add_length; lia|]. intros d Hd'. rewrite zip_add_nth by lia.
      pose proof (nth_valid _ _ d Hc ltac:(lia)) as H0. rewrite nth_indep with (l := t_shape src) (d' := 0) in H0 by lia. lia. }
    assert (Hbox : forall sr of c, slice_of (t_shape whole) of (t_shape sr) -> in_slice of (t_shape sr) c -> valid (t_shape whole) c).
    { intros sr of c [Hw _] [Lc Hc]. pose proof Hw as (L3 & L4 & _). apply valid_nth; [lia|]. intros d Hd'. specialize (Hc d ltac:(lia)).
      destruct (in_window_nth _ _ _ d Hw Hd'). rewrite nth_indep with (l := t_shape whole) (d' := 0) by lia. lia. }
    assert (Wb1 : backed whole m1).
    { intros a Q1 Q2. specialize (Wb a Q1 Q2). unfold allocated in *.
      destruct (in_dec Z.eq_dec (t_data whole + a) (map (fun c => t_data dst + addr (t_stride whole) (zip_add c off)) (coords (t_shape src)))) as [Hi|Ho].
      - apply in_map_iff in Hi. destruct Hi as (c & <- & Hc). apply in_coords in Hc. rewrite R1 by auto. apply (chk_backed src ms A2 A3 A5 c Hc).
      - rewrite R2; auto. intros c Hc Ec. apply Ho. apply in_map_iff. exists c. split; auto. now apply in_coords. }
    destruct (IH d1 m1) as (d2 & m2 & E2 & S1 & S2); auto; try congruence; try lia.
    exists d2, m2. split.
    { unfold mov_all in *. cbn [map foldM fst snd]. rewrite E. cbn [bind]. exact E2. }
    split.
    + intros ms' src' off' c [Heq|Hi] Hc; [|apply S1; auto]. inversion Heq; subst ms' src' off'.
      rewrite S2, Wdata; [now apply R1|]. intros ms2 src2 off2 c2 Hi Hc2 Ea.
      rewrite Forall_forall in Hd1. specialize (Hd1 _ Hi). cbn beta iota in Hd1. apply (Hd1 (zip_add c off)). split; [now apply Hin|].
      replace (zip_add c off) with c2; [exact Hc2|]. apply Winj; [|apply (Hbox src off); auto|lia].
      rewrite Forall_forall in Hl'. specialize (Hl' _ Hi). cbn beta iota in Hl'. apply (Hbox src2 off2); auto. apply Hl'.
    + intros a Ha. rewrite S2, R2; auto.
      * intros c Hc. rewrite <- Wdata. apply (Ha ms src off); [now left|now apply Hin].
      * intros. eapply Ha; [right|]; eauto.
Qed.

(** * Refutations and instances *)

Definition mov_mem (n : Z) : mem := fun a => if (0 <=? a) && (a <? n) then Some (100 + a) else None.
Definition mov_zero (n : Z) : mem := fun a => if (0 <=? a) && (a <? n) then Some 0 else None.

(** The single-transfer test looks at the destination shape, which includes dst_offset: moving the first two of
    four elements to positions 2 and 3 takes the fast path and copies all four elements to position 0. *)
Theorem mov_fast_path_refuted : exists src cfg dst msrc m m',
  cfg_ok src cfg /\ cfg_inside src cfg
  /\ mov_prepare msrc src cfg dst m = Some (ST_OK, mov_dst_tensor src cfg dst, m')
  /\ (* element 2 of the destination should be element 0 of the source *)
     mov_source cfg [2] [0] /\ past_offset cfg [2]
  /\ m' (t_data dst + 2) <> msrc (t_data src + 0)
  /\ (* and element 0 should be unchanged *) m' (t_data dst) <> m (t_data dst).
Proof.
  set (src := mkTensor 0 4 1 [4] [1] false (-1) 0).
  set (cfg := mkMovCfg [0] [2] [1] [2] [0] [0%nat] [0] [0]).
  set (dst := mkTensor 0 4 1 [0] [0] false (-1) 0).
  destruct (mov_prepare (mov_mem 4) src cfg dst (mov_zero 4)) as [[[s d] m']|] eqn:E; [|vm_compute in E; discriminate].
  exists src, cfg, dst, (mov_mem 4), (mov_zero 4), m'.
  split; [repeat split; cbn; repeat constructor; lia|]. split; [intros _ [|j]; cbn; lia|].
  split; [vm_compute in E; inversion E; vm_compute; reflexivity|]. split; [repeat split; intros [|[|]]; cbn; lia|].
  split; [intros [|]; cbn; lia|]. vm_compute in E. inversion E. split; vm_compute; discriminate.
Qed.

(** Without padding a region that leaves the source is accepted, and the copy reads outside of the buffer. *)
Theorem mov_inside_refuted : exists src cfg dst msrc m,
  cfg_ok src cfg /\ chk_data_movement src cfg = ST_OK /\ chk_tensor (mov_dst_tensor src cfg dst) = ST_OK
  /\ backed src msrc /\ backed (mov_dst_tensor src cfg dst) m /\ mov_prepare msrc src cfg dst m = None.
Proof.
  exists (mkTensor 0 4 1 [4] [1] false (-1) 0), (mkMovCfg [3] [2] [1] [0] [0] [0%nat] [0] [0]), (mkTensor 0 4 1 [0] [0] false (-1) 0),
    (mov_mem 4), (mov_zero 4).
  split; [repeat split; cbn; repeat constructor; lia|]. split; [vm_compute; reflexivity|]. split; [vm_compute; reflexivity|].
  split; [|split; [|vm_compute; reflexivity]].
  - intros a H1 H2. cbn [t_data t_esz t_cap] in *. unfold allocated, mov_mem. destruct (Z.leb_spec 0 (0 + a)); [|lia]. destruct (Z.ltb_spec (0 + a) 4); [|lia]. cbn. discriminate.
  - intros a H1 H2. cbn [t_data t_esz t_cap mov_dst_tensor] in *. unfold allocated, mov_zero. destruct (Z.leb_spec 0 (0 + a)); [|lia]. destruct (Z.ltb_spec (0 + a) 4); [|lia]. cbn. discriminate.
Qed.

(** A non-trivial transfer: 3x4 source with strides, permuted, subsampled along one dimension, padded along the
    other, written with an offset. *)
Example mov_prepare_ex :
  let src := mkTensor 1 60 1 [3; 4] [5; 1] false (-1) 0 in
  let cfg := mkMovCfg [0; 1] [0; 3] [1; 2] [1; 0] [0; 0] [1; 0]%nat [1; 0] [1; 0] in
  let dst := mkTensor 0 30 1 [0; 0] [0; 0] false (-1) 0 in
  cfg_ok src cfg /\ cfg_inside src cfg /\ fits32 src /\ chk_data_movement src cfg = ST_OK
  /\ fits32 (mov_dst_tensor src cfg dst) /\ chk_tensor (mov_dst_tensor src cfg dst) = ST_OK
  /\ t_shape (mov_dst_tensor src cfg dst) = [3; 5] /\ t_shape (mov_dst_tensor src cfg dst) <> t_shape src
  /\ match mov_prepare (mov_mem 60) src cfg dst (mov_zero 30) with
     | Some (ST_OK, d, m') => map m' (zrange 0 15)
         = map Some [0; 0; 0; 0; 0;   0; 102; 107; 112; 0;   0; 104; 109; 114; 0]
     | _ => False
     end.
Proof.
  cbn zeta. split; [repeat split; cbn; try (repeat constructor; lia); apply perm_swap|]. split; [intros H; discriminate|].
  split; [split; [reflexivity|]; split; [cbn; lia|]; split; [repeat constructor; cbn; lia|cbn; lia]|]. split; [vm_compute; reflexivity|].
  split; [split; [reflexivity|]; split; [cbn; lia|]; split; [repeat constructor; cbn; lia|cbn; lia]|].
  split; [vm_compute; reflexivity|]. split; [vm_compute; reflexivity|]. split; [vm_compute; discriminate|]. vm_compute. reflexivity.
Qed.

(** Slices of a 3x2 tensor into a strided destination, and a concatenation of two tensors. *)
Example mov_slices_ex :
  let src := mkTensor 0 6 1 [3; 2] [2; 1] false (-1) 0 in
  let whole := mkTensor 4 12 1 [3; 2] [4; 1] false (-1) 0 in
  slice_of [3; 2] [1; 0] [2; 2] /\ slice_of [3; 2] [0; 0] [1; 2] /\ chk_tensor src = ST_OK /\ chk_tensor whole = ST_OK
  /\ match mov_all (map (fun w => (mov_mem 6, src, cfg_window (fst w) (snd w) (t_stride whole))) [([1; 0], [2; 2]); ([0; 0], [1; 2])])
             whole (mov_zero 16) with
     | Some (_, m') => map m' (zrange 3 15) = map Some [0; 100; 101; 0; 0; 102; 103; 0; 0; 104; 105; 0]
     | None => False
     end.
Proof.
  cbn zeta. split; [repeat split; repeat constructor; cbn; lia|]. split; [repeat split; repeat constructor; cbn; lia|].
  repeat split; vm_compute; reflexivity.
Qed.

Example mov_concat_ex :
  let a := mkTensor 0 2 1 [2; 1] [1; 1] false (-1) 0 in
  let b := mkTensor 2 4 1 [2; 2] [2; 1] false (-1) 0 in
  let whole := mkTensor 0 6 1 [2; 3] [3; 1] false (-1) 0 in
  slice_of [2; 3] [0; 0] [2; 1] /\ slice_of [2; 3] [0; 1] [2; 2]
  /\ (forall c, ~ (in_slice [0; 0] [2; 1] c /\ in_slice [0; 1] [2; 2] c))
  /\ match mov_all (map (fun '(ms, src, off) => (ms, src, cfg_for_concat (length (t_shape src)) off (t_stride whole)))
             [(mov_mem 2, a, [0; 0]); (mov_mem 6, b, [0; 1])]) whole (mov_zero 6) with
     | Some (_, m') => map m' (zrange 0 6) = map Some [100; 102; 103; 101; 104; 105]
     | None => False
     end.
Proof.
  cbn zeta. split; [repeat split; repeat constructor; cbn; lia|]. split; [repeat split; repeat constructor; cbn; lia|].
  split; [|vm_compute; reflexivity]. intros c [[_ H1] [_ H2]]. specialize (H1 1%nat ltac:(cbn; lia)). specialize (H2 1%nat ltac:(cbn; lia)). cbn in *. lia.
Qed.
