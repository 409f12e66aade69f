(** Proofs about DMA channel handles and callbacks (C23-C25). *)
From Coq Require Import ZArith List Lia Bool.
From Verif Require Import Base Dma.
Import ListNotations.
Open Scope Z_scope.

(** * Specification *)

(** A handle is live from a successful acquire to its release. *)
Definition live (h : mov_handle) : Prop := h_state h <> MS_INVALID.
(** Channel [c] belongs to the handle. *)
Definition owns (h : mov_handle) (c : Z) : Prop := h_ch h <= c < h_ch h + h_num h.
(** No live handle has channel [c]. *)
Definition free_channel (w : dma_world) (c : Z) : Prop := forall id, live (w_handle w id) -> ~ owns (w_handle w id) c.
(** [n] adjacent free channels of the pool of [size] channels at [base] start at [i]. *)
Definition free_run (base size : Z) (w : dma_world) (i n : Z) : Prop :=
  base <= i /\ i + n <= base + size /\ forall c, i <= c < i + n -> free_channel w c.

(** The callback registered on handle [id] since it was acquired, from the history (most recent call first). *)
Fixpoint last_reg (hist : list dma_op) (id : nat) : option (Z * Z) :=
  match hist with
  | [] => None
  | OpRegister j cb ck :: tl => if Nat.eqb j id then Some (cb, ck) else last_reg tl id
  | OpAcquire j _ :: tl => if Nat.eqb j id then None else last_reg tl id
  | OpRelease j :: tl => if Nat.eqb j id then None else last_reg tl id
  | _ :: tl => last_reg tl id
  end.

(** Calls a correct user makes: acquire at least one channel, into a handle that is not live, with the request
    not reaching past the channel table from the last channel of the pool; the transfer functions only on live handles; start only
    after a callback has been registered. *)
Definition good_op (base size : Z) (hist : list dma_op) (w : dma_world) (o : dma_op) : Prop :=
  match o with
  | OpAcquire id n => ~ live (w_handle w id) /\ 1 <= n /\ base + size + n - 1 <= max_dma_chan
  | OpRelease id => True
  | OpRegister id _ _ => live (w_handle w id)
  | OpPrepare id => live (w_handle w id)
  | OpStart id => live (w_handle w id) /\ last_reg hist id <> None
  end.

(** Histories of such calls after one mli_mov_set_num_dma_ch(base, size). *)
Inductive dma_reach (base size : Z) : list dma_op -> dma_world -> Prop :=
| dr_init p : set_num_dma_ch base size dma_pool_init = Some p ->
    dma_reach base size [] (mkWorld p (w_cb dma_world_init) (w_handle dma_world_init) (w_log dma_world_init))
| dr_step hist w o w' : dma_reach base size hist w -> good_op base size hist w o -> dma_step o w = Some w' ->
    dma_reach base size (o :: hist) w'.

(** * Loops over channels *)

Lemma ch_set_loop s off : forall l p, Forall (fun c => 0 <= off + c < max_dma_chan) l ->
  exists p', foldM (fun c p => ch_set p (off + c) s) l p = Some p' /\ dp_base p' = dp_base p /\ dp_size p' = dp_size p
  /\ forall j, dp_status p' j = if existsb (fun c => j =? off + c) l then s else dp_status p j.
Proof.
  induction l as [|c l IH]; intros p Hl; cbn [foldM existsb].
  - exists p. auto.
  - inversion Hl; subst. unfold ch_set at 1. destruct (Z.leb_spec 0 (off + c)); [|lia]. destruct (Z.ltb_spec (off + c) max_dma_chan); [|lia].
    cbn [andb]. destruct (IH (mkPool (dp_base p) (dp_size p) (fun j => if j =? off + c then s else dp_status p j)) H2) as (p' & E & B & S & T).
    exists p'. split; [exact E|]. split; [exact B|]. split; [exact S|]. intros j. rewrite T. cbn [dp_status].
    destruct (existsb (fun c0 => j =? off + c0) l), (j =? off + c); reflexivity.
Qed.

Lemma existsb_range j off n : existsb (fun c => j =? off + c) (zrange 0 n) = (off <=? j) && (j <? off + n).
Proof.
  apply eq_true_iff_eq. rewrite existsb_exists. rewrite andb_true_iff. split.
  - intros (c & Hc & He). apply in_zrange in Hc. lia.
  - intros H. exists (j - off). rewrite in_zrange. lia.
Qed.

Lemma ch_set_range s off n p : 0 <= off -> off + n <= max_dma_chan ->
  exists p', foldM (fun c p => ch_set p (off + c) s) (zrange 0 n) p = Some p' /\ dp_base p' = dp_base p /\ dp_size p' = dp_size p
  /\ forall j, dp_status p' j = if (off <=? j) && (j <? off + n) then s else dp_status p j.
Proof.
  intros H1 H2. destruct (ch_set_loop s off (zrange 0 n) p) as (p' & E & B & S & T).
  - apply Forall_forall. intros c Hc. apply in_zrange in Hc. lia.
  - exists p'. split; [exact E|]. split; [exact B|]. split; [exact S|]. intros j. rewrite T, existsb_range. reflexivity.
Qed.

Lemma acq_found_spec p i n : 0 <= i -> i + n <= max_dma_chan ->
  exists b, acq_found p i n = Some b /\ (b = true <-> forall c, i <= c < i + n -> dp_status p c = CH_AVAILABLE).
Proof.
  intros H1 H2. unfold acq_found.
  assert (G : forall l f, Forall (fun c => 0 <= i + c < max_dma_chan) l ->
     exists b, foldM (fun c found => do s <- ch_get p (i + c); Some (found && is_available s)) l f = Some b
     /\ (b = true <-> f = true /\ forall c, In c l -> dp_status p (i + c) = CH_AVAILABLE)).
  { induction l as [|c l IH]; intros f Hl; cbn [foldM].
    - exists f. split; [reflexivity|]. split; [intros; split; auto; intros ? []|tauto].
    - inversion Hl; subst. unfold ch_get at 1. destruct (Z.leb_spec 0 (i + c)); [|lia]. destruct (Z.ltb_spec (i + c) max_dma_chan); [|lia].
      cbn [andb bind]. destruct (IH (f && is_available (dp_status p (i + c))) H4) as (b & E & Hb). exists b. split; [exact E|].
      rewrite Hb, andb_true_iff. split.
      + intros [[A B] C]. split; [exact A|]. intros c' [<-|Hc]; [|auto]. destruct (dp_status p (i + c)); auto; discriminate.
      + intros [A B]. split; [|intros; apply B; now right]. split; [exact A|]. rewrite B by (now left). reflexivity. }
  destruct (G (zrange 0 n) true) as (b & E & Hb).
  - apply Forall_forall. intros c Hc. apply in_zrange in Hc. lia.
  - exists b. split; [exact E|]. rewrite Hb. split.
    + intros [_ H] c Hc. replace c with (i + (c - i)) by lia. apply H. apply in_zrange. lia.
    + intros H. split; [reflexivity|]. intros c Hc. apply in_zrange in Hc. apply H. lia.
Qed.

(** Acquire takes the first run of available channels. *)
Lemma acq_scan_spec p n l : Forall (fun i => 0 <= i /\ i + n <= max_dma_chan) l ->
  exists r p', acq_scan p n l = Some (r, p') /\ dp_base p' = dp_base p /\ dp_size p' = dp_size p
  /\ match r with
     | None => (forall j, dp_status p' j = dp_status p j)
               /\ forall i, In i l -> ~ (forall c, i <= c < i + n -> dp_status p c = CH_AVAILABLE)
     | Some h => In (h_ch h) l /\ h_num h = n /\ h_state h = MS_OPEN
               /\ (forall c, h_ch h <= c < h_ch h + n -> dp_status p c = CH_AVAILABLE)
               /\ (forall j, dp_status p' j = if (h_ch h <=? j) && (j <? h_ch h + n) then CH_IN_USE else dp_status p j)
     end.
Proof.
  induction l as [|i l IH]; intros Hl; cbn [acq_scan].
  - exists None, p. repeat split; auto; intros ? [].
  - inversion Hl as [|x y [Hi1 Hi2] Hl']; subst. destruct (acq_found_spec p i n Hi1 Hi2) as (b & E & Hb). rewrite E. cbn [bind].
    destruct b.
    + destruct (ch_set_range CH_IN_USE i n p Hi1 Hi2) as (p' & E2 & B & S & T). rewrite E2. cbn [bind].
      eexists (Some _), p'. split; [reflexivity|]. cbn [h_ch h_num h_state]. repeat split; auto; try (now left). apply Hb. reflexivity.
    + destruct (IH Hl') as (r & p' & E2 & B & S & T). exists r, p'. split; [exact E2|]. split; [exact B|]. split; [exact S|].
      destruct r as [h|].
      * destruct T as (T1 & T2 & T3 & T4 & T5). repeat split; auto. now right.
      * destruct T as [T1 T2]. split; [exact T1|]. intros j [<-|Hj]; [|auto]. intros H. apply Hb in H. discriminate.
Qed.

(** * The invariant *)

Record dma_inv (base size : Z) (hist : list dma_op) (w : dma_world) : Prop := {
  di_pool : dp_base (w_pool w) = base /\ dp_size (w_pool w) = size;
  di_avail : forall c, dp_status (w_pool w) c = CH_AVAILABLE <-> (base <= c < base + size /\ free_channel w c);
  di_live : forall id, live (w_handle w id) -> 1 <= h_num (w_handle w id)
              /\ base <= h_ch (w_handle w id) /\ h_ch (w_handle w id) + h_num (w_handle w id) <= base + size;
  di_dead : forall id, ~ live (w_handle w id) -> w_handle w id = handle_zero;
  di_disj : forall i j c, i <> j -> live (w_handle w i) -> live (w_handle w j) -> owns (w_handle w i) c -> ~ owns (w_handle w j) c;
  di_cb : forall id r, live (w_handle w id) -> last_reg hist id = Some r -> w_cb w (h_ch (w_handle w id)) = Some r }.

Lemma live_dec h : live h \/ ~ live h.
Proof. unfold live. destruct (h_state h); (left; discriminate) || (right; intros H; now apply H). Qed.

Lemma owns_dec h c : {owns h c} + {~ owns h c}.
Proof. unfold owns. destruct (Z_le_dec (h_ch h) c), (Z_lt_dec c (h_ch h + h_num h)); (left; lia) || (right; lia). Qed.

Lemma dma_init_inv base size p : 0 <= base -> base + size <= max_dma_chan ->
  set_num_dma_ch base size dma_pool_init = Some p ->
  dma_inv base size [] (mkWorld p (w_cb dma_world_init) (w_handle dma_world_init) (w_log dma_world_init)).
Proof.
  intros H1 H2 E. unfold set_num_dma_ch in E.
  destruct (ch_set_range CH_AVAILABLE base size (mkPool base size (dp_status dma_pool_init)) H1 H2) as (p' & E2 & B & S & T).
  assert (p = p').
  { assert (foldM (fun i p => ch_set p (i + base) CH_AVAILABLE) (zrange 0 size) (mkPool base size (dp_status dma_pool_init))
            = foldM (fun i p => ch_set p (base + i) CH_AVAILABLE) (zrange 0 size) (mkPool base size (dp_status dma_pool_init))) as E3.
    { apply foldM_ext. intros. now rewrite Z.add_comm. }
    congruence. } subst p'.
  constructor; cbn [w_pool w_handle w_cb dma_world_init last_reg] in *; auto.
  - intros c. rewrite T. cbn [dp_status dma_pool_init]. split.
    + destruct (Z.leb_spec base c), (Z.ltb_spec c (base + size)); cbn [andb]; try discriminate. intros _. split; [lia|].
      intros id Hl. exfalso. now apply Hl.
    + intros [Hc _]. destruct (Z.leb_spec base c), (Z.ltb_spec c (base + size)); try lia. reflexivity.
  - intros id Hl. exfalso. now apply Hl.
Qed.

Lemma last_reg_other o hist id : (match o with OpAcquire j _ | OpRelease j | OpRegister j _ _ => j <> id | _ => True end) ->
  last_reg (o :: hist) id = last_reg hist id.
Proof. destruct o; cbn; auto; intros H; apply Nat.eqb_neq in H; now rewrite H. Qed.

Lemma set_handle_same f id h : set_handle f id h id = h.
Proof. unfold set_handle. now rewrite Nat.eqb_refl. Qed.
Lemma set_handle_other f id h j : j <> id -> set_handle f id h j = f j.
Proof. intros H. unfold set_handle. apply Nat.eqb_neq in H. now rewrite H. Qed.

Lemma acquire_facts base size hist w n : 0 <= base -> 1 <= n -> base + size + n - 1 <= max_dma_chan -> dma_inv base size hist w ->
  exists r p', acquire_handle n (w_pool w) = Some (r, p') /\ dp_base p' = base /\ dp_size p' = size
  /\ match r with
     | None => (forall j, dp_status p' j = dp_status (w_pool w) j) /\ forall i, ~ free_run base size w i n
     | Some h => h_num h = n /\ h_state h = MS_OPEN /\ free_run base size w (h_ch h) n
               /\ (forall j, dp_status p' j = if (h_ch h <=? j) && (j <? h_ch h + n) then CH_IN_USE else dp_status (w_pool w) j)
     end.
Proof.
  intros H0 H1 H2 [[P1 P2] Av _ _ _ _]. unfold acquire_handle. rewrite P1, P2.
  destruct (acq_scan_spec (w_pool w) n (zrange base (base + size))) as (r & p' & E & B & S & T).
  { apply Forall_forall. intros i Hi. apply in_zrange in Hi. lia. }
  exists r, p'. rewrite P1 in B. rewrite P2 in S. split; [exact E|]. split; [exact B|]. split; [exact S|]. destruct r as [h|].
  - destruct T as (T1 & T2 & T3 & T4 & T5). repeat split; auto.
    + apply in_zrange in T1. lia.
    + pose proof (proj1 (Av _) (T4 (h_ch h + n - 1) ltac:(lia))) as [? _]. lia.
    + intros c Hc. apply Av. apply T4. lia.
  - destruct T as [T1 T2]. split; [exact T1|]. intros i (F1 & F2 & F3). apply (T2 i).
    + apply in_zrange. lia.
    + intros c Hc. apply Av. split; [lia|]. apply F3. lia.
Qed.

Lemma dma_step_inv base size hist w o : 0 <= base -> base + size <= max_dma_chan ->
  dma_inv base size hist w -> good_op base size hist w o ->
  exists w', dma_step o w = Some w' /\ dma_inv base size (o :: hist) w'.
Proof.
  intros H0 H16 I G. pose proof I as [[P1 P2] Av Lv Dd Dj Cb]. destruct o as [id n|id|id cb ck|id|id]; cbn [good_op dma_step] in *.
  - (* acquire *)
    destruct G as (Gl & G1 & G2). destruct (acquire_facts base size hist w n H0 G1 G2 I) as (r & p' & E & B & S & T). rewrite E. cbn [bind fst snd].
    eexists. split; [reflexivity|]. destruct r as [h|].
    + destruct T as (T2 & T3 & (F1 & F2 & F3) & T5). constructor; cbn [w_pool w_handle w_cb]; auto.
      * intros c. rewrite T5. split.
        { destruct (Z.leb_spec (h_ch h) c), (Z.ltb_spec c (h_ch h + n)); cbn [andb]; try discriminate; intros Ha; apply Av in Ha; destruct Ha as [Ha1 Ha2].
          all: split; [exact Ha1|]; intros j; cbn [w_handle]; unfold set_handle; destruct (Nat.eqb j id); [unfold owns; lia|apply Ha2]. }
        { intros [Hc Hf]. assert (~ owns h c) as Hno.
          { specialize (Hf id). cbn [w_handle] in Hf. rewrite set_handle_same in Hf. apply Hf. unfold live. rewrite T3. discriminate. }
          unfold owns in Hno. destruct (Z.leb_spec (h_ch h) c), (Z.ltb_spec c (h_ch h + n)); cbn [andb]; try lia.
          all: apply Av; split; [exact Hc|]; intros j Hj; specialize (Hf j); cbn [w_handle] in Hf; destruct (Nat.eq_dec j id) as [->|Hne]; [tauto|].
          all: rewrite set_handle_other in Hf by auto; auto. }
      * intros j. unfold set_handle. destruct (Nat.eqb j id); [intros _; lia|apply Lv].
      * intros j. unfold set_handle. destruct (Nat.eqb j id); [|apply Dd]. intros Hn. exfalso. apply Hn. unfold live. rewrite T3. discriminate.
      * intros i j c Hij. unfold set_handle. destruct (Nat.eqb i id) eqn:Ei; destruct (Nat.eqb j id) eqn:Ej.
        { apply Nat.eqb_eq in Ei, Ej. congruence. }
        { intros _ Hl Ho. apply (F3 c); auto. unfold owns in Ho. lia. }
        { intros Hl _ Ho Ho2. apply (F3 c) with (id := i); auto. unfold owns in Ho2. lia. }
        { intros. eapply Dj; eauto. }
      * intros j r Hl Hr. cbn [last_reg] in Hr. destruct (Nat.eqb id j) eqn:Ej; [discriminate|]. apply Nat.eqb_neq in Ej.
        rewrite set_handle_other in * by auto. auto.
    + destruct T as [T1 T2]. constructor; cbn [w_pool w_handle w_cb]; auto.
      * intros c. rewrite T1. apply Av.
      * intros j r Hl Hr. cbn [last_reg] in Hr. destruct (Nat.eqb id j) eqn:Ej; [discriminate|]. auto.
  - (* release *)
    unfold release_handle. set (h := w_handle w id) in *.
    assert (Hrange : 0 <= h_ch h /\ h_ch h + h_num h <= max_dma_chan).
    { destruct (live_dec h) as [Hl|Hl]; [specialize (Lv id Hl); fold h in Lv; lia|]. unfold h. rewrite (Dd id Hl). cbn. unfold max_dma_chan. lia. }
    destruct (ch_set_range CH_AVAILABLE (h_ch h) (h_num h) (w_pool w) ltac:(lia) ltac:(lia)) as (p' & E & B & S & T).
    rewrite E. cbn [bind fst snd]. eexists. split; [reflexivity|]. constructor; cbn [w_pool w_handle w_cb]; try lia.
    + intros c. rewrite T. split.
      * destruct (Z.leb_spec (h_ch h) c), (Z.ltb_spec c (h_ch h + h_num h)); cbn [andb]; intros Ha.
        { assert (Hl : live h). { destruct (live_dec h) as [Hl|Hl]; [exact Hl|]. unfold h in *. rewrite (Dd id Hl) in *. cbn in *. lia. }
          specialize (Lv id Hl). fold h in Lv. split; [lia|]. intros j. cbn [w_handle]. unfold set_handle. destruct (Nat.eqb j id) eqn:Ej.
          - intros Hz. exfalso. now apply Hz.
          - apply Nat.eqb_neq in Ej. intros Hj. apply (Dj id j c); auto. fold h. unfold owns. lia. }
        all: apply Av in Ha; destruct Ha as [Ha1 Ha2]; split; [exact Ha1|]; intros j; cbn [w_handle]; unfold set_handle; destruct (Nat.eqb j id); [intros Hz; exfalso; now apply Hz|apply Ha2].
      * intros [Hc Hf]. destruct (Z.leb_spec (h_ch h) c), (Z.ltb_spec c (h_ch h + h_num h)); cbn [andb]; auto.
        all: apply Av; split; [exact Hc|]; intros j Hj; destruct (Nat.eq_dec j id) as [->|Hne]; [fold h; unfold owns; lia|];
          specialize (Hf j); cbn [w_handle] in Hf; rewrite set_handle_other in Hf by auto; auto.
    + intros j. unfold set_handle. destruct (Nat.eqb j id); [intros Hz; exfalso; now apply Hz|apply Lv].
    + intros j. unfold set_handle. destruct (Nat.eqb j id); [reflexivity|apply Dd].
    + intros i j c Hij. unfold set_handle. destruct (Nat.eqb i id), (Nat.eqb j id); try (intros Hz; exfalso; now apply Hz); try (intros _ Hz; exfalso; now apply Hz).
      apply Dj; auto.
    + intros j r Hl Hr. cbn [last_reg] in Hr. destruct (Nat.eqb id j) eqn:Ej; [discriminate|]. apply Nat.eqb_neq in Ej.
      rewrite set_handle_other in * by auto. auto.
  - (* register *)
    unfold register_callback. pose proof (Lv id G) as Lid. destruct (Z.leb_spec 0 (h_ch (w_handle w id))); [|lia].
    destruct (Z.ltb_spec (h_ch (w_handle w id)) max_dma_chan); [|lia]. cbn [andb bind]. eexists. split; [reflexivity|].
    constructor; cbn [w_pool w_handle w_cb]; auto.
    intros j r Hl Hr. cbn [last_reg] in Hr. destruct (Nat.eqb id j) eqn:Ej.
    + apply Nat.eqb_eq in Ej. subst j. rewrite Z.eqb_refl. exact Hr.
    + apply Nat.eqb_neq in Ej. destruct (Z.eqb_spec (h_ch (w_handle w j)) (h_ch (w_handle w id))) as [Heq|Hneq]; [|auto].
      exfalso. pose proof (Lv j Hl). apply (Dj id j (h_ch (w_handle w id)) Ej G Hl); unfold owns; lia.
  - (* prepare *)
    eexists. split; [reflexivity|]. set (h := w_handle w id) in *. set (h' := mkHandle (h_ch h) (h_num h) MS_PREPARED).
    assert (Hl' : live h') by (unfold live; cbn; discriminate).
    assert (Hsame : forall j, live (set_handle (w_handle w) id h' j) -> live (w_handle w j)) by (intros j; unfold set_handle; destruct (Nat.eqb_spec j id); subst; auto).
    assert (Hback : forall j, live (w_handle w j) -> live (set_handle (w_handle w) id h' j)) by (intros j; unfold set_handle; destruct (Nat.eqb_spec j id); subst; auto).
    assert (Hch : forall j, h_ch (set_handle (w_handle w) id h' j) = h_ch (w_handle w j) /\ h_num (set_handle (w_handle w) id h' j) = h_num (w_handle w j))
      by (intros j; unfold set_handle; destruct (Nat.eqb_spec j id); subst; auto).
    assert (Hown : forall j c, owns (set_handle (w_handle w) id h' j) c <-> owns (w_handle w j) c) by (intros j c; destruct (Hch j) as [-> ->] || (unfold owns; destruct (Hch j) as [E1 E2]; rewrite E1, E2; tauto)).
    constructor; cbn [w_pool w_handle w_cb last_reg]; auto.
    + intros c. rewrite Av. unfold free_channel. cbn [w_handle]. split; intros [A B]; split; auto; intros j Hj; [rewrite Hown; auto|rewrite <- Hown; auto].
    + intros j Hj. destruct (Hch j) as [E1 E2]. rewrite E1, E2. auto.
    + intros j Hj. unfold set_handle in *. destruct (Nat.eqb_spec j id); [tauto|auto].
    + intros i j c Hij Hi Hj. rewrite !Hown. apply Dj; auto.
    + intros j r Hj. destruct (Hch j) as [E1 E2]. rewrite E1. auto.
  - (* start *)
    destruct G as [Gl Gr]. unfold mov_start. pose proof (Lv id Gl) as Lid. set (h := w_handle w id) in *.
    destruct (Z.leb_spec 0 (h_ch h)); [|lia]. destruct (Z.ltb_spec (h_ch h) max_dma_chan); [|lia]. cbn [andb bind fst snd].
    eexists. split; [reflexivity|]. set (h' := mkHandle (h_ch h) (h_num h) MS_DONE).
    assert (Hl' : live h') by (unfold live; cbn; discriminate).
    assert (Hsame : forall j, live (set_handle (w_handle w) id h' j) -> live (w_handle w j)) by (intros j; unfold set_handle; destruct (Nat.eqb_spec j id); subst; auto).
    assert (Hback : forall j, live (w_handle w j) -> live (set_handle (w_handle w) id h' j)) by (intros j; unfold set_handle; destruct (Nat.eqb_spec j id); subst; auto).
    assert (Hch : forall j, h_ch (set_handle (w_handle w) id h' j) = h_ch (w_handle w j) /\ h_num (set_handle (w_handle w) id h' j) = h_num (w_handle w j))
      by (intros j; unfold set_handle; destruct (Nat.eqb_spec j id); subst; auto).
    assert (Hown : forall j c, owns (set_handle (w_handle w) id h' j) c <-> owns (w_handle w j) c) by (intros j c; unfold owns; destruct (Hch j) as [E1 E2]; rewrite E1, E2; tauto).
    constructor; cbn [w_pool w_handle w_cb last_reg]; auto.
    + intros c. rewrite Av. unfold free_channel. cbn [w_handle]. split; intros [A B]; split; auto; intros j Hj; [rewrite Hown; auto|rewrite <- Hown; auto].
    + intros j Hj. destruct (Hch j) as [E1 E2]. rewrite E1, E2. auto.
    + intros j Hj. unfold set_handle in *. destruct (Nat.eqb_spec j id); [tauto|auto].
    + intros i j c Hij Hi Hj. rewrite !Hown. apply Dj; auto.
    + intros j r Hj. destruct (Hch j) as [E1 E2]. rewrite E1. auto.
Qed.

Lemma dma_reach_inv base size hist w : 0 <= base -> base + size <= max_dma_chan ->
  dma_reach base size hist w -> dma_inv base size hist w.
Proof.
  intros H0 H16. induction 1; [now apply dma_init_inv|].
  destruct (dma_step_inv base size hist w o H0 H16 IHdma_reach H1) as (w2 & E & I). congruence.
Qed.

(** * C23 *)

(** Correct calls never run into undefined behaviour. *)
Theorem dma_no_ub base size hist w o : 0 <= base -> base + size <= max_dma_chan ->
  dma_reach base size hist w -> good_op base size hist w o -> exists w', dma_step o w = Some w'.
Proof.
  intros H0 H16 R G. destruct (dma_step_inv base size hist w o H0 H16 (dma_reach_inv _ _ _ _ H0 H16 R) G) as (w' & E & _). eauto.
Qed.

(** Live handles never share a channel. *)
Theorem dma_handles_disjoint base size hist w i j c : 0 <= base -> base + size <= max_dma_chan ->
  dma_reach base size hist w -> i <> j -> live (w_handle w i) -> live (w_handle w j) ->
  ~ (owns (w_handle w i) c /\ owns (w_handle w j) c).
Proof.
  intros H0 H16 R Hij Hi Hj [Ho1 Ho2]. apply (di_disj _ _ _ _ (dma_reach_inv _ _ _ _ H0 H16 R) i j c); auto.
Qed.

(** Acquire succeeds exactly when the pool has a long enough run of channels that no live handle has, and the
    handle then gets such a run. *)
Theorem dma_acquire_complete base size hist w id n : 0 <= base -> base + size <= max_dma_chan ->
  dma_reach base size hist w -> good_op base size hist w (OpAcquire id n) ->
  exists w', dma_step (OpAcquire id n) w = Some w'
  /\ (forall j, j <> id -> w_handle w' j = w_handle w j)
  /\ ((exists i, free_run base size w i n) ->
        live (w_handle w' id) /\ h_num (w_handle w' id) = n /\ free_run base size w (h_ch (w_handle w' id)) n)
  /\ ((forall i, ~ free_run base size w i n) -> w_handle w' id = w_handle w id /\ ~ live (w_handle w' id)).
Proof.
  intros H0 H16 R (Gl & G1 & G2). pose proof (dma_reach_inv _ _ _ _ H0 H16 R) as I.
  destruct (acquire_facts base size hist w n H0 G1 G2 I) as (r & p' & E & _ & _ & T). cbn [dma_step]. rewrite E. cbn [bind fst snd].
  eexists. split; [reflexivity|]. cbn [w_handle]. destruct r as [h|].
  - destruct T as (T2 & T3 & F & _). rewrite set_handle_same. split; [intros; now apply set_handle_other|]. split.
    + intros _. split; [unfold live; rewrite T3; discriminate|]. auto.
    + intros Hn. exfalso. now apply (Hn (h_ch h)).
  - destruct T as [_ T]. split; [auto|]. split; [intros (i & Hi); exfalso; now apply (T i)|auto].
Qed.

(** After a release the same number of channels can be acquired again at once. *)
Theorem dma_release_reacquire base size hist w id n : 0 <= base -> base + size <= max_dma_chan ->
  dma_reach base size hist w -> live (w_handle w id) -> n = h_num (w_handle w id) -> base + size + n - 1 <= max_dma_chan ->
  exists w1 w2, dma_step (OpRelease id) w = Some w1 /\ ~ live (w_handle w1 id)
  /\ dma_step (OpAcquire id n) w1 = Some w2 /\ live (w_handle w2 id) /\ h_num (w_handle w2 id) = n.
Proof.
  intros H0 H16 R Hl -> Hn. pose proof (dma_reach_inv _ _ _ _ H0 H16 R) as I. destruct (di_live _ _ _ _ I id Hl) as (A & B & C).
  destruct (dma_step_inv base size hist w (OpRelease id) H0 H16 I Logic.I) as (w1 & E1 & I1).
  assert (Ew : w_handle w1 = set_handle (w_handle w) id handle_zero).
  { cbn [dma_step] in E1. unfold release_handle in E1. destruct (foldM _ _ _); cbn [bind] in E1; [|discriminate]. inversion E1. reflexivity. }
  assert (Hd : ~ live (w_handle w1 id)) by (rewrite Ew, set_handle_same; intros Hz; now apply Hz).
  assert (R1 : dma_reach base size (OpRelease id :: hist) w1) by (eapply dr_step; [exact R|exact Logic.I|exact E1]).
  destruct (dma_acquire_complete base size _ w1 id (h_num (w_handle w id)) H0 H16 R1) as (w2 & E2 & _ & S & _); [repeat split; auto; lia|].
  exists w1, w2. split; [exact E1|]. split; [exact Hd|]. split; [exact E2|].
  destruct S as (S1 & S2 & _); [|auto].
  exists (h_ch (w_handle w id)). split; [lia|]. split; [lia|]. intros c Hc j. rewrite Ew. unfold set_handle. destruct (Nat.eqb j id) eqn:Ej.
  - intros Hz. exfalso. now apply Hz.
  - apply Nat.eqb_neq in Ej. intros Hj. apply (di_disj _ _ _ _ I id j c); auto.
Qed.

(** * C24 *)
Theorem dma_channels_in_pool base size hist w id c : 0 <= base -> base + size <= max_dma_chan ->
  dma_reach base size hist w -> live (w_handle w id) -> owns (w_handle w id) c ->
  base <= c < base + size /\ 0 <= c < max_dma_chan.
Proof.
  intros H0 H16 R Hl Ho. destruct (di_live _ _ _ _ (dma_reach_inv _ _ _ _ H0 H16 R) id Hl) as (A & B & C). unfold owns in Ho. lia.
Qed.

(** * C25 *)

(** Starting a transfer calls exactly the callback registered on that handle, once, with its cookie, and the
    transfer is done. *)
Theorem dma_callback_once base size hist w id : 0 <= base -> base + size <= max_dma_chan ->
  dma_reach base size hist w -> live (w_handle w id) -> last_reg hist id <> None ->
  exists w' r, dma_step (OpStart id) w = Some w' /\ last_reg hist id = Some r
  /\ w_log w' = (id, r) :: w_log w
  /\ mov_isdone (w_handle w' id) = true /\ mov_wait (w_handle w' id) = Some (w_handle w' id).
Proof.
  intros H0 H16 R Hl Hr. pose proof (dma_reach_inv _ _ _ _ H0 H16 R) as I. destruct (last_reg hist id) as [r|] eqn:Er; [|congruence].
  destruct (di_live _ _ _ _ I id Hl) as (A & B & C). pose proof (di_cb _ _ _ _ I id r Hl Er) as Hc.
  cbn [dma_step]. unfold mov_start. destruct (Z.leb_spec 0 (h_ch (w_handle w id))); [|lia].
  destruct (Z.ltb_spec (h_ch (w_handle w id)) max_dma_chan); [|lia]. cbn [andb bind fst snd]. rewrite Hc.
  eexists _, r. split; [reflexivity|]. cbn [w_log w_handle map app]. rewrite set_handle_same. repeat split.
Qed.

(** Only mli_mov_start calls callbacks. *)
Theorem dma_no_spurious_callback o w w' : dma_step o w = Some w' -> (forall id, o <> OpStart id) -> w_log w' = w_log w.
Proof.
  intros E Hn. destruct o; cbn [dma_step] in E.
  - destruct (acquire_handle _ _); cbn [bind] in E; inversion E; reflexivity.
  - destruct (release_handle _ _); cbn [bind] in E; inversion E; reflexivity.
  - destruct (register_callback _ _ _ _); cbn [bind] in E; inversion E; reflexivity.
  - inversion E. reflexivity.
  - exfalso. now apply (Hn id).
Qed.

(** The number of callback calls of a history is its number of starts. *)
Definition is_start (o : dma_op) : bool := match o with OpStart _ => true | _ => false end.
Theorem dma_callback_count base size hist w : 0 <= base -> base + size <= max_dma_chan ->
  dma_reach base size hist w -> length (w_log w) = length (filter is_start hist).
Proof.
  intros H0 H16. induction 1; [reflexivity|]. destruct (is_start o) eqn:Ho; cbn [filter]; rewrite Ho.
  - destruct o; try discriminate. destruct H1 as [G1 G2]. destruct (dma_callback_once base size hist w id H0 H16 H G1 G2) as (w2 & r & E & _ & L & _).
    assert (w' = w2) by congruence. subst w2. rewrite L. cbn [length]. congruence.
  - rewrite (dma_no_spurious_callback o w w' H2); [exact IHdma_reach|]. intros id ->. discriminate.
Qed.

(** * Refutations: what the restrictions of [good_op] exclude *)

Definition dma_go (base size : Z) (l : list dma_op) : option dma_world :=
  do p <- set_num_dma_ch base size dma_pool_init;
  dma_run l (mkWorld p (w_cb dma_world_init) (w_handle dma_world_init) (w_log dma_world_init)).

(** With the pool of all 16 channels, asking for two when none is free reads past the channel table. *)
Theorem dma_acquire_ub_refuted :
  option_map (fun w => h_num (w_handle w 0)) (dma_go 0 16 [OpAcquire 0 16]) = Some 16
  /\ dma_go 0 16 [OpAcquire 0 16; OpAcquire 1 2] = None.
Proof. split; vm_compute; reflexivity. Qed.

(** Shrinking the pool with a second mli_mov_set_num_dma_ch: a handle gets a channel outside of the pool. *)
Theorem dma_pool_refuted : exists p p' h p'',
  set_num_dma_ch 0 8 dma_pool_init = Some p /\ set_num_dma_ch 0 4 p = Some p'
  /\ acquire_handle 5 p' = Some (Some h, p'') /\ owns h 4 /\ ~ (dp_base p' <= 4 < dp_base p' + dp_size p').
Proof.
  destruct (set_num_dma_ch 0 8 dma_pool_init) as [p|] eqn:E1.
  2: { assert (option_map dp_base (set_num_dma_ch 0 8 dma_pool_init) = Some 0) by (vm_compute; reflexivity). rewrite E1 in H. discriminate. }
  destruct (set_num_dma_ch 0 4 p) as [p'|] eqn:E2.
  2: { assert (option_map dp_base (do p <- set_num_dma_ch 0 8 dma_pool_init; set_num_dma_ch 0 4 p) = Some 0) by (vm_compute; reflexivity).
       rewrite E1 in H. cbn [bind] in H. rewrite E2 in H. discriminate. }
  assert (H : option_map (fun r => (option_map (fun h => (h_ch h, h_num h)) (fst r)))
     (do p <- set_num_dma_ch 0 8 dma_pool_init; do p' <- set_num_dma_ch 0 4 p; acquire_handle 5 p') = Some (Some (0, 5))) by (vm_compute; reflexivity).
  rewrite E1 in H. cbn [bind] in H. rewrite E2 in H. cbn [bind] in H.
  assert (H4 : option_map (fun p' => (dp_base p', dp_size p')) (do p <- set_num_dma_ch 0 8 dma_pool_init; set_num_dma_ch 0 4 p) = Some (0, 4)) by (vm_compute; reflexivity).
  rewrite E1 in H4. cbn [bind] in H4. rewrite E2 in H4. cbn [option_map] in H4. injection H4 as Hb Hs.
  destruct (acquire_handle 5 p') as [[[h|] p'']|] eqn:E3; cbn [option_map fst] in H; try discriminate. injection H as Hc Hn.
  exists p, p', h, p''. repeat split; auto; unfold owns; lia.
Qed.

(** Before mli_mov_set_num_dma_ch the pool nominally has 16 channels but none can be acquired. *)
Theorem dma_init_refuted : dp_size dma_pool_init = 16 /\ acquire_handle 1 dma_pool_init = Some (None, dma_pool_init).
Proof. split; [reflexivity|]. vm_compute. reflexivity. Qed.

(** A synchronous copy (which needs no channel) calls the callback of another handle, because its handle
    without channels shares the base channel's table entry. *)
Theorem dma_sync_callback_refuted :
  option_map w_log (dma_go 0 4 [OpAcquire 0 1; OpRegister 0 7 42]) = Some []
  /\ option_map (fun r => (fst r, w_log (snd r)))
       (do w <- dma_go 0 4 [OpAcquire 0 1; OpRegister 0 7 42]; sync_control w 1) = Some (true, [(1%nat, (7, 42))]).
Proof. split; vm_compute; reflexivity. Qed.

(** A released handle's callback is called by the next owner of the channel if that one registered none. *)
Theorem dma_stale_callback_refuted :
  option_map w_log (dma_go 0 4 [OpAcquire 0 1; OpRegister 0 7 42; OpRelease 0; OpAcquire 1 1; OpPrepare 1; OpStart 1])
  = Some [(1%nat, (7, 42))].
Proof. vm_compute. reflexivity. Qed.

(** With an empty pool a synchronous copy fails although it needs no channel. *)
Theorem dma_sync_empty_pool_refuted : option_map fst (do w <- dma_go 0 0 []; sync_control w 0) = Some false.
Proof. vm_compute. reflexivity. Qed.

(** With a pool and no registered callback on the base channel, a synchronous copy succeeds, calls nothing and
    leaves pool and callbacks as they were. *)
Theorem dma_sync_ok w id : w_handle w id = handle_zero -> 0 <= dp_base (w_pool w) < max_dma_chan -> 0 < dp_size (w_pool w) ->
  w_cb w (dp_base (w_pool w)) = None ->
  exists w', sync_control w id = Some (true, w') /\ w_pool w' = w_pool w /\ w_cb w' = w_cb w /\ w_log w' = w_log w
  /\ (forall j, w_handle w' j = w_handle w j).
Proof.
  intros Hz Hb Hs Hc. unfold sync_control. cbn [dma_step]. unfold acquire_handle.
  rewrite (zrange_cons (dp_base (w_pool w))) by lia. cbn [acq_scan]. unfold acq_found. replace (zrange 0 0) with (@nil Z) by reflexivity.
  cbn [foldM bind fst snd w_handle w_pool w_cb w_log]. rewrite set_handle_same. cbn [h_state h_ch h_num bind].
  cbn [w_handle w_pool w_cb w_log]. rewrite !set_handle_same. unfold mov_start. cbn [h_ch h_num].
  destruct (Z.leb_spec 0 (dp_base (w_pool w))); [|lia]. destruct (Z.ltb_spec (dp_base (w_pool w)) max_dma_chan); [|lia].
  cbn [andb bind fst snd w_handle w_pool w_cb w_log]. rewrite !set_handle_same. unfold mov_wait, mov_isdone. cbn [h_state bind].
  unfold release_handle. cbn [h_ch h_num foldM bind fst snd]. replace (zrange 0 0) with (@nil Z) by reflexivity. cbn [foldM bind fst snd].
  eexists. split; [reflexivity|]. cbn [w_pool w_cb w_log w_handle]. rewrite Hc. cbn [map app]. repeat split.
  intros j. unfold set_handle. destruct (Nat.eqb_spec j id); [subst; auto|reflexivity].
Qed.

(** Non-trivial history: two handles of a four-channel pool, a release and a re-acquire, transfers in between. *)
Definition liveb (h : mov_handle) : bool := match h_state h with MS_INVALID => false | _ => true end.
Lemma liveb_spec h : liveb h = true <-> live h.
Proof. unfold liveb, live. destruct (h_state h); split; intros; congruence. Qed.
Definition good_opb (base size : Z) (hist : list dma_op) (w : dma_world) (o : dma_op) : bool :=
  match o with
  | OpAcquire id n => negb (liveb (w_handle w id)) && (1 <=? n) && (base + size + n - 1 <=? max_dma_chan)
  | OpRelease id => true
  | OpRegister id _ _ => liveb (w_handle w id)
  | OpPrepare id => liveb (w_handle w id)
  | OpStart id => liveb (w_handle w id) && match last_reg hist id with Some _ => true | None => false end
  end.
Lemma good_opb_spec base size hist w o : good_opb base size hist w o = true -> good_op base size hist w o.
Proof.
  destruct o; cbn [good_opb good_op]; rewrite ?andb_true_iff; auto; try (now rewrite liveb_spec).
  - intros [[H1 H2] H3]. repeat split; try lia. intros Hl. apply liveb_spec in Hl. rewrite Hl in H1. discriminate.
  - rewrite liveb_spec. intros [H1 H2]. split; auto. destruct (last_reg hist id); congruence.
Qed.
Fixpoint dma_check (base size : Z) (hist : list dma_op) (w : dma_world) (l : list dma_op) : option dma_world :=
  match l with
  | [] => Some w
  | o :: l' => if good_opb base size hist w o then do w' <- dma_step o w; dma_check base size (o :: hist) w' l' else None
  end.
Lemma dma_check_reach base size l : forall hist w w', dma_reach base size hist w -> dma_check base size hist w l = Some w' ->
  dma_reach base size (rev l ++ hist) w'.
Proof.
  induction l as [|o l IH]; cbn [dma_check rev app]; intros hist w w' R E; [congruence|].
  destruct (good_opb base size hist w o) eqn:G; [|discriminate]. destruct (dma_step o w) as [w1|] eqn:E1; cbn [bind] in E; [|discriminate].
  rewrite <- app_assoc. apply (IH (o :: hist) w1); auto. eapply dr_step; eauto. now apply good_opb_spec.
Qed.

Definition dma_ex_ops : list dma_op :=
  [OpAcquire 0 2; OpRegister 0 7 3; OpAcquire 1 1; OpRegister 1 8 5; OpStart 0; OpRelease 0; OpAcquire 2 2; OpPrepare 1; OpStart 1].
Example dma_reach_ex : exists w, dma_reach 2 4 (rev dma_ex_ops) w
  /\ w_log w = [(1%nat, (8, 5)); (0%nat, (7, 3))] /\ h_ch (w_handle w 2) = 2 /\ h_ch (w_handle w 1) = 4.
Proof.
  set (w0 := fun p => mkWorld p (w_cb dma_world_init) (w_handle dma_world_init) (w_log dma_world_init)).
  assert (H : option_map (fun w => (w_log w, h_ch (w_handle w 2), h_ch (w_handle w 1)))
    (do p <- set_num_dma_ch 2 4 dma_pool_init; dma_check 2 4 [] (w0 p) dma_ex_ops)
    = Some ([(1%nat, (8, 5)); (0%nat, (7, 3))], 2, 4)) by (vm_compute; reflexivity).
  destruct (set_num_dma_ch 2 4 dma_pool_init) as [p|] eqn:Ep; [|discriminate]. cbn [bind] in H.
  assert (R : dma_reach 2 4 [] (w0 p)) by (now apply dr_init).
  destruct (dma_check 2 4 [] (w0 p) dma_ex_ops) as [w|] eqn:E; [|discriminate]. cbn [option_map] in H. injection H as H1 H2 H3.
  exists w. split; [|auto]. pose proof (dma_check_reach _ _ _ _ _ _ R E) as H. rewrite app_nil_r in H. exact H.
Qed.
