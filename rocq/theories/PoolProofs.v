(** Specification and proofs for the pooling kernels (properties C27, C28, C29, C54). *)
From Coq Require Import ZArith List Lia Bool QArith Qabs.
From Verif Require Import Base FxMath FxMathProofs Tensor TensorProofs PermuteProofs MovProofs QSpec Quant QuantProofs
  DotProd DotProdProofs ArgMax Layout Pool.
Import ListNotations.
Open Scope Z_scope.

(** * Loops that fill a three-dimensional output *)

Section Fill.
(** [dom] are the valid positions, [at_] their addresses, [val] their expected values. *)
Context (dom : Z -> Z -> Z -> Prop) (at_ : Z -> Z -> Z -> Z) (val : Z -> Z -> Z -> option Z) (m0 : mem).
Context (Hinj : forall h w c h' w' c', dom h w c -> dom h' w' c' -> at_ h w c = at_ h' w' c' -> h = h' /\ w = w' /\ c = c').

(** Exactly the positions of the region [R] hold their final value. *)
Definition filled (R : Z -> Z -> Z -> Prop) (m : mem) : Prop :=
  (forall h w c, dom h w c -> R h w c -> exists v, val h w c = Some v /\ m (at_ h w c) = Some v)
  /\ (forall a, (forall h w c, dom h w c -> R h w c -> at_ h w c <> a) -> m a = m0 a)
  /\ (forall h w c, dom h w c -> allocated m (at_ h w c)).

Lemma filled_ext (R R' : Z -> Z -> Z -> Prop) m : filled R m -> (forall h w c, dom h w c -> (R h w c <-> R' h w c)) -> filled R' m.
Proof.
  intros (A & B & C) E. split; [|split]; auto.
  - intros h w c D r. apply A; [auto|]. now apply E.
  - intros a Ha. apply B. intros h w c D r. apply Ha; [auto|]. now apply E.
Qed.

Lemma filled_store R m h w c v : filled R m -> dom h w c -> val h w c = Some v ->
  exists m', store m (at_ h w c) v = Some m' /\ filled (fun h' w' c' => R h' w' c' \/ h' = h /\ w' = w /\ c' = c) m'.
Proof.
  intros (A & B & C) D V. rewrite store_ok by auto. eexists. split; [reflexivity|]. split; [|split].
  - intros h' w' c' D' R'. destruct (Z.eqb_spec (at_ h' w' c') (at_ h w c)) as [E|E].
    + destruct (Hinj _ _ _ _ _ _ D' D E) as (-> & -> & ->). exists v. auto.
    + destruct R' as [R'|(-> & -> & ->)]; [auto|congruence].
  - intros a Ha. destruct (Z.eqb_spec a (at_ h w c)) as [->|E].
    + exfalso. apply (Ha h w c); auto.
    + apply B. intros h' w' c' D' R'. apply Ha; auto.
  - intros h' w' c' D'. unfold allocated. destruct (Z.eqb_spec (at_ h' w' c') (at_ h w c)); [congruence|]. now apply C.
Qed.

(** A loop whose iteration [x] fills the region [T x], with a loop-carried state described by [Q]. *)
Lemma filled_loop {S} (f : Z -> S * mem -> option (S * mem)) (T : Z -> Z -> Z -> Z -> Prop) (Q : Z -> S -> Prop) lo hi R s m :
  lo <= hi -> filled R m -> Q lo s ->
  (forall x R s m, lo <= x < hi -> filled R m -> Q x s ->
     exists s' m', f x (s, m) = Some (s', m') /\ Q (x + 1) s' /\ filled (fun h w c => R h w c \/ T x h w c) m') ->
  exists s' m', foldM f (zrange lo hi) (s, m) = Some (s', m') /\ Q hi s'
    /\ filled (fun h w c => R h w c \/ exists x, lo <= x < hi /\ T x h w c) m'.
Proof.
  intros Hl. remember (Z.to_nat (hi - lo)) as n eqn:Hn. revert lo Hl Hn R s m. induction n; intros lo Hl Hn R s m F q Hf.
  - assert (hi = lo) by lia. subst hi. rewrite zrange_nil by lia. exists s, m. split; [reflexivity|]. split; [auto|].
    eapply filled_ext; [exact F|]. intros h w c _. split; [auto|]. intros [?|(x & ? & _)]; [auto|lia].
  - rewrite zrange_cons by lia. cbn [foldM].
    destruct (Hf lo R s m ltac:(lia) F q) as (s1 & m1 & E & q1 & F1). rewrite E.
    destruct (IHn (lo + 1) ltac:(lia) ltac:(lia) _ s1 m1 F1 q1) as (s2 & m2 & E2 & q2 & F2).
    { intros. apply Hf; auto. lia. }
    exists s2, m2. split; [exact E2|]. split; [exact q2|]. eapply filled_ext; [exact F2|]. intros h w c _. cbv beta. split.
    + intros [[?|?]|(x & Hx & ?)]; [auto| |]; right; [exists lo|exists x]; split; auto; lia.
    + intros [?|(x & Hx & ?)]; [auto|]. destruct (Z.eq_dec x lo); [subst; auto|]. right. exists x. split; auto; lia.
Qed.

(** Without state. *)
Lemma filled_loop0 (f : Z -> mem -> option mem) (T : Z -> Z -> Z -> Z -> Prop) lo hi R m :
  lo <= hi -> filled R m ->
  (forall x R m, lo <= x < hi -> filled R m -> exists m', f x m = Some m' /\ filled (fun h w c => R h w c \/ T x h w c) m') ->
  exists m', foldM f (zrange lo hi) m = Some m' /\ filled (fun h w c => R h w c \/ exists x, lo <= x < hi /\ T x h w c) m'.
Proof.
  intros Hl F Hf.
  assert (E : forall l m, foldM f l m = option_map snd (foldM (fun x (s : unit * mem) => option_map (pair tt) (f x (snd s))) l (tt, m))).
  { induction l; intros; cbn [foldM snd]; [reflexivity|]. destruct (f a m1); cbn [option_map]; [apply IHl|reflexivity]. }
  rewrite E. destruct (filled_loop (fun x (s : unit * mem) => option_map (pair tt) (f x (snd s))) T (fun _ _ => True) lo hi R tt m)
    as (s' & m' & E1 & _ & F1); auto.
  - intros x R' s m1 Hx F1 _. destruct (Hf x R' m1 Hx F1) as (m2 & E2 & F2). cbn [snd]. rewrite E2. cbn. exists tt, m2. auto.
  - rewrite E1. exists m'. auto.
Qed.
End Fill.

(** * The pooling loops *)

Lemma ceil_div_spec a b : 0 <= a -> 0 < b -> a <= b * ceil_div a b < a + b.
Proof.
  intros Ha Hb. unfold ceil_div. rewrite Z.quot_div_nonneg by lia.
  pose proof (Z.div_mod (a + b - 1) b ltac:(lia)). pose proof (Z.mod_pos_bound (a + b - 1) b Hb). lia.
Qed.

(** CEIL_DIV of an end of a padding-free area. *)
Lemma ceil_div_end n s p : 1 <= n -> 0 < s -> 0 <= p -> ceil_div p s < n -> ceil_div ((n - 1) * s - p + 1) s = n - ceil_div p s.
Proof.
  intros Hn Hs Hp Hlt. pose proof (ceil_div_spec p s Hp Hs) as C. set (q := ceil_div p s) in *.
  unfold ceil_div. rewrite Z.quot_div_nonneg by nia.
  symmetry. apply Z.div_unique with (r := s * q - p). { left. lia. } ring.
Qed.

(** If the end of the area is behind its beginning there is something to do. *)
Lemma ceil_div_end_conv n s p b : 1 <= n -> 0 < s -> 0 <= p -> 0 <= b -> ceil_div ((n - 1) * s - p + 1) s > b ->
  ceil_div p s < n - b.
Proof.
  intros Hn Hs Hp Hb H. pose proof (ceil_div_spec p s Hp Hs) as C.
  destruct (Z_lt_le_dec ((n - 1) * s - p + 1 + s - 1) 0) as [L|L].
  - exfalso. unfold ceil_div in H. pose proof (Z.quot_opp_l (- ((n - 1) * s - p + 1 + s - 1)) s ltac:(lia)) as Q.
    rewrite Z.opp_involutive in Q. rewrite Q in H. pose proof (Z.quot_pos (- ((n - 1) * s - p + 1 + s - 1)) s ltac:(lia) ltac:(lia)). lia.
  - unfold ceil_div in H. rewrite Z.quot_div_nonneg in H by lia.
    pose proof (Z.mul_div_le ((n - 1) * s - p + 1 + s - 1) s ltac:(lia)).
    set (d := ((n - 1) * s - p + 1 + s - 1) / s) in *. nia.
Qed.

Section PoolSpec.
Context {Par : Type} (prep : Z -> Par) (run : Par -> Z -> Z -> Z -> Z -> Z -> option Z).
Context (mi : mem) (i o : ptensor) (sw sh pt pb pl pr kh kw : Z) (m0 : mem).
Context (Hsw : 0 < sw) (Hsh : 0 < sh).
Context (Hpl : 0 <= pl < kw) (Hpr : 0 <= pr < kw) (Hpt : 0 <= pt < kh) (Hpb : 0 <= pb < kh).
Context (Hwo : 1 <= p_w o) (Hho : 1 <= p_h o) (Hwi : 1 <= p_w i) (Hhi : 1 <= p_h i) (Hch : 0 <= p_ch i).
Context (Hw : p_w i + pl + pr = (p_w o - 1) * sw + kw) (Hh : p_h i + pt + pb = (p_h o - 1) * sh + kh).
Context (Fl : pl <= p_w o * sw) (Fr : pr <= p_w o * sw) (Ft : pt <= p_h o * sh) (Fb : pb <= p_h o * sh).

(** The window of an output position clipped to the input: rows [r0, r1), columns [c0, c1). *)
Definition r0 (H : Z) := Z.max 0 (H * sh - pt).
Definition r1 (H : Z) := Z.min (p_h i) (H * sh - pt + kh).
Definition c0 (W : Z) := Z.max 0 (W * sw - pl).
Definition c1 (W : Z) := Z.min (p_w i) (W * sw - pl + kw).

Definition iaddr (r c ch : Z) : Z := p_ptr i + p_row i * r + p_col i * c + ch.
Definition oaddr (H W ch : Z) : Z := p_ptr o + p_row o * H + p_col o * W + ch.
Definition odom (H W ch : Z) : Prop := 0 <= H < p_h o /\ 0 <= W < p_w o /\ 0 <= ch < p_ch i.

(** A window all of whose elements can be read. *)
Definition ok_box (p w h col row : Z) : Prop :=
  1 <= w /\ 1 <= h /\ w * h <= kw * kh
  /\ forall r c, 0 <= r < h -> 0 <= c < w -> allocated mi (p + row * r + col * c).

Context (Hrun : forall p w h col row, ok_box p w h col row -> exists v, run (prep (w * h)) p w h col row = Some v).
Context (Hrot : forall p w h col row, ok_box p w h col row ->
  run (prep (w * h)) (p + col * (w - 1)) h w row (- col) = run (prep (w * h)) p w h col row).
Context (Hmi : forall r c ch, 0 <= r < p_h i -> 0 <= c < p_w i -> 0 <= ch < p_ch i -> allocated mi (iaddr r c ch)).
Context (Hm0 : forall H W ch, odom H W ch -> allocated m0 (oaddr H W ch)).
Context (Hinj : forall h w c h' w' c', odom h w c -> odom h' w' c' -> oaddr h w c = oaddr h' w' c' -> h = h' /\ w = w' /\ c = c').

Definition pval (H W ch : Z) : option Z :=
  run (prep ((c1 W - c0 W) * (r1 H - r0 H))) (iaddr (r0 H) (c0 W) ch) (c1 W - c0 W) (r1 H - r0 H) (p_col i) (p_row i).

Lemma rows_range H : 0 <= H < p_h o -> 0 <= r0 H < r1 H /\ r1 H <= p_h i /\ r1 H - r0 H <= kh.
Proof. unfold r0, r1. nia. Qed.
Lemma cols_range W : 0 <= W < p_w o -> 0 <= c0 W < c1 W /\ c1 W <= p_w i /\ c1 W - c0 W <= kw.
Proof. unfold c0, c1. nia. Qed.

Lemma window_ok H W ch : odom H W ch -> ok_box (iaddr (r0 H) (c0 W) ch) (c1 W - c0 W) (r1 H - r0 H) (p_col i) (p_row i).
Proof.
  intros (DH & DW & DC). pose proof (rows_range H DH). pose proof (cols_range W DW). repeat split; try lia; [nia|].
  intros r c Hr Hc. replace (iaddr (r0 H) (c0 W) ch + p_row i * r + p_col i * c) with (iaddr (r0 H + r) (c0 W + c) ch) by (unfold iaddr; ring).
  apply Hmi; lia.
Qed.

Lemma ok_box_rot p w h col row : ok_box p w h col row -> ok_box (p + col * (w - 1)) h w row (- col).
Proof.
  clear. intros (A & B & C & D). repeat split; try lia. intros r c Hr Hc.
  replace (p + col * (w - 1) + - col * r + row * c) with (p + row * c + col * (w - 1 - r)) by ring. apply D; lia.
Qed.

Lemma run_rot2 p w h col row : ok_box p w h col row ->
  run (prep (w * h)) (p + col * (w - 1) + row * (h - 1)) w h (- col) (- row) = run (prep (w * h)) p w h col row.
Proof.
  intros O. pose proof (ok_box_rot _ _ _ _ _ O) as O1. pose proof (Hrot _ _ _ _ _ O1) as E. rewrite (Z.mul_comm h w) in E.
  rewrite E. now apply Hrot.
Qed.

Lemma run_rot3 p w h col row : ok_box p w h col row ->
  run (prep (w * h)) (p + row * (h - 1)) h w (- row) col = run (prep (w * h)) p w h col row.
Proof.
  intros O. pose proof (ok_box_rot _ _ _ _ _ (ok_box_rot _ _ _ _ _ O)) as O2. pose proof (Hrot _ _ _ _ _ O2) as E.
  rewrite Z.opp_involutive in E.
  replace (p + col * (w - 1) + row * (h - 1) + - col * (w - 1)) with (p + row * (h - 1)) in E by ring.
  rewrite E. now apply run_rot2.
Qed.

Notation fill := (filled odom oaddr pval m0).

(** ** Padding-free part *)
Lemma pool_nopad_ok rb re cb ce R m : 0 <= rb <= re -> re <= p_h o -> 0 <= cb <= ce -> ce <= p_w o ->
  (rb < re -> rb * sh >= pt /\ (re - 1) * sh - pt + kh <= p_h i) ->
  (cb < ce -> cb * sw >= pl /\ (ce - 1) * sw - pl + kw <= p_w i) ->
  fill R m ->
  exists m', pool_nopad prep run rb re cb ce sw sh pt pl i o kh kw m = Some m'
    /\ fill (fun H W ch => R H W ch \/ rb <= H < re /\ cb <= W < ce) m'.
Proof.
  intros Hr Hre Hc Hce Ir Ic F. unfold pool_nopad.
  destruct ((p_h i >=? kh) && (p_w i >=? kw)) eqn:Chk.
  2:{ exists m. split; [reflexivity|]. eapply filled_ext; [exact F|]. intros H W ch (DH & DW & DC). split; [auto|].
      intros [?|[? ?]]; [auto|]. exfalso. destruct (Ir ltac:(lia)), (Ic ltac:(lia)).
      apply andb_false_iff in Chk. destruct Chk as [Chk|Chk]; rewrite Z.geb_leb in Chk; apply Z.leb_gt in Chk; nia. }
  clear Chk.
  destruct (filled_loop0 odom oaddr pval m0 Hinj
    (fun ch m =>
      do s <- foldM (fun _ s =>
        do s <- foldM (fun _ s =>
          let '(ip, op, m) := s in
          do v <- run (prep (kw * kh)) ip kw kh (p_col i) (p_row i);
          do m <- store m op v;
          Some (ip + p_col i * sw, op + p_col o, m)) (zrange cb ce) s;
        let '(ip, op, m) := s in Some (ip + (p_row i * sh - p_col i * sw * (ce - cb)), op + (p_row o - p_col o * (ce - cb)), m)) (zrange rb re)
        (p_ptr i + p_row i * (rb * sh - pt) + p_col i * (cb * sw - pl) + ch, p_ptr o + p_row o * rb + p_col o * cb + ch, m);
      Some (snd s)) (fun ch H W ch' => ch' = ch /\ rb <= H < re /\ cb <= W < ce) 0 (p_ch i) R m) as (m' & E & F'); auto.
  - intros ch R1 m1 Hch1 F1.
    set (G := fun x (s : Z * Z) => fst s = iaddr (x * sh - pt) (cb * sw - pl) ch /\ snd s = oaddr x cb ch).
    match goal with |- exists m', (do s <- foldM ?f _ (?a, ?b, _); _) = _ /\ _ =>
      destruct (filled_loop odom oaddr pval m0 Hinj f (fun x H W ch' => ch' = ch /\ H = x /\ cb <= W < ce) G rb re R1 (a, b) m1)
        as ((ip & op) & m2 & E2 & _ & F2) end; auto; try lia.
    { unfold G, iaddr, oaddr. cbn [fst snd]. split; ring. }
    + intros H R2 [ip op] m2 HH F2 [G1 G2]. cbn [fst snd] in G1, G2.
      set (G' := fun x (s : Z * Z) => fst s = iaddr (H * sh - pt) (x * sw - pl) ch /\ snd s = oaddr H x ch).
      match goal with |- exists s' m', (do s <- foldM ?f _ _; _) = _ /\ _ =>
        destruct (filled_loop odom oaddr pval m0 Hinj f (fun x H' W' ch' => ch' = ch /\ H' = H /\ W' = x) G' cb ce R2 (ip, op) m2)
          as ((ip3 & op3) & m3 & E3 & [G3 G4] & F3) end; auto; try lia.
      { split; auto. }
      * intros W R3 [ip3 op3] m3 HW F3 [G3 G4]. cbn [fst snd] in G3, G4.
        assert (D : odom H W ch) by (repeat split; lia).
        destruct (Ir ltac:(lia)) as [Ir1 Ir2]. destruct (Ic ltac:(lia)) as [Ic1 Ic2].
        assert (Er0 : r0 H = H * sh - pt) by (unfold r0; nia).
        assert (Er1 : r1 H = H * sh - pt + kh) by (unfold r1; nia).
        assert (Ec0 : c0 W = W * sw - pl) by (unfold c0; nia).
        assert (Ec1 : c1 W = W * sw - pl + kw) by (unfold c1; nia).
        pose proof (Hrun _ _ _ _ _ (window_ok H W ch D)) as [v Ev].
        assert (PV : pval H W ch = Some v) by exact Ev.
        rewrite Er0, Er1, Ec0, Ec1 in Ev.
        replace (W * sw - pl + kw - (W * sw - pl)) with kw in Ev by lia.
        replace (H * sh - pt + kh - (H * sh - pt)) with kh in Ev by lia.
        rewrite G3, Ev, G4. cbn [bind].
        destruct (filled_store _ _ _ _ Hinj _ _ _ _ _ _ F3 D PV) as (m4 & E4 & F4). rewrite E4. cbn [bind].
        exists (iaddr (H * sh - pt) (W * sw - pl) ch + p_col i * sw, oaddr H W ch + p_col o), m4.
        split; [reflexivity|]. split; [split; unfold iaddr, oaddr; cbn [fst snd]; ring|].
        eapply filled_ext; [exact F4|]. cbv beta. intros; intuition.
      * rewrite E3. cbn [bind].
        exists (ip3 + (p_row i * sh - p_col i * sw * (ce - cb)), op3 + (p_row o - p_col o * (ce - cb))), m3.
        cbn [fst snd] in G3, G4. split; [reflexivity|]. split.
        { split; cbn [fst snd]; rewrite ?G3, ?G4; unfold iaddr, oaddr; ring. }
        eapply filled_ext; [exact F3|]. cbv beta. intros. split; [intros [?|(x & ? & ? & ? & ?)]|intros [?|(? & ? & ?)]]; subst; auto.
        right. eexists. split; [|split; [|split; [|reflexivity]]]; auto.
    + rewrite E2. cbn [bind snd]. exists m2. split; [reflexivity|].
      eapply filled_ext; [exact F2|]. cbv beta. intros. split; [intros [?|(x & ? & ? & ? & ?)]|intros [?|(? & ? & ?)]]; subst; auto.
      right. eexists. split; [|split; [|split; [reflexivity|]]]; auto.
  - exists m'. split; [exact E|]. eapply filled_ext; [exact F'|]. cbv beta. intros H W ch (DH & DW & DC).
    split; [intros [?|(x & ? & ? & ? & ?)]|intros [?|(? & ?)]]; auto.
    right. exists ch. auto.
Qed.

(** ** Border areas *)

(** One border area, in the coordinates of rotated tensors [i'] and [o']: [fh] and [fw] map a position of the
    rotated output to the original one. *)
Lemma pool_compute_pad_ok (fixed sw' sh' pt' pl' re ce kh' kw' : Z) (i' o' : ptensor) (fh fw : Z -> Z -> Z) R m :
  0 <= re -> 0 < kw' -> 0 < sw' -> p_ch i' = p_ch i -> (fixed > 0 -> fixed = kw') ->
  (forall H W, 0 <= H < re -> 0 <= W < ce -> 0 <= fh H W < p_h o /\ 0 <= fw H W < p_w o
     /\ forall ch, 0 <= ch < p_ch i ->
        p_ptr o' + p_row o' * H + p_col o' * W + ch = oaddr (fh H W) (fw H W) ch
        /\ let comp := valid_area H W (p_h i') (p_w i') kh' kw' sh' sw' pl' pt' 1 1 in
           let rows := kh' - c_k_top comp - c_k_bottom comp in
           let clmns := kw' - c_k_right comp - c_k_left comp in
           run (prep (rows * clmns)) (p_ptr i' + p_row i' * (H * sh' - pt' + c_in_top comp)
             + p_col i' * (W * sw' - pl' + c_in_left comp) + ch) clmns rows (p_col i') (p_row i')
           = pval (fh H W) (fw H W) ch) ->
  (kw' < ce -> 0 <= (kw' - 1) * sw' - pl' /\ (ce - 1) * sw' - pl' + kw' <= p_w i') ->
  fill R m ->
  exists m', pool_compute_pad prep run fixed sw' sh' pt' pl' 0 re 0 ce i' o' kh' kw' m = Some m'
    /\ fill (fun H W ch => R H W ch \/ exists H' W', 0 <= H' < re /\ 0 <= W' < ce /\ H = fh H' W' /\ W = fw H' W') m'.
Proof.
  intros Hre Hkw Hsw' Hci Hfix HP HC F. unfold pool_compute_pad. rewrite Z.add_0_l. cbv zeta.
  assert (Point : forall par rows clmns hin win H W R m, 0 <= H < re -> 0 <= W < ce -> fill R m ->
    (forall ch, 0 <= ch < p_ch i -> run par (p_ptr i' + p_row i' * hin + p_col i' * win + ch) clmns rows (p_col i') (p_row i')
        = pval (fh H W) (fw H W) ch) ->
    exists m', pool_point run par rows clmns hin win H W i' o' m = Some m'
      /\ fill (fun h w ch => R h w ch \/ h = fh H W /\ w = fw H W) m').
  { clear R m F. intros par rows clmns hin win H W R m HH HW F Hv. unfold pool_point. rewrite Hci.
    destruct (HP H W HH HW) as (D1 & D2 & P). 
    destruct (filled_loop0 odom oaddr pval m0 Hinj (fun ch m =>
       do v <- run par (p_ptr i' + p_row i' * hin + p_col i' * win + ch) clmns rows (p_col i') (p_row i');
       store m (p_ptr o' + p_row o' * H + p_col o' * W + ch) v) (fun ch h w ch' => ch' = ch /\ h = fh H W /\ w = fw H W) 0 (p_ch i) R m)
      as (m' & E & F'); auto.
    - intros ch R1 m1 Hch1 F1. rewrite Hv by auto. destruct (P ch Hch1) as [-> _].
      assert (D : odom (fh H W) (fw H W) ch) by (repeat split; lia).
      destruct (Hrun _ _ _ _ _ (window_ok _ _ _ D)) as [v Ev]. fold (pval (fh H W) (fw H W) ch) in Ev. rewrite Ev. cbn [bind].
      destruct (filled_store _ _ _ _ Hinj _ _ _ _ _ _ F1 D Ev) as (m2 & E2 & F2). exists m2. split; [exact E2|].
      eapply filled_ext; [exact F2|]. cbv beta. intros; intuition.
    - exists m'. split; [exact E|]. eapply filled_ext; [exact F'|]. cbv beta. intros h w ch (_ & _ & DC).
      split; [intros [?|(x & ? & ? & ? & ?)]|intros [?|(? & ?)]]; auto. right. exists ch. auto. }
  match goal with |- exists m', (do s <- foldM ?f _ (?a, _); _) = _ /\ _ =>
    destruct (filled_loop odom oaddr pval m0 Hinj f (fun H h w ch => exists W, 0 <= W < ce /\ h = fh H W /\ w = fw H W) (fun _ _ => True) 0 re R a m)
      as (s' & m' & E & _ & F') end; auto; try lia.
  - intros H R1 s m1 HH F1 _.
    destruct (Z_le_gt_dec ce 0) as [Lce|Lce].
    { rewrite (zrange_nil 0 (Z.min kw' ce)) by lia. cbn [foldM bind]. rewrite zrange_nil by lia. cbn [foldM]. exists s, m1. split; [reflexivity|]. split; [auto|].
      eapply filled_ext; [exact F1|]. cbv beta. intros h w ch D. split; [auto|]. intros [?|(W & ? & _)]; [auto|lia]. }
    set (Q := fun x (l : option (comps * Z * Z * Par)) => 0 < x ->
       let comp := valid_area H (x - 1) (p_h i') (p_w i') kh' kw' sh' sw' pl' pt' 1 1 in
       l = Some (comp, kh' - c_k_top comp - c_k_bottom comp, kw' - c_k_right comp - c_k_left comp,
             prep ((kh' - c_k_top comp - c_k_bottom comp) * (kw' - c_k_right comp - c_k_left comp)))).
    match goal with |- exists s' m', (do s <- foldM ?f _ _; _) = _ /\ _ =>
      destruct (filled_loop odom oaddr pval m0 Hinj f (fun W h w ch => h = fh H W /\ w = fw H W) Q 0 (Z.min kw' ce) R1 s m1)
        as (s2 & m2 & E2 & Q2 & F2) end; auto; try lia.
    { intros X. lia. }
    + intros W R2 l m2 HW F2 q2. destruct (HP H W HH ltac:(lia)) as (D1 & D2 & P).
      match goal with |- exists s' m', (do m <- pool_point run ?par ?rows ?clmns ?hin ?win _ _ _ _ _; _) = _ /\ _ =>
        destruct (Point par rows clmns hin win H W R2 m2) as (m3 & E3 & F3) end; auto; try lia.
      { intros ch Hch1. apply (proj2 (P ch Hch1)). }
      rewrite E3. cbn [bind]. eexists _, m3. split; [reflexivity|]. split; [|exact F3].
      unfold Q. intros _. replace (W + 1 - 1) with W by lia. reflexivity.
    + rewrite E2. cbn [bind]. rewrite Z.max_r by lia.
      destruct (Z_le_gt_dec ce kw') as [Lk|Lk].
      { rewrite zrange_nil by lia. cbn [foldM]. exists s2, m2. split; [reflexivity|]. split; [auto|].
        eapply filled_ext; [exact F2|]. cbv beta. intros h w ch D.
        split; (intros [?|(W & ? & ?)]; [auto|right; exists W; split; [lia|auto]]). }
      rewrite Z.min_l in E2, Q2, F2 |- * by lia. destruct (HC ltac:(lia)) as [C1 C2].
      assert (VA : forall W, kw' - 1 <= W < ce ->
         let cmp := valid_area H W (p_h i') (p_w i') kh' kw' sh' sw' pl' pt' 1 1 in
         let cmp0 := valid_area H (kw' - 1) (p_h i') (p_w i') kh' kw' sh' sw' pl' pt' 1 1 in
         cmp = cmp0 /\ c_k_right cmp0 = 0 /\ c_k_left cmp0 = 0).
      { intros W HW. unfold valid_area. cbn [Z.eqb Pos.eqb andb].
        assert (0 <= W * sw' - pl') by nia. assert (W * sw' - pl' + kw' <= p_w i') by nia.
        assert ((kw' - 1) * sw' - pl' + kw' <= p_w i') by nia.
        rewrite (Z.min_r (W * sw' - pl') 0), (Z.min_r (p_w i' - (W * sw' - pl' + kw')) 0) by lia.
        rewrite (Z.min_r ((kw' - 1) * sw' - pl') 0), (Z.min_r (p_w i' - ((kw' - 1) * sw' - pl' + kw')) 0) by lia.
        cbn. repeat split; reflexivity. }
      specialize (Q2 ltac:(lia)). cbv zeta in Q2.
      set (cmp0 := valid_area H (kw' - 1) (p_h i') (p_w i') kh' kw' sh' sw' pl' pt' 1 1) in *.
      destruct (VA (kw' - 1) ltac:(lia)) as (_ & Z1 & Z2). fold cmp0 in Z1, Z2.
      match goal with |- exists s' m', foldM ?f _ _ = _ /\ _ =>
        destruct (filled_loop odom oaddr pval m0 Hinj f (fun W h w ch => h = fh H W /\ w = fw H W) (fun _ l => l = s2) kw' ce
            (fun h w c => R1 h w c \/ (exists x : Z, 0 <= x < kw' /\ h = fh H x /\ w = fw H x)) s2 m2)
          as (s3 & m3 & E3 & Q3 & F3) end; auto; try lia.
      * intros W R3 l m3 HW F3 ->. rewrite Q2.
        assert (Ef : (if fixed >? 0 then fixed else kw' - c_k_right cmp0 - c_k_left cmp0) = kw' - c_k_right cmp0 - c_k_left cmp0).
        { rewrite Z1, Z2. destruct (fixed >? 0) eqn:Ef; [|reflexivity]. apply Z.gtb_lt in Ef. lia. }
        rewrite Ef. destruct (HP H W HH ltac:(lia)) as (D1 & D2 & P). destruct (VA W ltac:(lia)) as (V & _ & _).
        match goal with |- exists s' m', (do m <- pool_point run ?par ?rows ?clmns ?hin ?win _ _ _ _ _; _) = _ /\ _ =>
          destruct (Point par rows clmns hin win H W R3 m3) as (m4 & E4 & F4) end; auto; try lia.
        { intros ch Hch1. pose proof (proj2 (P ch Hch1)) as PV. cbv zeta in PV. rewrite V in PV. exact PV. }
        rewrite E4. cbn [bind]. eexists _, m4. split; [reflexivity|]. split; [reflexivity|exact F4].
      * exists s3, m3. split; [exact E3|]. split; [auto|]. eapply filled_ext; [exact F3|]. cbv beta. intros h w ch D.
        split; [intros [[?|(x & ? & ? & ?)]|(x & ? & ? & ?)]|intros [?|(x & ? & ? & ?)]]; auto.
        { right. exists x. repeat split; auto; lia. } { right. exists x. repeat split; auto; lia. }
        destruct (Z_lt_le_dec x kw'); [left; right|right]; exists x; repeat split; auto; lia.
  - rewrite E. cbn [bind snd]. exists m'. split; [reflexivity|]. eapply filled_ext; [exact F'|]. cbv beta. intros h w ch D.
    split; [intros [?|(x & ? & y & ? & ? & ?)]|intros [?|(x & y & ? & ? & ? & ?)]]; auto.
    { right. exists x, y. auto. } { right. exists x. split; auto. exists y. auto. }
Qed.

Lemma clip_start x n k : x + - Z.min x 0 = Z.max 0 x /\ k - - Z.min x 0 - - Z.min (n - (x + k)) 0 = Z.min n (x + k) - Z.max 0 x.
Proof. lia. Qed.

Lemma mirror_c H : p_w i - c1 (p_w o - 1 - H) = Z.max 0 (H * sw - pr) /\ p_w i - c0 (p_w o - 1 - H) = Z.min (p_w i) (H * sw - pr + kw).
Proof.
  unfold c0, c1. assert ((p_w o - 1 - H) * sw = (p_w o - 1) * sw - H * sw) as -> by ring. lia.
Qed.
Lemma mirror_r H : p_h i - r1 (p_h o - 1 - H) = Z.max 0 (H * sh - pb) /\ p_h i - r0 (p_h o - 1 - H) = Z.min (p_h i) (H * sh - pb + kh).
Proof.
  unfold r0, r1. assert ((p_h o - 1 - H) * sh = (p_h o - 1) * sh - H * sh) as -> by ring. lia.
Qed.

(** A border area where the computation of a point is the original window seen from a rotated tensor. *)
Lemma point_rot0 H W ch : odom H W ch ->
  let comp := valid_area H W (p_h i) (p_w i) kh kw sh sw pl pt 1 1 in
  let rows := kh - c_k_top comp - c_k_bottom comp in
  let clmns := kw - c_k_right comp - c_k_left comp in
  run (prep (rows * clmns)) (p_ptr i + p_row i * (H * sh - pt + c_in_top comp) + p_col i * (W * sw - pl + c_in_left comp) + ch)
    clmns rows (p_col i) (p_row i) = pval H W ch.
Proof.
  intros D. unfold valid_area. cbn [Z.eqb Pos.eqb andb c_k_top c_k_bottom c_k_right c_k_left c_in_top c_in_left]. cbv zeta.
  destruct (clip_start (H * sh - pt) (p_h i) kh) as [-> E1]. destruct (clip_start (W * sw - pl) (p_w i) kw) as [-> E2].
  rewrite E1. replace (kw - - Z.min (p_w i - (W * sw - pl + kw)) 0 - - Z.min (W * sw - pl) 0)
    with (kw - - Z.min (W * sw - pl) 0 - - Z.min (p_w i - (W * sw - pl + kw)) 0) by ring.
  rewrite E2. fold (r0 H) (r1 H) (c0 W) (c1 W). rewrite (Z.mul_comm (r1 H - r0 H)). reflexivity.
Qed.

Lemma point_rot1 H W ch : let fw := p_w o - 1 - H in odom W fw ch ->
  let comp := valid_area H W (p_h (rotate1 i)) (p_w (rotate1 i)) kw kh sw sh pt pr 1 1 in
  let rows := kw - c_k_top comp - c_k_bottom comp in
  let clmns := kh - c_k_right comp - c_k_left comp in
  run (prep (rows * clmns)) (p_ptr (rotate1 i) + p_row (rotate1 i) * (H * sw - pr + c_in_top comp)
     + p_col (rotate1 i) * (W * sh - pt + c_in_left comp) + ch)
    clmns rows (p_col (rotate1 i)) (p_row (rotate1 i)) = pval W fw ch.
Proof.
  intros fw D. unfold valid_area, rotate1. cbn [Z.eqb Pos.eqb andb c_k_top c_k_bottom c_k_right c_k_left c_in_top c_in_left p_ptr p_w p_h p_col p_row].
  cbv zeta. destruct (clip_start (H * sw - pr) (p_w i) kw) as [-> E1]. destruct (clip_start (W * sh - pt) (p_h i) kh) as [-> E2].
  rewrite E1. replace (kh - - Z.min (p_h i - (W * sh - pt + kh)) 0 - - Z.min (W * sh - pt) 0)
    with (kh - - Z.min (W * sh - pt) 0 - - Z.min (p_h i - (W * sh - pt + kh)) 0) by ring.
  rewrite E2. fold (r0 W) (r1 W). destruct (mirror_c H) as [M1 M2]. fold fw in M1, M2. rewrite <- M1, <- M2.
  pose proof (Hrot _ _ _ _ _ (window_ok W fw ch D)) as E. unfold pval. rewrite <- E.
  replace (p_w i - c0 fw - (p_w i - c1 fw)) with (c1 fw - c0 fw) by ring.
  f_equal. unfold iaddr. ring.
Qed.

Lemma point_rot2 H W ch : let fh := p_h o - 1 - H in let fw := p_w o - 1 - W in odom fh fw ch ->
  let comp := valid_area H W (p_h (rotate2 i)) (p_w (rotate2 i)) kh kw sh sw pr pb 1 1 in
  let rows := kh - c_k_top comp - c_k_bottom comp in
  let clmns := kw - c_k_right comp - c_k_left comp in
  run (prep (rows * clmns)) (p_ptr (rotate2 i) + p_row (rotate2 i) * (H * sh - pb + c_in_top comp)
     + p_col (rotate2 i) * (W * sw - pr + c_in_left comp) + ch)
    clmns rows (p_col (rotate2 i)) (p_row (rotate2 i)) = pval fh fw ch.
Proof.
  intros fh fw D. unfold valid_area, rotate2. cbn [Z.eqb Pos.eqb andb c_k_top c_k_bottom c_k_right c_k_left c_in_top c_in_left p_ptr p_w p_h p_col p_row].
  cbv zeta. destruct (clip_start (H * sh - pb) (p_h i) kh) as [-> E1]. destruct (clip_start (W * sw - pr) (p_w i) kw) as [-> E2].
  rewrite E1. replace (kw - - Z.min (p_w i - (W * sw - pr + kw)) 0 - - Z.min (W * sw - pr) 0)
    with (kw - - Z.min (W * sw - pr) 0 - - Z.min (p_w i - (W * sw - pr + kw)) 0) by ring.
  rewrite E2. destruct (mirror_c W) as [M1 M2]. fold fw in M1, M2. rewrite <- M1, <- M2.
  destruct (mirror_r H) as [M3 M4]. fold fh in M3, M4. rewrite <- M3, <- M4.
  pose proof (run_rot2 _ _ _ _ _ (window_ok fh fw ch D)) as E. unfold pval. rewrite <- E.
  replace (p_w i - c0 fw - (p_w i - c1 fw)) with (c1 fw - c0 fw) by ring.
  replace (p_h i - r0 fh - (p_h i - r1 fh)) with (r1 fh - r0 fh) by ring.
  rewrite (Z.mul_comm (r1 fh - r0 fh)). f_equal. unfold iaddr. ring.
Qed.

Lemma point_rot3 H W ch : let fh := p_h o - 1 - W in odom fh H ch ->
  let comp := valid_area H W (p_h (rotate3 i)) (p_w (rotate3 i)) kw kh sw sh pb pl 1 1 in
  let rows := kw - c_k_top comp - c_k_bottom comp in
  let clmns := kh - c_k_right comp - c_k_left comp in
  run (prep (rows * clmns)) (p_ptr (rotate3 i) + p_row (rotate3 i) * (H * sw - pl + c_in_top comp)
     + p_col (rotate3 i) * (W * sh - pb + c_in_left comp) + ch)
    clmns rows (p_col (rotate3 i)) (p_row (rotate3 i)) = pval fh H ch.
Proof.
  intros fh D. unfold valid_area, rotate3. cbn [Z.eqb Pos.eqb andb c_k_top c_k_bottom c_k_right c_k_left c_in_top c_in_left p_ptr p_w p_h p_col p_row].
  cbv zeta. destruct (clip_start (H * sw - pl) (p_w i) kw) as [-> E1]. destruct (clip_start (W * sh - pb) (p_h i) kh) as [-> E2].
  rewrite E1. replace (kh - - Z.min (p_h i - (W * sh - pb + kh)) 0 - - Z.min (W * sh - pb) 0)
    with (kh - - Z.min (W * sh - pb) 0 - - Z.min (p_h i - (W * sh - pb + kh)) 0) by ring.
  rewrite E2. fold (c0 H) (c1 H). destruct (mirror_r W) as [M1 M2]. fold fh in M1, M2. rewrite <- M1, <- M2.
  pose proof (run_rot3 _ _ _ _ _ (window_ok fh H ch D)) as E. unfold pval. rewrite <- E.
  replace (p_h i - r0 fh - (p_h i - r1 fh)) with (r1 fh - r0 fh) by ring.
  f_equal. unfold iaddr. ring.
Qed.

Lemma ceil_div_bounds p s n : 0 <= p <= n * s -> 0 < s -> 0 <= ceil_div p s <= n /\ (p = 0 -> ceil_div p s = 0) /\ ceil_div p s <= p.
Proof. clear. intros Hp Hs. pose proof (ceil_div_spec p s ltac:(lia) Hs). set (c := ceil_div p s) in *. nia. Qed.

(** Behind the first kernel width the window of a border area does not change any more. *)
Lemma reuse_ok n s k p q c e w : w + p + q = (n - 1) * s + k -> q <= s * c -> 0 < s -> 0 <= p < k -> e <= n - c ->
  0 <= (k - 1) * s - p /\ (e - 1) * s - p + k <= w.
Proof. clear. intros. nia. Qed.

Lemma inside_ok n s k p q b c w : w + p + q = (n - 1) * s + k -> q <= s * c -> p <= s * b -> 0 < s ->
  b * s >= p /\ (n - c - 1) * s - p + k <= w.
Proof. clear. intros. nia. Qed.

Lemma pool_pad_ok fixed : (fixed > 0 -> kw = fixed /\ kh = fixed) ->
  exists m', pool_pad prep run fixed sw sh pt pb pl pr i o kh kw m0 = Some m' /\ fill (fun _ _ _ => True) m'.
Proof.
  intros Hfix.
  pose proof (ceil_div_spec pl sw ltac:(lia) ltac:(lia)) as Cl. pose proof (ceil_div_spec pr sw ltac:(lia) ltac:(lia)) as Cr.
  pose proof (ceil_div_spec pt sh ltac:(lia) ltac:(lia)) as Ct. pose proof (ceil_div_spec pb sh ltac:(lia) ltac:(lia)) as Cb.
  pose proof (ceil_div_end (p_w o) sw pr Hwo Hsw ltac:(lia)) as Er. pose proof (ceil_div_end (p_h o) sh pb Hho Hsh ltac:(lia)) as Eb.
  pose proof (ceil_div_end_conv (p_w o) sw pr (ceil_div pl sw) Hwo Hsw ltac:(lia)) as Kr.
  pose proof (ceil_div_end_conv (p_h o) sh pb (ceil_div pt sh) Hho Hsh ltac:(lia)) as Kb.
  unfold pool_pad. cbv zeta.
  replace (p_h i + pt - kh + 1) with ((p_h o - 1) * sh - pb + 1) by lia.
  replace (p_w i + pl - kw + 1) with ((p_w o - 1) * sw - pr + 1) by lia.
  set (cl := ceil_div pl sw) in *. set (cr := ceil_div pr sw) in *. set (ct := ceil_div pt sh) in *. set (cb := ceil_div pb sh) in *.
  set (ne := ceil_div ((p_w o - 1) * sw - pr + 1) sw) in *. set (nb := ceil_div ((p_h o - 1) * sh - pb + 1) sh) in *.
  destruct (ceil_div_bounds pl sw (p_w o) ltac:(lia) Hsw) as (Bl & Bl0 & Bcl). destruct (ceil_div_bounds pr sw (p_w o) ltac:(lia) Hsw) as (Br & Br0 & _).
  destruct (ceil_div_bounds pt sh (p_h o) ltac:(lia) Hsh) as (Bt & Bt0 & _). destruct (ceil_div_bounds pb sh (p_h o) ltac:(lia) Hsh) as (Bb & Bb0 & _).
  fold cl in Bl, Bl0, Bcl. fold cr in Br, Br0. fold ct in Bt, Bt0. fold cb in Bb, Bb0.
  (* centre *)
  assert (S0 : exists m1, (if (nb - ct >? 0) && (ne - cl >? 0) then pool_nopad prep run ct nb cl ne sw sh pt pl i o kh kw m0 else Some m0) = Some m1
     /\ fill (fun H W _ => ct <= H < p_h o - cb /\ cl <= W < p_w o - cr) m1).
  { assert (F0 : fill (fun _ _ _ => False) m0) by (split; [|split]; intros; [tauto|reflexivity|auto]).
    destruct ((nb - ct >? 0) && (ne - cl >? 0)) eqn:C.
    - apply andb_true_iff in C. destruct C as [C1 C2]. apply Z.gtb_lt in C1, C2.
      specialize (Kr ltac:(lia) ltac:(lia)). specialize (Kb ltac:(lia) ltac:(lia)). specialize (Er ltac:(lia)). specialize (Eb ltac:(lia)).
      destruct (pool_nopad_ok ct nb cl ne (fun _ _ _ => False) m0) as (m1 & E & F1);
        [lia|lia|lia|lia|intros _; rewrite Eb; apply (inside_ok (p_h o) sh kh pt pb ct cb (p_h i)); lia
        |intros _; rewrite Er; apply (inside_ok (p_w o) sw kw pl pr cl cr (p_w i)); lia|exact F0|].
      exists m1. split; [exact E|]. eapply filled_ext; [exact F1|]. cbv beta. intros; rewrite Er, Eb; tauto.
    - exists m0. split; [reflexivity|]. eapply filled_ext; [exact F0|]. cbv beta. intros. split; [tauto|]. intros [? ?].
      apply andb_false_iff in C. specialize (Er ltac:(lia)). specialize (Eb ltac:(lia)).
      destruct C as [C|C]; rewrite Z.gtb_ltb in C; apply Z.ltb_ge in C; lia. }
  destruct S0 as (m1 & -> & F1). cbn [bind]. clear Er Eb Kr Kb ne nb.
  (* top *)
  set (ce := Z.max cl (p_w o - cr)).
  assert (S1 : exists m2, (if negb (pt =? 0) then pool_compute_pad prep run fixed sw sh pt pl 0 ct 0 ce i o kh kw m1 else Some m1) = Some m2
     /\ fill (fun H W _ => (ct <= H < p_h o - cb /\ cl <= W < p_w o - cr) \/ (0 <= H < ct /\ 0 <= W < ce)) m2).
  { destruct (Z.eqb_spec pt 0) as [P0|P0]; cbn [negb].
    - exists m1. split; [reflexivity|]. eapply filled_ext; [exact F1|]. cbv beta. clear - P0 Bt0. intros; lia.
    - match type of F1 with filled _ _ _ _ ?R _ =>
        destruct (pool_compute_pad_ok fixed sw sh pt pl ct ce kh kw i o (fun H _ => H) (fun _ W => W) R m1 ltac:(lia) ltac:(lia) Hsw eq_refl
        ltac:(intros; lia)) as (m2 & E & F2) end; [| |exact F1|].
      + intros H W HH HW. split; [lia|]. split; [lia|]. intros ch Hc. split; [reflexivity|]. apply point_rot0. repeat split; lia.
      + intros L. unfold ce in *. replace (Z.max cl (p_w o - cr)) with (p_w o - cr) in * by lia.
        apply (reuse_ok (p_w o) sw kw pl pr cr); lia.
      + exists m2. split; [exact E|]. eapply filled_ext; [exact F2|]. cbv beta. intros H W ch D.
        split; [intros [?|(x & y & ? & ? & ? & ?)]; [auto|right; lia]|intros [?|?]; [auto|right; exists H, W; lia]]. }
  destruct S1 as (m2 & -> & F2). cbn [bind].
  (* right *)
  assert (S2 : exists m3, (if negb (pr =? 0) then pool_compute_pad prep run fixed sh sw pr pt (p_w o - p_w o) (p_w o - (p_w o - cr)) 0 (p_h o - cb)
        (rotate1 i) (rotate1 o) kw kh m2 else Some m2) = Some m3
     /\ fill (fun H W _ => ((ct <= H < p_h o - cb /\ cl <= W < p_w o - cr) \/ (0 <= H < ct /\ 0 <= W < ce))
           \/ (0 <= H < p_h o - cb /\ p_w o - cr <= W < p_w o)) m3).
  { replace (p_w o - p_w o) with 0 by lia. replace (p_w o - (p_w o - cr)) with cr by lia.
    destruct (Z.eqb_spec pr 0) as [P0|P0]; cbn [negb].
    - exists m2. split; [reflexivity|]. eapply filled_ext; [exact F2|]. cbv beta. clear - P0 Br0. intros; lia.
    - match type of F2 with filled _ _ _ _ ?R _ =>
        destruct (pool_compute_pad_ok fixed sh sw pr pt cr (p_h o - cb) kw kh (rotate1 i) (rotate1 o) (fun _ W => W) (fun H _ => p_w o - 1 - H) R m2
         ltac:(lia) ltac:(lia) Hsh eq_refl ltac:(intros; lia)) as (m3 & E & F3) end; [| |exact F2|].
      + intros H W HH HW. split; [lia|]. split; [lia|]. intros ch Hc. split; [unfold rotate1, oaddr; cbn; ring|].
        apply point_rot1. repeat split; lia.
      + intros L. cbn. apply (reuse_ok (p_h o) sh kh pt pb cb); lia.
      + exists m3. split; [exact E|]. eapply filled_ext; [exact F3|]. cbv beta. intros H W ch D.
        split; [intros [?|(x & y & ? & ? & ? & ?)]; [auto|right; lia]|intros [?|?]; [auto|right; exists (p_w o - 1 - W), H; lia]]. }
  destruct S2 as (m3 & -> & F3). cbn [bind].
  (* bottom *)
  assert (S3 : exists m4, (if negb (pb =? 0) then pool_compute_pad prep run fixed sw sh pb pr (p_h o - p_h o) (p_h o - (p_h o - cb)) (p_w o - p_w o) (p_w o - cl)
        (rotate2 i) (rotate2 o) kh kw m3 else Some m3) = Some m4
     /\ fill (fun H W _ => (((ct <= H < p_h o - cb /\ cl <= W < p_w o - cr) \/ (0 <= H < ct /\ 0 <= W < ce))
           \/ (0 <= H < p_h o - cb /\ p_w o - cr <= W < p_w o)) \/ (p_h o - cb <= H < p_h o /\ cl <= W < p_w o)) m4).
  { replace (p_w o - p_w o) with 0 by lia. replace (p_h o - p_h o) with 0 by lia. replace (p_h o - (p_h o - cb)) with cb by lia.
    destruct (Z.eqb_spec pb 0) as [P0|P0]; cbn [negb].
    - exists m3. split; [reflexivity|]. eapply filled_ext; [exact F3|]. cbv beta. clear - P0 Bb0. intros; lia.
    - match type of F3 with filled _ _ _ _ ?R _ =>
        destruct (pool_compute_pad_ok fixed sw sh pb pr cb (p_w o - cl) kh kw (rotate2 i) (rotate2 o) (fun H _ => p_h o - 1 - H) (fun _ W => p_w o - 1 - W) R m3
         ltac:(lia) ltac:(lia) Hsw eq_refl ltac:(intros; lia)) as (m4 & E & F4) end; [| |exact F3|].
      + intros H W HH HW. split; [lia|]. split; [lia|]. intros ch Hc. split; [unfold rotate2, oaddr; cbn; ring|].
        apply point_rot2. repeat split; lia.
      + intros L. cbn. apply (reuse_ok (p_w o) sw kw pr pl cl); lia.
      + exists m4. split; [exact E|]. eapply filled_ext; [exact F4|]. cbv beta. intros H W ch D.
        split; [intros [?|(x & y & ? & ? & ? & ?)]; [auto|right; lia]|intros [?|?]; [auto|right; exists (p_h o - 1 - H), (p_w o - 1 - W); lia]]. }
  destruct S3 as (m4 & -> & F4). cbn [bind].
  (* left *)
  replace (p_h o - p_h o) with 0 by lia.
  destruct (Z.eqb_spec pl 0) as [P0|P0]; cbn [negb].
  - exists m4. split; [reflexivity|]. eapply filled_ext; [exact F4|]. cbv beta. intros H W ch (DH & DW & _). unfold ce. lia.
  - match type of F4 with filled _ _ _ _ ?R _ =>
        destruct (pool_compute_pad_ok fixed sh sw pl pb cl (p_h o - ct) kw kh (rotate3 i) (rotate3 o) (fun _ W => p_h o - 1 - W) (fun H _ => H) R m4
       ltac:(lia) ltac:(lia) Hsh eq_refl ltac:(intros; lia)) as (m5 & E & F5) end; [| |exact F4|].
    + intros H W HH HW. split; [lia|]. split; [lia|]. intros ch Hc. split; [unfold rotate3, oaddr; cbn; ring|].
      apply point_rot3. repeat split; lia.
    + intros L. cbn. apply (reuse_ok (p_h o) sh kh pb pt ct); lia.
    + exists m5. split; [exact E|]. eapply filled_ext; [exact F5|]. cbv beta. intros H W ch (DH & DW & _).
      split; [auto|intros _]. 
      destruct (Z_lt_le_dec W cl) as [Lw|Lw]; [destruct (Z_lt_le_dec H ct)|]; [left; unfold ce; lia| |left; unfold ce; lia].
      right. exists W, (p_h o - 1 - H). lia.
Qed.
End PoolSpec.

(** * The kernels on tensors *)

(** An accepted HWC tensor. *)
Lemma chk_hwc t : chk_tensor t = ST_OK -> fits32 t -> t_rank t = 3 -> inner_stride_is_one t = true ->
  exists h w c sr sc, t_shape t = [h; w; c] /\ t_stride t = [sr; sc; 1] /\ 0 < h /\ 0 < w /\ 0 < c.
Proof.
  intros C F R I. destruct (chk_tensor_pos t C (proj1 F)) as (_ & P & _). destruct F as [L _].
  unfold t_rank in R. destruct (t_shape t) as [|h [|w [|c [|]]]] eqn:Es; cbn [length] in R; try lia.
  destruct (t_stride t) as [|sr [|sc [|s [|]]]] eqn:Et; cbn [length] in L; try lia.
  unfold inner_stride_is_one in I. rewrite Es, Et in I. cbn in I. apply Z.eqb_eq in I. subst s.
  inversion P as [|? ? P1 P']; subst. inversion P' as [|? ? P2 P'']; subst. inversion P'' as [|? ? P3 _]; subst.
  exists h, w, c, sr, sc. auto 10.
Qed.

(** Element [r][cl][ch] of an HWC tensor. *)
Definition hwc_addr (t : tensor) (r cl ch : Z) : Z := t_data t + addr (t_stride t) [r; cl; ch].
Definition hwc_elem (m : mem) (t : tensor) (r cl ch : Z) : option Z := m (hwc_addr t r cl ch).
Definition dim (t : tensor) (k : nat) : Z := nth k (t_shape t) 0.

(** The arithmetic of the checker does not wrap: 8-bit parameters, sizes below 2^31. *)
Definition pool_fits (tin tout : tensor) (c : pool_cfg) : Prop :=
  in_ubits 8 (pl_kw c) /\ in_ubits 8 (pl_kh c) /\ in_ubits 8 (pl_sw c) /\ in_ubits 8 (pl_sh c)
  /\ in_ubits 8 (pl_left c) /\ in_ubits 8 (pl_right c) /\ in_ubits 8 (pl_top c) /\ in_ubits 8 (pl_bottom c)
  /\ dim tin 1 + 510 <= 2 ^ 31 - 1 /\ dim tin 0 + 510 <= 2 ^ 31 - 1
  /\ dim tout 1 * pl_sw c + 255 <= 2 ^ 31 - 1 /\ dim tout 0 * pl_sh c + 255 <= 2 ^ 31 - 1.

(** No padding is wider than the whole output times the stride: the kernel exceeds the input plus the
    padding before it by at most one stride, and the padding before it is at most the output size times
    the stride. *)
Definition pool_padding_small (tin tout : tensor) (c : pool_cfg) : Prop :=
  pl_kw c <= dim tin 1 + pl_left c + pl_sw c /\ pl_kh c <= dim tin 0 + pl_top c + pl_sh c
  /\ pl_left c <= dim tout 1 * pl_sw c /\ pl_top c <= dim tout 0 * pl_sh c.

(** First and last+1 row and column of the window of an output position, clipped to the input. *)
Definition win_top (c : pool_cfg) (H : Z) : Z := Z.max 0 (H * pl_sh c - pl_top c).
Definition win_bottom (c : pool_cfg) (tin : tensor) (H : Z) : Z := Z.min (dim tin 0) (H * pl_sh c - pl_top c + pl_kh c).
Definition win_left (c : pool_cfg) (W : Z) : Z := Z.max 0 (W * pl_sw c - pl_left c).
Definition win_right (c : pool_cfg) (tin : tensor) (W : Z) : Z := Z.min (dim tin 1) (W * pl_sw c - pl_left c + pl_kw c).

Lemma shrink_ok n w k p s W : 0 <= W < n -> 0 < s ->
  let q := (n * s + k - s) - w - p in
  Z.min (if q <? 0 then w + q else w) (W * s - p + k) = Z.min w (W * s - p + k).
Proof. intros HW Hs q. destruct (Z.ltb_spec q 0); [|reflexivity]. unfold q in *. nia. Qed.

Section PoolRun.
Context {Par : Type} (prep : Z -> Par) (run : Par -> Z -> Z -> Z -> Z -> Z -> option Z).
Context (mi m : mem) (tin tout : tensor) (c : pool_cfg) (fixed : Z).
Context (Hchk : chk_pool tin tout c fixed = ST_OK) (Hf : pool_fits tin tout c) (Hsm : pool_padding_small tin tout c).
Context (Fi : fits32 tin) (Fo : fits32 tout) (Bi : backed tin mi) (Bo : backed tout m).
Context (Hrun : forall p w h col row, ok_box mi (pl_kh c) (pl_kw c) p w h col row -> exists v, run (prep (w * h)) p w h col row = Some v).
Context (Hrot : forall p w h col row, ok_box mi (pl_kh c) (pl_kw c) p w h col row ->
  run (prep (w * h)) (p + col * (w - 1)) h w row (- col) = run (prep (w * h)) p w h col row).

Lemma wrap32_small x : 0 <= x <= 2 ^ 31 - 1 -> wrap 32 x = x.
Proof. clear. intros. apply wrap_id; [lia|]. unfold in_bits, smin, smax. change (2 ^ (32 - 1)) with (2 ^ 31). lia. Qed.

(** What an accepted configuration guarantees. *)
Lemma chk_pool_spec : chk_tensor tin = ST_OK /\ chk_tensor tout = ST_OK
  /\ (exists h w ch sr sc, t_shape tin = [h; w; ch] /\ t_stride tin = [sr; sc; 1] /\ 0 < h /\ 0 < w /\ 0 < ch)
  /\ (exists h w sr sc, t_shape tout = [h; w; dim tin 2] /\ t_stride tout = [sr; sc; 1] /\ 0 < h /\ 0 < w)
  /\ pl_left c < pl_kw c /\ pl_right c < pl_kw c /\ pl_top c < pl_kh c /\ pl_bottom c < pl_kh c /\ 0 < pl_sh c /\ 0 < pl_sw c
  /\ (dim tout 0 - 1) * pl_sh c + pl_kh c <= dim tin 0 + pl_top c + pl_bottom c
  /\ (dim tout 1 - 1) * pl_sw c + pl_kw c <= dim tin 1 + pl_left c + pl_right c
  /\ (fixed > 0 -> pl_kw c = fixed /\ pl_kh c = fixed).
Proof.
  clear - Hchk Hf Fi Fo. pose proof Hchk as K. unfold chk_pool in K.
  destruct (negb (fixed =? 0) && negb ((pl_kh c =? fixed) && (pl_kw c =? fixed))) eqn:K0; [discriminate|].
  destruct (chk_tensor tin) eqn:Ci; try discriminate. destruct (chk_tensor tout) eqn:Co; try discriminate.
  destruct ((t_rank tin =? 3) && (t_rank tout =? 3)) eqn:Kr; cbn [negb] in K; [|discriminate].
  destruct (inner_stride_is_one tin && inner_stride_is_one tout) eqn:Ki; cbn [negb] in K; [|discriminate].
  apply andb_true_iff in Kr, Ki. destruct Kr as [Kr1 Kr2]. destruct Ki as [Ki1 Ki2]. apply Z.eqb_eq in Kr1, Kr2.
  destruct (chk_hwc tin Ci Fi Kr1 Ki1) as (h & w & ch & sr & sc & Es & Et & P1 & P2 & P3).
  destruct (chk_hwc tout Co Fo Kr2 Ki2) as (h' & w' & ch' & sr' & sc' & Es' & Et' & P1' & P2' & P3').
  match type of K with (if negb ?b then _ else _) = _ => destruct b eqn:Kp; cbn [negb] in K; [|discriminate] end.
  repeat (apply andb_true_iff in Kp; let X := fresh "Kq" in destruct Kp as [Kp X]).
  apply Z.ltb_lt in Kp, Kq3, Kq2, Kq1. apply Z.gtb_lt in Kq0, Kq.
  destruct Hf as (U1 & U2 & U3 & U4 & U5 & U6 & U7 & U8 & U9 & U10 & U11 & U12). unfold in_ubits in *. change (2 ^ 8) with 256 in *.
  unfold dim in *. rewrite Es, Es' in *. cbn [nth] in *. cbv zeta in K.
  rewrite !wrap32_small in K by nia.
  match type of K with (if negb ?b then _ else _) = _ => destruct b eqn:Kz; cbn [negb] in K; [|discriminate] end.
  repeat (apply andb_true_iff in Kz; let X := fresh "Kw" in destruct Kz as [Kz X]).
  apply Z.leb_le in Kz, Kw0. apply Z.eqb_eq in Kw. subst ch'.
  split; [reflexivity|]. split; [reflexivity|]. split; [exists h, w, ch, sr, sc; auto|]. split; [exists h', w', sr', sc'; auto|].
  repeat split; try lia.
Qed.

Lemma pool_run_ok : exists m', pool_run prep run fixed tin tout c m = Some m'
  /\ (forall H W ch, valid (t_shape tout) [H; W; ch] ->
        0 <= win_top c H < win_bottom c tin H /\ 0 <= win_left c W < win_right c tin W /\
        exists v, run (prep ((win_right c tin W - win_left c W) * (win_bottom c tin H - win_top c H)))
                    (hwc_addr tin (win_top c H) (win_left c W) ch)
                    (win_right c tin W - win_left c W) (win_bottom c tin H - win_top c H)
                    (nth 1 (t_stride tin) 0) (nth 0 (t_stride tin) 0) = Some v
                  /\ hwc_elem m' tout H W ch = Some v)
  /\ (forall a, (forall x, valid (t_shape tout) x -> a <> t_data tout + addr (t_stride tout) x) -> m' a = m a).
Proof.
  destruct chk_pool_spec as (Ci & Co & (h & w & ch & sr & sc & Es & Et & P1 & P2 & P3) & (h' & w' & sr' & sc' & Es' & Et' & P1' & P2')
    & K1 & K2 & K3 & K4 & K5 & K6 & K7 & K8 & K9).
  destruct Hf as (U1 & U2 & U3 & U4 & U5 & U6 & U7 & U8 & _). unfold in_ubits in *. change (2 ^ 8) with 256 in *.
  destruct Hsm as (S1 & S2 & S3 & S4).
  unfold pool_run, get_tensor_hwc. cbn [p_ptr p_w p_h p_ch p_col p_row p_chs]. cbv zeta.
  unfold dim in *. unfold win_top, win_bottom, win_left, win_right, dim, hwc_elem, hwc_addr. rewrite Es, Es', Et, Et' in *. cbn [nth] in *.
  set (qr := w' * pl_sw c + pl_kw c - pl_sw c - w - pl_left c). set (qb := h' * pl_sh c + pl_kh c - pl_sh c - h - pl_top c).
  set (i := mkP (t_data tin) (if qr <? 0 then w + qr else w) (if qb <? 0 then h + qb else h) ch sc sr 1).
  set (o := mkP (t_data tout) w' h' ch sc' sr' 1).
  set (pr := if qr <? 0 then 0 else qr). set (pb := if qb <? 0 then 0 else qb).
  assert (Ew : p_w i + pl_left c + pr = (p_w o - 1) * pl_sw c + pl_kw c).
  { unfold i, o, pr; cbn [p_w]. destruct (Z.ltb_spec qr 0); unfold qr; lia. }
  assert (Eh : p_h i + pl_top c + pb = (p_h o - 1) * pl_sh c + pl_kh c).
  { unfold i, o, pb; cbn [p_h]. destruct (Z.ltb_spec qb 0); unfold qb; lia. }
  assert (Hpr : 0 <= pr < pl_kw c) by (unfold pr; destruct (Z.ltb_spec qr 0); unfold qr in *; lia).
  assert (Hpb : 0 <= pb < pl_kh c) by (unfold pb; destruct (Z.ltb_spec qb 0); unfold qb in *; lia).
  assert (N1 : 0 <= (w' - 1) * pl_sw c) by (apply Z.mul_nonneg_nonneg; lia).
  assert (N2 : 0 <= (h' - 1) * pl_sh c) by (apply Z.mul_nonneg_nonneg; lia).
  assert (Wi : 1 <= p_w i <= w). { unfold i; cbn [p_w]. destruct (Z.ltb_spec qr 0); [|lia]. unfold qr in *; lia. }
  assert (Hi : 1 <= p_h i <= h). { unfold i; cbn [p_h]. destruct (Z.ltb_spec qb 0); [|lia]. unfold qb in *; lia. }
  assert (Sr : pr <= p_w o * pl_sw c). { unfold pr, o; cbn [p_w]. destruct (Z.ltb_spec qr 0); unfold qr in *; lia. }
  assert (Sb : pb <= p_h o * pl_sh c). { unfold pb, o; cbn [p_h]. destruct (Z.ltb_spec qb 0); unfold qb in *; lia. }
  assert (AI : forall r cl k, 0 <= r < p_h i -> 0 <= cl < p_w i -> 0 <= k < p_ch i -> allocated mi (iaddr i r cl k)).
  { intros r cl k Hr Hc Hk. pose proof (chk_backed tin mi Fi Ci Bi [r; cl; k]) as A. rewrite Es, Et in A. cbn [valid addr] in A.
    unfold iaddr, i. cbn [p_ptr p_row p_col]. unfold i in Hk; cbn [p_ch] in Hk.
    replace (t_data tin + sr * r + sc * cl + k) with (t_data tin + (sr * r + (sc * cl + (1 * k + 0)))) by ring. apply A. lia. }
  assert (Dom : forall H W k, odom i o H W k -> valid (t_shape tout) [H; W; k]).
  { intros H W k (D1 & D2 & D3). rewrite Es'. unfold i, o in D1, D2, D3. cbn in *. lia. }
  assert (Oa : forall H W k, oaddr o H W k = t_data tout + addr (t_stride tout) [H; W; k]).
  { intros. rewrite Et'. unfold oaddr, o. cbn [p_ptr p_row p_col addr]. ring. }
  assert (AO : forall H W k, odom i o H W k -> allocated m (oaddr o H W k)).
  { intros H W k D. rewrite Oa. apply (chk_backed tout m Fo Co Bo). now apply Dom. }
  assert (Inj : forall a1 a2 a3 b1 b2 b3, odom i o a1 a2 a3 -> odom i o b1 b2 b3 -> oaddr o a1 a2 a3 = oaddr o b1 b2 b3 -> a1 = b1 /\ a2 = b2 /\ a3 = b3).
  { intros a1 a2 a3 b1 b2 b3 Da Db E. rewrite !Oa in E.
    destruct (chk_tensor_nested tout Fo Co) as [N _].
    assert (E2 : [a1; a2; a3] = [b1; b2; b3]) by (eapply nested_inj; [exact N|now apply Dom|now apply Dom|lia]).
    injection E2. auto. }
  assert (G : exists m', (if negb (pl_top c =? 0) || negb (pl_left c =? 0) || negb (pb =? 0) || negb (pr =? 0)
       then pool_pad prep run fixed (pl_sw c) (pl_sh c) (pl_top c) pb (pl_left c) pr i o (pl_kh c) (pl_kw c) m
       else pool_nopad prep run 0 h' 0 w' (pl_sw c) (pl_sh c) 0 0 i o (pl_kh c) (pl_kw c) m) = Some m'
     /\ filled (odom i o) (oaddr o) (pval prep run i (pl_sw c) (pl_sh c) (pl_top c) (pl_left c) (pl_kh c) (pl_kw c)) m (fun _ _ _ => True) m').
  { destruct (negb (pl_top c =? 0) || negb (pl_left c =? 0) || negb (pb =? 0) || negb (pr =? 0)) eqn:Kp.
    - apply (pool_pad_ok prep run mi); auto; try lia; unfold i, o in *; cbn [p_w p_h p_ch] in *; lia.
    - repeat (apply orb_false_iff in Kp; let X := fresh "Kn" in destruct Kp as [Kp X]).
      apply negb_false_iff in Kp, Kn, Kn0, Kn1. apply Z.eqb_eq in Kp, Kn, Kn0, Kn1.
      rewrite Kp, Kn1 in *.
      destruct (pool_nopad_ok prep run mi i o (pl_sw c) (pl_sh c) 0 pb 0 pr (pl_kh c) (pl_kw c) m ltac:(lia) ltac:(lia) ltac:(lia) ltac:(lia) ltac:(lia) ltac:(lia)
         ltac:(unfold o; cbn [p_w]; lia) ltac:(unfold o; cbn [p_h]; lia) ltac:(lia) ltac:(lia) ltac:(unfold i; cbn [p_ch]; lia) ltac:(lia) ltac:(lia)) with (rb := 0) (re := h') (cb := 0) (ce := w') (R := fun (_ _ _ : Z) => False) (m := m)
        as (m' & E & F); auto; try (unfold o; cbn [p_w p_h]; lia).
      + intros _. unfold o in Eh. cbn [p_h] in Eh. lia.
      + intros _. unfold o in Ew. cbn [p_w] in Ew. lia.
      + split; [|split]; intros; [tauto|reflexivity|auto].
      + exists m'. split; [exact E|]. eapply filled_ext; [exact F|]. cbv beta. intros H W k (D1 & D2 & _). unfold o in D1, D2. cbn in D1, D2. tauto. }
  destruct G as (m' & E & F1 & F2 & F3). exists m'. split; [exact E|]. split.
  - intros H W k V. cbn [valid] in V. 
    assert (D : odom i o H W k) by (unfold odom, i, o; cbn; lia).
    destruct (F1 H W k D I) as (v & Ev & Em).
    assert (Rb : Z.min (p_h i) (H * pl_sh c - pl_top c + pl_kh c) = Z.min h (H * pl_sh c - pl_top c + pl_kh c)).
    { apply (shrink_ok h' h (pl_kh c) (pl_top c) (pl_sh c) H); lia. }
    assert (Rr : Z.min (p_w i) (W * pl_sw c - pl_left c + pl_kw c) = Z.min w (W * pl_sw c - pl_left c + pl_kw c)).
    { apply (shrink_ok w' w (pl_kw c) (pl_left c) (pl_sw c) W); lia. }
    split. { rewrite <- Rb. clear - Eh K3 K5 V Hi Hpb U2 U7. unfold o in Eh. cbn [p_h] in Eh. nia. }
    split. { rewrite <- Rr. clear - Ew K1 K6 V Wi Hpr U1 U5. unfold o in Ew. cbn [p_w] in Ew. nia. }
    exists v. rewrite Oa, Et' in Em. split; [|exact Em]. rewrite <- Ev. unfold pval, r0, r1, c0, c1. rewrite Rb, Rr. f_equal.
    unfold iaddr, i. cbn [p_ptr p_row p_col addr]. ring.
  - intros a Ha. apply F2. intros H W k D _. rewrite Oa. intros X. apply (Ha [H; W; k]); [|rewrite Et' in X; auto].
    rewrite <- Es'. now apply Dom.
Qed.
End PoolRun.
