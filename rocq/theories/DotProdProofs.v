(** Specification and proofs for the multiply-accumulate bricks (properties C07, C08). *)
From Coq Require Import ZArith List Lia Bool.
From Verif Require Import Base FxMath FxMathProofs Quant QuantProofs DotProd.
Import ListNotations.
Open Scope Z_scope.

(** The value at an address; only used where the address is allocated. *)
Definition rd (m : mem) (a : Z) : Z := match m a with Some v => v | None => 0 end.

Lemma rd_load m a : allocated m a -> load m a = Some (rd m a).
Proof. unfold allocated, load, rd. destruct (m a); congruence. Qed.

Lemma rd_bits n m a : 1 <= n -> mem_bits n m -> in_bits n (rd m a).
Proof.
  intros Hn H. unfold rd. destruct (m a) eqn:E; [now apply (H a)|].
  apply in_bits_unfold. pose proof (pow2_gt0 (n-1) ltac:(lia)). lia.
Qed.

Lemma abs_in_bits n v : Z.abs v <= smax n -> in_bits n v.
Proof. unfold in_bits, smin, smax. lia. Qed.

Lemma mac_chk_ok n acc l r : Z.abs (acc + l * r) <= smax n -> mac_chk n acc l r = Some (acc + l * r).
Proof.
  intros H. apply abs_in_bits in H. unfold mac_chk, in_bits in *.
  destruct (Z.leb_spec (smin n) (acc + l * r)); [|lia]. destruct (Z.leb_spec (acc + l * r) (smax n)); [|lia]. reflexivity.
Qed.

(** An accumulation loop with one pointer-like state component of any type: step [i] adds [T i] to the
    accumulator, |T i| <= c, and succeeds while the accumulator is small. *)
Lemma acc_loop {S} (f : Z -> Z * S -> option (Z * S)) (g : Z -> S) (T : Z -> Z) (c B : Z) (k : Z) (acc : Z) :
  0 <= k -> 0 <= c -> Z.abs acc <= B ->
  (forall i a, 0 <= i < k -> Z.abs a <= B + i * c -> f i (a, g i) = Some (a + T i, g (i + 1)) /\ Z.abs (T i) <= c) ->
  foldM f (zrange 0 k) (acc, g 0) = Some (acc + zsum 0 k T, g k) /\ Z.abs (acc + zsum 0 k T) <= B + k * c.
Proof.
  intros Hk Hc Ha Hf.
  assert (G : forall d, 0 <= d <= k ->
    foldM f (zrange 0 d) (acc, g 0) = Some (acc + zsum 0 d T, g d) /\ Z.abs (acc + zsum 0 d T) <= B + d * c).
  { intros d Hd. remember (Z.to_nat d) as nd eqn:Hnd. revert d Hd Hnd. induction nd; intros.
    - assert (d = 0) by lia. subst d. rewrite zrange_nil, zsum_nil by lia. cbn. rewrite Z.add_0_r. split; [reflexivity|lia].
    - destruct (IHnd (d - 1) ltac:(lia) ltac:(lia)) as [E1 E2].
      destruct (Hf (d - 1) (acc + zsum 0 (d - 1) T) ltac:(lia) E2) as [F1 F2].
      replace d with (d - 1 + 1) by lia. rewrite zrange_snoc, zsum_snoc by lia. rewrite foldM_app, E1. cbn [bind foldM].
      rewrite F1. rewrite Z.add_assoc. split; [reflexivity|]. lia. }
  apply G. lia.
Qed.

(** The same for a loop whose state is only the accumulator. *)
Lemma acc_loop0 (f : Z -> Z -> option Z) (T : Z -> Z) (c B : Z) (k : Z) (acc : Z) :
  0 <= k -> 0 <= c -> Z.abs acc <= B ->
  (forall i a, 0 <= i < k -> Z.abs a <= B + i * c -> f i a = Some (a + T i) /\ Z.abs (T i) <= c) ->
  foldM f (zrange 0 k) acc = Some (acc + zsum 0 k T) /\ Z.abs (acc + zsum 0 k T) <= B + k * c.
Proof.
  intros Hk Hc Ha Hf.
  assert (G : forall d, 0 <= d <= k ->
    foldM f (zrange 0 d) acc = Some (acc + zsum 0 d T) /\ Z.abs (acc + zsum 0 d T) <= B + d * c).
  { intros d Hd. remember (Z.to_nat d) as nd eqn:Hnd. revert d Hd Hnd. induction nd; intros.
    - assert (d = 0) by lia. subst d. rewrite zrange_nil, zsum_nil by lia. cbn. rewrite Z.add_0_r. split; [reflexivity|lia].
    - destruct (IHnd (d - 1) ltac:(lia) ltac:(lia)) as [E1 E2].
      destruct (Hf (d - 1) (acc + zsum 0 (d - 1) T) ltac:(lia) E2) as [F1 F2].
      replace d with (d - 1 + 1) by lia. rewrite zrange_snoc, zsum_snoc by lia. rewrite foldM_app, E1. cbn [bind foldM].
      rewrite F1. rewrite Z.add_assoc. split; [reflexivity|]. lia. }
  apply G. lia.
Qed.

Lemma zsum_abs_le k f c : 0 <= k -> (forall i, 0 <= i < k -> Z.abs (f i) <= c) -> Z.abs (zsum 0 k f) <= k * c.
Proof.
  intros Hk H.
  assert (zsum 0 k f <= zsum 0 k (fun _ => c)) by (apply zsum_le; intros i Hi; specialize (H i Hi); lia).
  assert (zsum 0 k (fun _ => - c) <= zsum 0 k f) by (apply zsum_le; intros i Hi; specialize (H i Hi); lia).
  rewrite zsum_const in * by lia. lia.
Qed.

(** * Dot products *)

Section Dot.
Context (n : Z) (mi mw : mem) (c : Z).
Context (Hc : 0 <= c).

Lemma dot_row B p q acc k istep kstep : 0 <= k -> Z.abs acc <= B -> B + k * c <= smax n ->
  (forall i, 0 <= i < k -> allocated mi (p + i * istep) /\ allocated mw (q + i * kstep)
     /\ Z.abs (rd mi (p + i * istep) * rd mw (q + i * kstep)) <= c) ->
  foldM (fun _ s => dot_step n mi mw istep kstep s) (zrange 0 k) (acc, p, q)
  = Some (acc + zsum 0 k (fun i => rd mi (p + i * istep) * rd mw (q + i * kstep)), p + k * istep, q + k * kstep)
  /\ Z.abs (acc + zsum 0 k (fun i => rd mi (p + i * istep) * rd mw (q + i * kstep))) <= B + k * c.
Proof.
  intros Hk Ha HB H.
  set (f := fun (_ : Z) (s : Z * (Z * Z)) => do s <- dot_step n mi mw istep kstep (fst s, fst (snd s), snd (snd s));
                Some (fst (fst s), (snd (fst s), snd s))).
  assert (E : forall l acc p q, foldM (fun _ s => dot_step n mi mw istep kstep s) l (acc, p, q)
     = do s <- foldM f l (acc, (p, q)); Some (fst s, fst (snd s), snd (snd s))).
  { induction l; intros; cbn [foldM]; [reflexivity|]. unfold f at 1. cbn [fst snd].
    destruct (dot_step n mi mw istep kstep (acc0, p0, q0)) as [[[a1 p1] q1]|]; cbn [bind fst snd]; [apply IHl|reflexivity]. }
  rewrite E. clear E.
  destruct (acc_loop f (fun i => (p + i * istep, q + i * kstep)) (fun i => rd mi (p + i * istep) * rd mw (q + i * kstep)) c B k acc)
    as [G1 G2]; auto.
  - intros i a Hi Ba. destruct (H i Hi) as (A1 & A2 & A3). split; [|exact A3].
    unfold f, dot_step. cbn [fst snd]. rewrite (rd_load mi), (rd_load mw) by auto. cbn [bind].
    rewrite mac_chk_ok.
    + cbn [bind fst snd]. do 3 f_equal; lia.
    + assert (B + i * c + c <= smax n) by nia. lia.
  - change (0 * istep) with 0 in G1. change (0 * kstep) with 0 in G1. rewrite !Z.add_0_r in G1. rewrite G1. cbn [bind fst snd].
    split; [reflexivity|exact G2].
Qed.

(** Bounded products on a [width] x [height] window. *)
Definition plane_ok (p q width height icol irow kcol krow : Z) : Prop :=
  forall r cl, 0 <= r < height -> 0 <= cl < width ->
    allocated mi (p + r * irow + cl * icol) /\ allocated mw (q + r * krow + cl * kcol)
    /\ Z.abs (rd mi (p + r * irow + cl * icol) * rd mw (q + r * krow + cl * kcol)) <= c.

Definition plane_sum (p q width height icol irow kcol krow : Z) : Z :=
  zsum 0 height (fun r => zsum 0 width (fun cl => rd mi (p + r * irow + cl * icol) * rd mw (q + r * krow + cl * kcol))).

Lemma dot_plane_ok B p q acc w h icol irow kcol krow : 0 <= w -> 0 <= h ->
  Z.abs acc <= B -> B + h * w * c <= smax n -> plane_ok p q w h icol irow kcol krow ->
  dot_plane n mi mw w h icol (irow - w * icol) kcol (krow - w * kcol) (acc, p, q)
  = Some (acc + plane_sum p q w h icol irow kcol krow, p + h * irow, q + h * krow)
  /\ Z.abs (acc + plane_sum p q w h icol irow kcol krow) <= B + h * w * c.
Proof.
  intros Hw Hh Ha HB H. unfold dot_plane.
  set (F := fun (_ : Z) (s : Z * Z * Z) => do s <- foldM (fun _ s => dot_step n mi mw icol kcol s) (zrange 0 w) s;
    let '(acc, p, q) := s in Some (acc, p + (irow - w * icol), q + (krow - w * kcol))).
  set (f := fun (i : Z) (s : Z * (Z * Z)) => do s <- F i (fst s, fst (snd s), snd (snd s));
                Some (fst (fst s), (snd (fst s), snd s))).
  assert (E : forall l acc p q, foldM F l (acc, p, q)
     = do s <- foldM f l (acc, (p, q)); Some (fst s, fst (snd s), snd (snd s))).
  { induction l; intros; cbn [foldM]; [reflexivity|]. unfold f at 1. cbn [fst snd].
    destruct (F a (acc0, p0, q0)) as [[[a1 p1] q1]|]; cbn [bind fst snd]; [apply IHl|reflexivity]. }
  rewrite E. clear E.
  destruct (acc_loop f (fun i => (p + i * irow, q + i * krow))
     (fun r => zsum 0 w (fun cl => rd mi (p + r * irow + cl * icol) * rd mw (q + r * krow + cl * kcol))) (w * c) B h acc)
    as [G1 G2]; auto; [nia| |].
  - intros i a Hi Ba.
    assert (HH : forall cl, 0 <= cl < w -> allocated mi (p + i * irow + cl * icol) /\ allocated mw (q + i * krow + cl * kcol)
      /\ Z.abs (rd mi (p + i * irow + cl * icol) * rd mw (q + i * krow + cl * kcol)) <= c) by (intros; apply H; auto).
    destruct (dot_row (B + i * (w * c)) (p + i * irow) (q + i * krow) a w icol kcol Hw Ba) as [R1 R2]; auto.
    { assert (0 <= w * c) by nia. nia. }
    split.
    + unfold f, F. cbn [fst snd]. rewrite R1. cbn [bind fst snd]. do 3 f_equal; lia.
    + apply zsum_abs_le; auto. intros. apply HH. auto.
  - change (0 * irow) with 0 in G1. change (0 * krow) with 0 in G1. rewrite !Z.add_0_r in G1. rewrite G1. cbn [bind fst snd].
    unfold plane_sum. split; [reflexivity|]. rewrite <- Z.mul_assoc. exact G2.
Qed.

Lemma dotprod2D_ok B p q acc w h icol irow kcol krow : 0 <= w -> 0 <= h ->
  Z.abs acc <= B -> B + h * w * c <= smax n -> plane_ok p q w h icol irow kcol krow ->
  dotprod2D n mi mw p q acc w h icol irow kcol krow = Some (acc + plane_sum p q w h icol irow kcol krow)
  /\ Z.abs (acc + plane_sum p q w h icol irow kcol krow) <= B + h * w * c.
Proof.
  intros. unfold dotprod2D. destruct (dot_plane_ok B p q acc w h icol irow kcol krow) as [E1 E2]; auto.
  rewrite E1. cbn [bind fst]. auto.
Qed.

Definition box_ok (p q w h ch icol irow ich kcol krow kch : Z) : Prop :=
  forall k, 0 <= k < ch -> plane_ok (p + k * ich) (q + k * kch) w h icol irow kcol krow.
Definition box_sum (p q w h ch icol irow ich kcol krow kch : Z) : Z :=
  zsum 0 ch (fun k => plane_sum (p + k * ich) (q + k * kch) w h icol irow kcol krow).

Lemma plane_sum_abs p q w h icol irow kcol krow : 0 <= w -> 0 <= h -> plane_ok p q w h icol irow kcol krow ->
  Z.abs (plane_sum p q w h icol irow kcol krow) <= h * w * c.
Proof.
  intros Hw Hh H. unfold plane_sum. rewrite <- Z.mul_assoc. apply zsum_abs_le; auto. intros r Hr.
  apply zsum_abs_le; auto. intros cl Hcl. apply H; auto.
Qed.

Lemma dotprod3D_ok B p q acc w h ch icol irow ich kcol krow kch : 0 <= w -> 0 <= h -> 0 <= ch ->
  Z.abs acc <= B -> B + ch * h * w * c <= smax n -> box_ok p q w h ch icol irow ich kcol krow kch ->
  dotprod3D n mi mw p q w h ch icol irow ich kcol krow kch acc = Some (acc + box_sum p q w h ch icol irow ich kcol krow kch)
  /\ Z.abs (acc + box_sum p q w h ch icol irow ich kcol krow kch) <= B + ch * h * w * c.
Proof.
  intros Hw Hh Hch Ha HB H. unfold dotprod3D. cbv zeta.
  set (F := fun (_ : Z) (s : Z * Z * Z) => do s <- dot_plane n mi mw w h icol (irow - w * icol) kcol (krow - w * kcol) s;
    let '(acc, p, q) := s in Some (acc, p + (ich - h * irow), q + (kch - h * krow))).
  set (f := fun (i : Z) (s : Z * (Z * Z)) => do s <- F i (fst s, fst (snd s), snd (snd s));
                Some (fst (fst s), (snd (fst s), snd s))).
  assert (E : forall l acc p q, foldM F l (acc, p, q)
     = do s <- foldM f l (acc, (p, q)); Some (fst s, fst (snd s), snd (snd s))).
  { induction l; intros; cbn [foldM]; [reflexivity|]. unfold f at 1. cbn [fst snd].
    destruct (F a (acc0, p0, q0)) as [[[a1 p1] q1]|]; cbn [bind fst snd]; [apply IHl|reflexivity]. }
  rewrite E. clear E.
  assert (HP : 0 <= h * w * c) by (apply Z.mul_nonneg_nonneg; [nia|auto]).
  destruct (acc_loop f (fun i => (p + i * ich, q + i * kch))
     (fun k => plane_sum (p + k * ich) (q + k * kch) w h icol irow kcol krow) (h * w * c) B ch acc)
    as [G1 G2]; auto.
  - intros i a Hi Ba.
    destruct (dot_plane_ok (B + i * (h * w * c)) (p + i * ich) (q + i * kch) a w h icol irow kcol krow) as [R1 R2]; auto.
    { assert (B + (i + 1) * (h * w * c) <= B + ch * (h * w * c)) by nia.
      replace (ch * h * w * c) with (ch * (h * w * c)) in HB by ring. lia. }
    split; [|apply plane_sum_abs; auto].
    unfold f, F. cbn [fst snd]. rewrite R1. cbn [bind fst snd]. do 3 f_equal; lia.
  - change (0 * ich) with 0 in G1. change (0 * kch) with 0 in G1. rewrite !Z.add_0_r in G1. rewrite G1. cbn [bind fst snd].
    unfold box_sum. split; [reflexivity|]. replace (ch * h * w * c) with (ch * (h * w * c)) by ring. exact G2.
Qed.
End Dot.

(** * Sums of one operand *)

Definition sum2D (m : mem) (p w h col row : Z) : Z :=
  zsum 0 h (fun r => zsum 0 w (fun cl => rd m (p + r * row + cl * col))).
Definition sum3D (m : mem) (p w h ch col row chs : Z) : Z :=
  zsum 0 ch (fun k => sum2D m (p + k * chs) w h col row).

Definition area_ok (m : mem) (p w h col row : Z) : Prop :=
  forall r cl, 0 <= r < h -> 0 <= cl < w -> allocated m (p + r * row + cl * col).
Definition vol_ok (m : mem) (p w h ch col row chs : Z) : Prop :=
  forall k, 0 <= k < ch -> area_ok m (p + k * chs) w h col row.

Lemma zsum_mul_l2 h w c f : zsum 0 h (fun r => zsum 0 w (fun cl => c * f r cl)) = c * zsum 0 h (fun r => zsum 0 w (f r)).
Proof. rewrite <- zsum_mul_l. apply zsum_ext. intros. apply zsum_mul_l. Qed.

Lemma reduce_sum2D_ok n m B c p mul acc w h col row : 0 <= c -> 0 <= w -> 0 <= h ->
  (forall a, Z.abs (mul * rd m a) <= c) ->
  Z.abs acc <= B -> B + h * w * c <= smax n -> area_ok m p w h col row ->
  reduce_sum2D n m p mul acc w h col row = Some (acc + mul * sum2D m p w h col row)
  /\ Z.abs (mul * sum2D m p w h col row) <= h * w * c.
Proof.
  intros Hc Hw Hh Hm Ha HB H. unfold reduce_sum2D, sum2D. rewrite <- zsum_mul_l2.
  destruct (acc_loop0 (fun row0 acc => foldM (fun clmn acc => do x <- load m (p + (row * row0 + col * clmn)); mac_chk n acc mul x) (zrange 0 w) acc)
    (fun r => zsum 0 w (fun cl => mul * rd m (p + r * row + cl * col))) (w * c) B h acc) as [G1 G2]; auto; [nia| |].
  - intros i a Hi Ba. split; [|apply zsum_abs_le; auto].
    destruct (acc_loop0 (fun clmn acc => do x <- load m (p + (row * i + col * clmn)); mac_chk n acc mul x)
      (fun cl => mul * rd m (p + i * row + cl * col)) c (B + i * (w * c)) w a) as [R1 R2]; auto.
    intros j b Hj Bb. split; [|apply Hm].
    replace (p + (row * i + col * j)) with (p + i * row + j * col) by ring.
    rewrite rd_load by (apply H; auto). cbn [bind]. apply mac_chk_ok. specialize (Hm (p + i * row + j * col)).
    assert (i * (w * c) + j * c + c <= h * w * c).
    { assert (j * c + c <= w * c) by nia. assert ((i + 1) * (w * c) <= h * (w * c)) by nia. nia. }
    lia.
  - split; [exact G1|]. rewrite <- Z.mul_assoc. apply zsum_abs_le; auto. intros r Hr. apply zsum_abs_le; auto.
Qed.

Lemma wrap_neg_off off : Z.abs off <= 32767 -> wrap 16 (- off) = - off.
Proof. intros. apply wrap_id; [lia|]. apply ib16. lia. Qed.

Lemma additive2D_ok n m B c p acc off w h col row : 0 <= c -> 0 <= w -> 0 <= h -> Z.abs off <= 32767 ->
  (forall a, Z.abs (off * rd m a) <= c) ->
  Z.abs acc <= B -> B + h * w * c <= smax n -> area_ok m p w h col row ->
  additive2D n m p acc off w h col row = Some (acc - off * sum2D m p w h col row)
  /\ Z.abs (acc - off * sum2D m p w h col row) <= B + h * w * c.
Proof.
  intros Hc Hw Hh Ho Hm Ha HB H. unfold additive2D. destruct (Z.eqb_spec off 0) as [->|Hne].
  { rewrite Z.mul_0_l, Z.sub_0_r. split; [reflexivity|]. assert (0 <= h * w * c) by (apply Z.mul_nonneg_nonneg; nia). lia. }
  rewrite wrap_neg_off by auto.
  destruct (reduce_sum2D_ok n m B c p (- off) acc w h col row) as [E1 E2]; auto.
  { intros a. rewrite Z.mul_opp_l, Z.abs_opp. auto. }
  rewrite E1. split; [f_equal; ring|]. rewrite Z.mul_opp_l in E2. lia.
Qed.

Lemma additive3D_ok n m B c p acc off w h ch col row chs : 0 <= c -> 0 <= w -> 0 <= h -> 0 <= ch -> Z.abs off <= 32767 ->
  (forall a, Z.abs (off * rd m a) <= c) ->
  Z.abs acc <= B -> B + ch * h * w * c <= smax n -> vol_ok m p w h ch col row chs ->
  additive3D n m p acc off w h ch col row chs = Some (acc - off * sum3D m p w h ch col row chs)
  /\ Z.abs (acc - off * sum3D m p w h ch col row chs) <= B + ch * h * w * c.
Proof.
  intros Hc Hw Hh Hch Ho Hm Ha HB H. unfold additive3D. destruct (Z.eqb_spec off 0) as [->|Hne].
  { rewrite Z.mul_0_l, Z.sub_0_r. split; [reflexivity|].
    assert (0 <= ch * h * w * c) by (apply Z.mul_nonneg_nonneg; auto; apply Z.mul_nonneg_nonneg; nia). lia. }
  rewrite wrap_neg_off by auto.
  assert (HP : 0 <= h * w * c) by (apply Z.mul_nonneg_nonneg; [nia|auto]).
  assert (EC : ch * h * w * c = ch * (h * w * c)) by ring.
  destruct (acc_loop (fun (_ : Z) (s : Z * Z) => let '(acc, p) := s in
       do acc <- reduce_sum2D n m p (- off) acc w h col row; Some (acc, p + chs))
     (fun i => p + i * chs) (fun k => - off * sum2D m (p + k * chs) w h col row) (h * w * c) B ch acc) as [G1 G2]; auto.
  - intros i a Hi Ba.
    destruct (reduce_sum2D_ok n m (B + i * (h * w * c)) c (p + i * chs) (- off) a w h col row) as [E1 E2]; auto.
    { intros b. rewrite Z.mul_opp_l, Z.abs_opp. auto. }
    { assert (B + (i + 1) * (h * w * c) <= B + ch * (h * w * c)) by nia. lia. }
    split; [|exact E2]. rewrite E1. cbn [bind]. do 2 f_equal. lia.
  - change (0 * chs) with 0 in G1. rewrite Z.add_0_r in G1. rewrite G1. cbn [bind fst].
    rewrite zsum_mul_l in *. unfold sum3D. split; [f_equal; ring|]. rewrite EC.
    replace (acc - off * zsum 0 ch (fun k => sum2D m (p + k * chs) w h col row))
      with (acc + - off * zsum 0 ch (fun k => sum2D m (p + k * chs) w h col row)) by ring. exact G2.
Qed.

Lemma zp_additive_ok n B acc zw zi len : 0 <= len -> Z.abs acc <= B -> B + len * Z.abs (zw * zi) <= smax n ->
  zp_additive n acc zw zi len = Some (acc + len * (zw * zi)) /\ Z.abs (acc + len * (zw * zi)) <= B + len * Z.abs (zw * zi).
Proof.
  intros Hl Ha HB. unfold zp_additive. destruct ((zw =? 0) && (zi =? 0)) eqn:E0.
  { apply andb_prop in E0. destruct E0 as [E1 E2]. apply Z.eqb_eq in E1, E2. subst.
    rewrite !Z.mul_0_r, Z.add_0_r. cbn [Z.abs]. split; [reflexivity|lia]. }
  unfold reduce_sum.
  match goal with |- context [foldM ?F _ _] =>
    destruct (acc_loop F (fun _ => 0) (fun _ => zw * zi) (Z.abs (zw * zi)) B len acc Hl (Z.abs_nonneg _) Ha) as [G1 G2] end.
  - intros i a Hi Ba. cbn [load Z.eqb bind]. assert (E : zi * zw = zw * zi) by ring.
    assert (i * Z.abs (zw * zi) + Z.abs (zw * zi) <= len * Z.abs (zw * zi)) by (set (t := Z.abs (zw * zi)) in *; assert (0 <= t) by (unfold t; lia); nia).
    unfold load. cbn [Z.eqb bind]. rewrite mac_chk_ok by lia. cbn [bind]. split; [do 2 f_equal; lia|lia].
  - rewrite G1. cbn [bind fst]. rewrite zsum_const in * by lia. rewrite Z.sub_0_r in *. split; [reflexivity|exact G2].
Qed.

(** * C08: no overflow within the guard bits *)

Lemma prod_bits na nb x y : 1 <= na -> 1 <= nb -> in_bits na x -> in_bits nb y -> Z.abs (x * y) <= 2 ^ (na + nb - 2).
Proof.
  unfold in_bits, smin, smax. intros Ha Hb Hx Hy. replace (na + nb - 2) with ((na - 1) + (nb - 1)) by lia.
  rewrite pow2_split by lia. rewrite Z.abs_mul. apply Z.mul_le_mono_nonneg; lia.
Qed.

(** A dot product over at most 2^guard_bits products never leaves the accumulator, whatever the data, and
    its result is the exact sum. [guard_bits] is the number returned by mli_hlp_accu_guard_bits_*. *)
Theorem dotprod3D_guard na nb nacc mi mw p q w h ch icol irow ich kcol krow kch :
  1 <= na -> 1 <= nb -> na + nb <= nacc -> 0 <= w -> 0 <= h -> 0 <= ch ->
  mem_bits na mi -> mem_bits nb mw ->
  (forall k r cl, 0 <= k < ch -> 0 <= r < h -> 0 <= cl < w ->
     allocated mi (p + k * ich + r * irow + cl * icol) /\ allocated mw (q + k * kch + r * krow + cl * kcol)) ->
  w * h * ch <= 2 ^ guard_bits nacc na nb ->
  dotprod3D nacc mi mw p q w h ch icol irow ich kcol krow kch 0
  = Some (zsum 0 ch (fun k => zsum 0 h (fun r => zsum 0 w (fun cl =>
      rd mi (p + k * ich + r * irow + cl * icol) * rd mw (q + k * kch + r * krow + cl * kcol))))).
Proof.
  intros Ha Hb Hn Hw Hh Hch Mi Mw Hal Hg.
  destruct (dotprod3D_ok nacc mi mw (2 ^ (na + nb - 2)) ltac:(pose proof (pow2_gt0 (na + nb - 2) ltac:(lia)); lia)
    0 p q 0 w h ch icol irow ich kcol krow kch) as [E _]; auto; try (cbn; lia).
  - unfold guard_bits in Hg. assert (P : 2 ^ (nacc - (na + nb)) * 2 ^ (na + nb - 2) = 2 ^ (nacc - 2)).
    { rewrite <- pow2_split by lia. f_equal. lia. }
    unfold smax. rewrite (pow2_succ (nacc - 1)) by lia. replace (nacc - 1 - 1) with (nacc - 2) by lia.
    pose proof (pow2_gt0 (na + nb - 2) ltac:(lia)). pose proof (pow2_gt0 (nacc - 2) ltac:(lia)).
    replace (ch * h * w) with (w * h * ch) by ring.
    assert (w * h * ch * 2 ^ (na + nb - 2) <= 2 ^ (nacc - (na + nb)) * 2 ^ (na + nb - 2)) by (apply Z.mul_le_mono_nonneg_r; lia).
    lia.
  - intros k Hk r cl Hr Hcl. destruct (Hal k r cl Hk Hr Hcl). repeat split; auto.
    apply prod_bits; auto; apply rd_bits; auto.
Qed.

(** The numbers behind the helper functions of the API. *)
Theorem guard_bits_values : accu_guard_bits_sa8_sa8 = 16 /\ accu_guard_bits_fx16_fx16 = 32 /\ accu_guard_bits_fx16_fx8 = 8.
Proof. repeat split. Qed.

(** Twice as many products as 8-bit operands allow in 32 bits may overflow. *)
Theorem dotprod_overflow_refuted : exists vals, vals <= 2 ^ (guard_bits 32 8 8 + 1)
  /\ dotprod1D 32 (fun _ => Some (-128)) (fun _ => Some (-128)) 0 0 0 vals 1 1 = None.
Proof.
  exists 131072. split; [vm_compute; discriminate|].
  unfold dotprod1D. change 131072 with (131071 + 1). rewrite zrange_snoc by lia. rewrite foldM_app.
  destruct (dot_row 32 (fun _ => Some (-128)) (fun _ => Some (-128)) 16384 ltac:(lia) 0 0 0 0 131071 1 1) as [E _]; try lia.
  - vm_compute. discriminate.
  - intros. unfold allocated, rd. repeat split; try discriminate; cbn; lia.
  - assert (S : zsum 0 131071 (fun i => rd (fun _ => Some (-128)) (0 + i * 1) * rd (fun _ => Some (-128)) (0 + i * 1)) = 131071 * 16384).
    { etransitivity; [apply zsum_ext with (g := fun _ => 16384); intros; reflexivity|]. rewrite zsum_const by lia. reflexivity. }
    rewrite E, S. cbn [bind foldM]. reflexivity.
Qed.

(** * C07: the SA8 decomposition *)

(** The pieces in the order of the convolution kernels: products, minus the weights' zero point times the sum of
    inputs, minus the input's zero point times the sum of weights, plus the product of the zero points. *)
Definition sa_dotprod (n : Z) (mi mw : mem) (p q w h ch icol irow ich kcol krow kch zi zw acc : Z) : option Z :=
  do a <- dotprod3D n mi mw p q w h ch icol irow ich kcol krow kch acc;
  do a <- additive3D n mi p a zw w h ch icol irow ich;
  do a <- additive3D n mw q a zi w h ch kcol krow kch;
  zp_additive n a zw zi (w * h * ch).

Lemma box_identity mi mw p q w h ch icol irow ich kcol krow kch zi zw : 0 <= w -> 0 <= h -> 0 <= ch ->
  box_sum mi mw p q w h ch icol irow ich kcol krow kch - zw * sum3D mi p w h ch icol irow ich
    - zi * sum3D mw q w h ch kcol krow kch + w * h * ch * (zw * zi)
  = zsum 0 ch (fun k => zsum 0 h (fun r => zsum 0 w (fun cl =>
      (rd mi (p + k * ich + r * irow + cl * icol) - zi) * (rd mw (q + k * kch + r * krow + cl * kcol) - zw)))).
Proof.
  intros Hw Hh Hch.
  assert (E : w * h * ch * (zw * zi) = zsum 0 ch (fun _ => zsum 0 h (fun _ => zsum 0 w (fun _ => zw * zi)))).
  { rewrite !zsum_const by lia. ring. }
  rewrite E. unfold box_sum, sum3D, plane_sum, sum2D.
  rewrite <- !zsum_mul_l, <- !zsum_sub, <- zsum_add. apply zsum_ext. intros k Hk.
  rewrite <- !zsum_mul_l, <- !zsum_sub, <- zsum_add. apply zsum_ext. intros r Hr.
  rewrite <- !zsum_mul_l, <- !zsum_sub, <- zsum_add. apply zsum_ext. intros cl Hcl. ring.
Qed.

Theorem sa_dotprod_exact n mi mw p q w h ch icol irow ich kcol krow kch zi zw Z0 acc :
  mem_bits 8 mi -> mem_bits 8 mw -> 0 <= w -> 0 <= h -> 0 <= ch ->
  Z.abs zi <= Z0 -> Z.abs zw <= Z0 -> Z0 <= 32767 ->
  (forall k r cl, 0 <= k < ch -> 0 <= r < h -> 0 <= cl < w ->
     allocated mi (p + k * ich + r * irow + cl * icol) /\ allocated mw (q + k * kch + r * krow + cl * kcol)) ->
  Z.abs acc + w * h * ch * (128 + Z0) ^ 2 <= smax n ->
  sa_dotprod n mi mw p q w h ch icol irow ich kcol krow kch zi zw acc
  = Some (acc + zsum 0 ch (fun k => zsum 0 h (fun r => zsum 0 w (fun cl =>
      (rd mi (p + k * ich + r * irow + cl * icol) - zi) * (rd mw (q + k * kch + r * krow + cl * kcol) - zw))))).
Proof.
  intros Mi Mw Hw Hh Hch Hzi Hzw HZ Hal HB. unfold sa_dotprod.
  set (M := ch * h * w) in *. assert (HM : 0 <= M) by (unfold M; apply Z.mul_nonneg_nonneg; nia).
  replace (w * h * ch * (128 + Z0) ^ 2) with (M * 16384 + M * (128 * Z0) + M * (128 * Z0) + M * (Z0 * Z0)) in HB by (unfold M; ring).
  assert (Bi : forall a, Z.abs (rd mi a) <= 128) by (intros a; pose proof (proj1 (ib8 _) (rd_bits 8 mi a ltac:(lia) Mi)); lia).
  assert (Bw : forall a, Z.abs (rd mw a) <= 128) by (intros a; pose proof (proj1 (ib8 _) (rd_bits 8 mw a ltac:(lia) Mw)); lia).
  assert (0 <= M * (128 * Z0)) by (apply Z.mul_nonneg_nonneg; lia). assert (0 <= M * (Z0 * Z0)) by (apply Z.mul_nonneg_nonneg; nia).
  assert (A0 : forall z a m, Z.abs z <= Z0 -> (forall a, Z.abs (rd m a) <= 128) -> Z.abs (z * rd m a) <= 128 * Z0).
  { intros z a m Hz Hm. specialize (Hm a). rewrite Z.abs_mul. nia. }
  destruct (dotprod3D_ok n mi mw 16384 ltac:(lia) (Z.abs acc) p q acc w h ch icol irow ich kcol krow kch) as [E1 F1]; auto; try lia.
  { intros k Hk r cl Hr Hcl. destruct (Hal k r cl Hk Hr Hcl). repeat split; auto. rewrite Z.abs_mul.
    specialize (Bi (p + k * ich + r * irow + cl * icol)). specialize (Bw (q + k * kch + r * krow + cl * kcol)). nia. }
  rewrite E1. cbn [bind]. fold M in F1. set (a1 := acc + _) in *.
  destruct (additive3D_ok n mi (Z.abs acc + M * 16384) (128 * Z0) p a1 zw w h ch icol irow ich) as [E2 F2]; auto; try lia.
  { intros k Hk r cl Hr Hcl. now apply (Hal k r cl). }
  rewrite E2. cbn [bind]. fold M in F2. set (a2 := a1 - _) in *.
  destruct (additive3D_ok n mw (Z.abs acc + M * 16384 + M * (128 * Z0)) (128 * Z0) q a2 zi w h ch kcol krow kch) as [E3 F3]; auto; try lia.
  { intros k Hk r cl Hr Hcl. now apply (Hal k r cl). }
  rewrite E3. cbn [bind]. fold M in F3. set (a3 := a2 - _) in *.
  destruct (zp_additive_ok n (Z.abs acc + M * 16384 + M * (128 * Z0) + M * (128 * Z0)) a3 zw zi (w * h * ch)) as [E4 _]; auto; try lia.
  { replace (w * h * ch) with M by (unfold M; ring). assert (Z.abs (zw * zi) <= Z0 * Z0) by (rewrite Z.abs_mul; nia). nia. }
  rewrite E4. f_equal. rewrite <- (box_identity mi mw p q w h ch icol irow ich kcol krow kch zi zw) by auto.
  unfold a3, a2, a1. ring.
Qed.

(** With 8-bit zero points and a 32-bit accumulator the bound is 32767 products, e.g. a 3x3 kernel with 3640 channels. *)
Definition list_mem (l : list Z) : mem := fun a => if a <? 0 then None else nth_error l (Z.to_nat a).

Example sa_dotprod_ex : 3 * 3 * 3640 * (128 + 128) ^ 2 <= smax 32
  /\ sa_dotprod 32 (list_mem [1; -2; 3; 4]) (list_mem [5; 6; -7; 8]) 0 0 2 2 1 1 2 4 1 2 4 10 (-3) 0
     = Some ((1 - 10) * (5 + 3) + (-2 - 10) * (6 + 3) + (3 - 10) * (-7 + 3) + (4 - 10) * (8 + 3)).
Proof. split; [vm_compute; discriminate|vm_compute; reflexivity]. Qed.
