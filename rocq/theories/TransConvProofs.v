(** Transposed convolution: the decomposition in phases equals the scatter definition (C35, C57). *)
From Coq Require Import ZArith List Lia Bool QArith Qabs.
From Verif Require Import Base FxMath FxMathProofs Tensor TensorProofs Permute PermuteProofs ArgMax QSpec Quant QuantProofs QuantCastProofs
  DotProd DotProdProofs Layout Pool PoolProofs PoolKernels Conv ConvSpec ConvProofs ConvValues ConvKernels ConvTheorems ConvInt TransConv.
Import ListNotations.
Open Scope Z_scope.

(** * Specification *)

(** Input element (r, cl) times kernel tap (kr, kc) is added to output (r * stride + kr - top, cl * stride + kc - left). *)
Definition transpose_sum (mi mw : mem) (tin tw : tensor) (c : conv_cfg) (zi zw : Z) (H W oc : Z) : Z :=
  zsum 0 (dim tin 0) (fun r => zsum 0 (dim tin 1) (fun cl => zsum 0 (dim tw 0) (fun kr => zsum 0 (dim tw 1) (fun kc =>
    if (r * cv_sh c + kr - cv_top c =? H) && (cl * cv_sw c + kc - cv_left c =? W)
    then zsum 0 (dim tin 2) (fun ic => (at3 mi tin r cl ic - zi) * (at4 mw tw kr kc ic oc - zw))
    else 0)))).

(** Kernel tap [k] of output [y] meets input [(y + p - k) / s]. *)
Definition hits (n s p y k : Z) : bool := ((y + p - k) mod s =? 0) && (0 <=? y + p - k) && ((y + p - k) / s <? n).

(** MLI 3.0: the input is spread with stride spacing and padded, the gaps and the padding hold the zero point. *)
Definition transpose_int_sum (mi mw : mem) (tin tw : tensor) (c : conv_cfg) (zi : Z) (H W oc : Z) : Z :=
  zsum 0 (dim tw 0) (fun kr => zsum 0 (dim tw 1) (fun kc =>
    if hits (dim tin 0) (cv_sh c) (cv_top c) H kr && hits (dim tin 1) (cv_sw c) (cv_left c) W kc
    then zsum 0 (dim tin 2) (fun ic => at3 mi tin ((H + cv_top c - kr) / cv_sh c) ((W + cv_left c - kc) / cv_sw c) ic * at4 mw tw kr kc ic oc)
    else zsum 0 (dim tin 2) (fun ic => zi * at4 mw tw kr kc ic oc))).

(** * Sums with a stride *)

Lemma ceil_div_div a b : 0 < b -> 0 <= a + b - 1 -> ceil_div a b = (a + b - 1) / b.
Proof. intros. unfold ceil_div. apply Z.quot_div_nonneg; lia. Qed.

Lemma ceil_div_range a b x : 0 < b -> 0 <= a + b - 1 -> (x < ceil_div a b <-> x * b < a).
Proof.
  intros Hb Ha. rewrite ceil_div_div by auto.
  pose proof (Z.div_mod (a + b - 1) b ltac:(lia)). pose proof (Z.mod_pos_bound (a + b - 1) b Hb). nia.
Qed.

Lemma zsum_stride s ko k (f : Z -> Z) : 0 < s -> 0 <= ko < s -> 0 <= k ->
  zsum 0 k (fun u => if (u - ko) mod s =? 0 then f u else 0) = zsum 0 (ceil_div (k - ko) s) (fun t => f (ko + t * s)).
Proof.
  intros Hs Hk. revert k. apply natlike_ind.
  - rewrite zsum_nil by lia. rewrite zsum_nil; [reflexivity|]. rewrite ceil_div_div by lia.
    rewrite Z.div_small by lia. lia.
  - intros k K IH. rewrite <- Z.add_1_r, zsum_snoc, IH by lia.
    rewrite !ceil_div_div by lia. set (d := (k - ko) / s).
    pose proof (Z.div_mod (k - ko) s ltac:(lia)) as E. pose proof (Z.mod_pos_bound (k - ko) s Hs) as B. fold d in E.
    destruct (Z.eqb_spec ((k - ko) mod s) 0) as [R|R].
    + replace (k - ko + s - 1) with (s - 1 + d * s) by lia. replace (k + 1 - ko + s - 1) with (0 + (d + 1) * s) by lia.
      rewrite !Z.div_add by lia. rewrite (Z.div_small (s - 1)) by lia. rewrite Z.div_0_l by lia. rewrite !Z.add_0_l.
      assert (0 <= d) by (clear - E R B K Hs Hk; nia).
      rewrite zsum_snoc by lia. f_equal. f_equal. lia.
    + set (r := (k - ko) mod s) in *.
      replace (k - ko + s - 1) with (r - 1 + (d + 1) * s) by lia. replace (k + 1 - ko + s - 1) with (r + (d + 1) * s) by lia.
      rewrite !Z.div_add by lia. rewrite !(Z.div_small) by lia. rewrite !Z.add_0_l. lia.
Qed.

Lemma zsum_single n a f : 0 <= n -> zsum 0 n (fun r => if r =? a then f r else 0) = if (0 <=? a) && (a <? n) then f a else 0.
Proof.
  revert n. apply natlike_ind.
  - rewrite zsum_nil by lia. destruct (Z.leb_spec 0 a), (Z.ltb_spec a 0); cbn; lia.
  - intros n Hn IH. rewrite <- Z.add_1_r, zsum_snoc, IH by lia.
    destruct (Z.eqb_spec n a) as [E|E]; [rewrite E|]; destruct (Z.leb_spec 0 a), (Z.ltb_spec a n), (Z.ltb_spec a (n + 1)); cbn [andb]; try lia.
    all: rewrite <- E, Z.ltb_irrefl; destruct (Z.ltb_spec n (n + 1)); lia.
Qed.

(** The scatter sum along one axis, for one kernel tap. *)
Lemma scatter_hits n s p y k f : 0 <= n -> 0 < s ->
  zsum 0 n (fun r => if r * s + k - p =? y then f r else 0) = if hits n s p y k then f ((y + p - k) / s) else 0.
Proof.
  intros Hn Hs. unfold hits. pose proof (Z.div_mod (y + p - k) s ltac:(lia)) as E. pose proof (Z.mod_pos_bound (y + p - k) s Hs) as B.
  set (a := (y + p - k) / s) in *. destruct (Z.eqb_spec ((y + p - k) mod s) 0) as [R|R]; cbn [andb].
  - transitivity (zsum 0 n (fun r => if r =? a then f r else 0)).
    + apply zsum_ext. intros r _. destruct (Z.eqb_spec r a); destruct (Z.eqb_spec (r * s + k - p) y); auto; nia.
    + rewrite zsum_single by auto. replace (0 <=? y + p - k) with (0 <=? a); [reflexivity|].
      apply eq_true_iff_eq. rewrite !Z.leb_le. nia.
  - apply zsum_zero. intros r _. destruct (Z.eqb_spec (r * s + k - p) y) as [e|]; [|reflexivity]. exfalso. apply R.
    replace (y + p - k) with (r * s) by lia. apply Z.mod_mul. lia.
Qed.

(** * One axis of a phase *)

Section Axis.
Context (n o k s pb pe ko : Z) (Hn : 0 < n) (Hs : 0 < s) (Hsk : s <= k) (Hpb : 0 <= pb < k) (Hpe : 0 <= pe < k).
Context (Ho : o = (n - 1) * s + k - pb - pe) (Ho0 : 0 < o) (Hko : 0 <= ko < s).
Let ph := trans_phase n o k s (k - pb - 1) ko.
Let subk := ceil_div (k - ko) s.

(** Output [j] of the phase is output [ph_out_off + j * s]. *)
Let y j := ph_out_off ph + j * s.
Let q := (k - pb - 1 - ph_out_off ph - ko) / s.

Lemma phase_off : 0 <= ph_out_off ph < s /\ (k - pb - 1 - ph_out_off ph - ko) = s * q.
Proof.
  unfold q, ph, trans_phase. cbn [ph_out_off]. rewrite Z.rem_mod_nonneg by lia.
  pose proof (Z.mod_pos_bound (s - ko + (k - pb - 1)) s Hs). split; [lia|].
  pose proof (Z.div_mod (s - ko + (k - pb - 1)) s ltac:(lia)) as E.
  set (r := (s - ko + (k - pb - 1)) mod s) in *. set (d := (s - ko + (k - pb - 1)) / s) in *.
  replace (k - pb - 1 - r - ko) with ((d - 1) * s) by lia. rewrite Z.div_mul by lia. ring.
Qed.

Lemma phase_out j : (0 <= j < ph_out ph <-> 0 <= j /\ 0 <= y j < o).
Proof.
  destruct phase_off as [A _]. unfold ph at 1. unfold trans_phase. cbn [ph_out].
  fold (ph_out_off ph). change (Z.rem (s - ko + (k - pb - 1)) s) with (ph_out_off ph).
  pose proof (ceil_div_range (o - ph_out_off ph) s j Hs ltac:(lia)) as R. unfold y. split; intros B.
  - assert (0 <= j * s) by (apply Z.mul_nonneg_nonneg; lia). destruct R as [R _]. specialize (R ltac:(lia)). lia.
  - destruct R as [_ R]. specialize (R ltac:(lia)). lia.
Qed.

Lemma phase_pad : ph_pad ph - ph_in_off ph = q /\ 0 <= ph_in_off ph <= 1 /\ 0 <= ph_pad ph.
Proof.
  destruct phase_off as [A E]. unfold ph at 1 2 3 4 5. unfold trans_phase. cbn [ph_pad ph_in_off].
  change (Z.rem (s - ko + (k - pb - 1)) s) with (ph_out_off ph). set (r := ph_out_off ph) in *.
  rewrite !ceil_div_div by lia.
  assert (Q : -1 <= q) by (clear - E A Hko Hpb Hs; nia).
  destruct (Z.max_spec 0 (k - pb - 1 - r - ko)) as [[M1 ->]|[M1 ->]].
  - rewrite Z.max_l by lia. rewrite E. replace (s * q + s - 1) with (s - 1 + q * s) by ring. rewrite Z.div_add by lia.
    rewrite (Z.div_small (s - 1)) by lia. replace (0 + s - 1) with (s - 1) by ring. rewrite (Z.div_small (s - 1)) by lia. nia.
  - replace (0 + s - 1) with (s - 1) by ring. rewrite (Z.div_small (s - 1)) by lia.
    assert (Q' : q = 0 \/ q = -1) by nia. destruct Q' as [Q'|Q']; rewrite Q' in E |- *.
    + assert (r - (k - pb - 1) <= 0) by lia. rewrite Z.max_l by lia. replace (0 + s - 1) with (s - 1) by ring. rewrite (Z.div_small (s - 1)) by lia. lia.
    + assert (r - (k - pb - 1) = s - ko) by lia. rewrite H. rewrite Z.max_r by lia.
      assert ((s - ko + s - 1) / s = 1); [|lia]. symmetry. apply Z.div_unique with (s - ko - 1); lia.
Qed.

Lemma phase_tap j t : 0 <= j < ph_out ph -> 0 <= t < subk ->
  (y j + pb - (k - 1 - (ko + t * s))) = s * (j - ph_pad ph + t + ph_in_off ph).
Proof.
  intros _ _. destruct phase_off as [A E]. destruct phase_pad as (P & _ & _).
  replace (j - ph_pad ph + t + ph_in_off ph) with (j + t - q) by lia. unfold y. lia.
Qed.

Lemma phase_sub : 1 <= subk /\ (forall t, 0 <= t -> (t < subk <-> ko + t * s < k)).
Proof.
  unfold subk. split.
  - rewrite ceil_div_div by lia. apply Z.div_le_lower_bound; lia.
  - intros t Ht. rewrite ceil_div_range by lia. lia.
Qed.

(** The reduced input size: all taps that meet the input meet it inside of the reduced size. *)
Lemma phase_in j t : 0 <= j < ph_out ph -> 0 <= t < subk ->
  (0 <= j - ph_pad ph + t < ph_in ph <-> 0 <= j - ph_pad ph + t + ph_in_off ph < n).
Proof.
  intros Hj Ht. destruct phase_pad as (P & P1 & P2).
  assert (E : ph_in ph = Z.min (ph_out ph + (subk - 1) - ph_pad ph) (n - ph_in_off ph)) by reflexivity.
  rewrite E. split; [lia|]. intros B. split; [|lia].
  destruct (Z.eq_dec (ph_in_off ph) 0) as [e|e]; [lia|].
  (* in_off = 1: no padding *)
  assert (ph_pad ph = 0); [|lia].
  unfold ph, trans_phase in e |- *. cbn [ph_pad ph_in_off] in *.
  change (Z.rem (s - ko + (k - pb - 1)) s) with (ph_out_off ph) in *. set (r := ph_out_off ph) in *.
  rewrite !ceil_div_div in * by lia.
  destruct (Z.max_spec 0 (r - (k - pb - 1))) as [[M1 M2]|[M1 M2]]; rewrite M2 in e.
  - rewrite Z.max_l by lia. replace (0 + s - 1) with (s - 1) by ring. apply Z.div_small; lia.
  - exfalso. apply e. replace (0 + s - 1) with (s - 1) by ring. apply Z.div_small; lia.
Qed.

(** Every output has a tap that meets the input. *)
Lemma phase_some j : 0 <= j < ph_out ph -> exists t, 0 <= t < subk /\ 0 <= j - ph_pad ph + t < ph_in ph.
Proof.
  intros Hj. pose proof (proj1 (phase_out j) Hj) as [J1 J2]. destruct phase_sub as [S1 S2]. destruct phase_pad as (P & P1 & P2).
  destruct phase_off as [A E].
  (* the tap index for input r is t = r + q - j *)
  set (Y := y j + pb) in *.
  set (r := Z.min (n - 1) (Y / s)).
  assert (D : s * (Y / s) <= Y < s * (Y / s) + s).
  { pose proof (Z.div_mod Y s ltac:(lia)). pose proof (Z.mod_pos_bound Y s Hs). lia. }
  assert (R0 : 0 <= r) by (assert (0 <= Y / s) by (apply Z.div_pos; lia); lia).
  assert (K0 : 0 <= Y - r * s < k).
  { unfold r. destruct (Z.min_spec (n - 1) (Y / s)) as [[M ->]|[M ->]]; [|nia].
    split; [nia|]. unfold Y. lia. }
  exists (r + q - j).
  assert (T : ko + (r + q - j) * s = k - 1 - (Y - r * s)).
  { unfold Y, y. replace ((r + q - j) * s) with (r * s - j * s + s * q) by ring. rewrite <- E. ring. }
  assert (T0 : 0 <= r + q - j) by (clear - T K0 Hko Hs; nia).
  assert (T1 : r + q - j < subk) by (apply S2; lia).
  split; [lia|]. apply phase_in; [auto|lia|]. lia.
Qed.

Lemma phase_axis j : 0 <= j < ph_out ph -> axis_ok (j * 1 - ph_pad ph) subk 1 (ph_in ph).
Proof. intros Hj. destruct (phase_some j Hj) as (t & T1 & T2). unfold axis_ok. lia. Qed.

(** The taps of the phase are the taps of the full kernel that meet the input. *)
Lemma phase_sum j (F : Z -> Z -> Z) : 0 <= j < ph_out ph ->
  zsum 0 subk (fun t => if (0 <=? j - ph_pad ph + t) && (j - ph_pad ph + t <? ph_in ph) then F (j - ph_pad ph + t + ph_in_off ph) (k - 1 - (ko + t * s)) else 0)
  = zsum 0 k (fun kr => if hits n s pb (y j) kr then F ((y j + pb - kr) / s) kr else 0).
Proof.
  intros Hj. rewrite (zsum_rev k).
  set (f := fun u => if hits n s pb (y j) (k - 1 - u) then F ((y j + pb - (k - 1 - u)) / s) (k - 1 - u) else 0).
  transitivity (zsum 0 k (fun u => if (u - ko) mod s =? 0 then f u else 0)).
  - rewrite zsum_stride by lia. fold subk. apply zsum_ext. intros t Ht. unfold f, hits. rewrite phase_tap by auto.
    rewrite (Z.mul_comm s), Z.mod_mul, Z.div_mul by lia. cbn [Z.eqb andb].
    assert (X : (0 <=? j - ph_pad ph + t) && (j - ph_pad ph + t <? ph_in ph)
      = (0 <=? (j - ph_pad ph + t + ph_in_off ph) * s) && (j - ph_pad ph + t + ph_in_off ph <? n)).
    { apply eq_true_iff_eq. rewrite !andb_true_iff, !Z.leb_le, !Z.ltb_lt. pose proof (phase_in j t Hj Ht) as X.
      assert (0 <= (j - ph_pad ph + t + ph_in_off ph) * s <-> 0 <= j - ph_pad ph + t + ph_in_off ph) by (clear - Hs; nia). lia. }
    rewrite X. reflexivity.
  - apply zsum_ext. intros u Hu. fold (f u). destruct (Z.eqb_spec ((u - ko) mod s) 0) as [e|e]; [reflexivity|].
    unfold f, hits. destruct (Z.eqb_spec ((y j + pb - (k - 1 - u)) mod s) 0) as [e'|e']; [|reflexivity]. exfalso. apply e.
    destruct phase_off as [_ E]. replace (y j + pb - (k - 1 - u)) with (u - ko + (j - q) * s) in e' by (unfold y; lia).
    rewrite Z.mod_add in e' by lia. exact e'.
Qed.
End Axis.

(** Every output belongs to a phase. *)
Lemma phase_cover n o k s pb H : 0 < s -> 0 <= pb < k -> 0 <= H < o ->
  exists ko j, 0 <= ko < s /\ 0 <= j < ph_out (trans_phase n o k s (k - pb - 1) ko) /\ H = ph_out_off (trans_phase n o k s (k - pb - 1) ko) + j * s.
Proof.
  intros Hs Hp HH. set (ep := k - pb - 1). set (ko := (ep - H) mod s).
  pose proof (Z.mod_pos_bound (ep - H) s Hs) as B. fold ko in B. exists ko, (H / s).
  assert (E : ph_out_off (trans_phase n o k s ep ko) = H mod s).
  { unfold trans_phase. cbn [ph_out_off]. rewrite Z.rem_mod_nonneg by lia. unfold ko.
    replace (s - (ep - H) mod s + ep) with (ep - (ep - H) mod s + 1 * s) by ring. rewrite Z.mod_add by lia.
    rewrite Zminus_mod_idemp_r. f_equal. lia. }
  pose proof (Z.div_mod H s ltac:(lia)) as D. pose proof (Z.mod_pos_bound H s Hs).
  assert (0 <= H / s) by (apply Z.div_pos; lia).
  split; [lia|]. split; [|rewrite E; lia]. split; [lia|].
  change (ph_out (trans_phase n o k s ep ko)) with (ceil_div (o - ph_out_off (trans_phase n o k s ep ko)) s). rewrite E.
  apply ceil_div_range; lia.
Qed.

(** * Two axes *)

(** The gather form of the transposed convolution sum. *)
Definition gather2 (nh nw kh kw sh sw pt pl H W : Z) (X : Z -> Z -> Z -> Z -> Z) (G : Z -> Z -> Z) : Z :=
  zsum 0 kh (fun kr => zsum 0 kw (fun kc =>
    if hits nh sh pt H kr && hits nw sw pl W kc then X ((H + pt - kr) / sh) ((W + pl - kc) / sw) kr kc else G kr kc)).

Lemma scatter_gather nh nw kh kw sh sw pt pl H W X : 0 <= nh -> 0 <= nw -> 0 < sh -> 0 < sw ->
  zsum 0 nh (fun r => zsum 0 nw (fun cl => zsum 0 kh (fun kr => zsum 0 kw (fun kc =>
    if (r * sh + kr - pt =? H) && (cl * sw + kc - pl =? W) then X r cl kr kc else 0))))
  = gather2 nh nw kh kw sh sw pt pl H W X (fun _ _ => 0).
Proof.
  intros N1 N2 S1 S2. unfold gather2.
  transitivity (zsum 0 nh (fun r => zsum 0 kh (fun kr => zsum 0 nw (fun cl => zsum 0 kw (fun kc =>
    if (r * sh + kr - pt =? H) && (cl * sw + kc - pl =? W) then X r cl kr kc else 0))))).
  { apply zsum_ext. intros r _. apply zsum_swap. }
  rewrite zsum_swap. apply zsum_ext. intros kr _.
  transitivity (zsum 0 nh (fun r => zsum 0 kw (fun kc => zsum 0 nw (fun cl =>
    if (r * sh + kr - pt =? H) && (cl * sw + kc - pl =? W) then X r cl kr kc else 0)))).
  { apply zsum_ext. intros r _. apply zsum_swap. }
  rewrite zsum_swap. apply zsum_ext. intros kc _.
  transitivity (zsum 0 nh (fun r => if r * sh + kr - pt =? H then if hits nw sw pl W kc then X r ((W + pl - kc) / sw) kr kc else 0 else 0)).
  { apply zsum_ext. intros r _. destruct (r * sh + kr - pt =? H); cbn [andb].
    - apply (scatter_hits nw sw pl W kc (fun cl => X r cl kr kc)); auto.
    - apply zsum_0. }
  rewrite (scatter_hits nh sh pt H kr (fun r => if hits nw sw pl W kc then X r ((W + pl - kc) / sw) kr kc else 0)) by auto.
  destruct (hits nh sh pt H kr), (hits nw sw pl W kc); reflexivity.
Qed.

Lemma taps_gather nh oh kh sh pt pb kor nw ow kw sw pl pr koc j l X :
  0 < nh -> 0 < sh -> sh <= kh -> 0 <= pt < kh -> 0 <= pb < kh -> oh = (nh - 1) * sh + kh - pt - pb -> 0 < oh -> 0 <= kor < sh ->
  0 < nw -> 0 < sw -> sw <= kw -> 0 <= pl < kw -> 0 <= pr < kw -> ow = (nw - 1) * sw + kw - pl - pr -> 0 < ow -> 0 <= koc < sw ->
  let ph := trans_phase nh oh kh sh (kh - pt - 1) kor in
  let pw := trans_phase nw ow kw sw (kw - pl - 1) koc in
  0 <= j < ph_out ph -> 0 <= l < ph_out pw ->
  taps (ph_in ph) (ph_in pw) (ceil_div (kh - kor) sh) (ceil_div (kw - koc) sw) (j * 1 - ph_pad ph) (l * 1 - ph_pad pw) 1 1
    (fun t u => X (j - ph_pad ph + t + ph_in_off ph) (l - ph_pad pw + u + ph_in_off pw) (kh - 1 - (kor + t * sh)) (kw - 1 - (koc + u * sw)))
    (fun _ _ => 0)
  = gather2 nh nw kh kw sh sw pt pl (ph_out_off ph + j * sh) (ph_out_off pw + l * sw) X (fun _ _ => 0).
Proof.
  intros A1 A2 A3 A4 A5 A6 A7 A8 B1 B2 B3 B4 B5 B6 B7 B8 ph pw Hj Hl. unfold taps.
  transitivity (zsum 0 (ceil_div (kh - kor) sh) (fun t => if (0 <=? j - ph_pad ph + t) && (j - ph_pad ph + t <? ph_in ph) then
      (fun r kr => zsum 0 (ceil_div (kw - koc) sw) (fun u => if (0 <=? l - ph_pad pw + u) && (l - ph_pad pw + u <? ph_in pw) then
         (fun cl kc => X r cl kr kc) (l - ph_pad pw + u + ph_in_off pw) (kw - 1 - (koc + u * sw)) else 0)) (j - ph_pad ph + t + ph_in_off ph) (kh - 1 - (kor + t * sh)) else 0)).
  { apply zsum_ext. intros t _. rewrite !Z.mul_1_r. cbv beta. destruct ((0 <=? j - ph_pad ph + t) && (j - ph_pad ph + t <? ph_in ph)) eqn:E.
    - apply zsum_ext. intros u _. unfold inside. rewrite !Z.mul_1_r. rewrite E. cbn [andb]. destruct (0 <=? _), (_ <? ph_in pw); reflexivity.
    - apply zsum_zero. intros u _. unfold inside. rewrite !Z.mul_1_r. rewrite E. reflexivity. }
  eapply eq_trans; [apply (phase_sum nh oh kh sh pt pb kor) with (j := j) (F := fun r kr => zsum 0 (ceil_div (kw - koc) sw)
      (fun u => if (0 <=? l - ph_pad pw + u) && (l - ph_pad pw + u <? ph_in pw) then X r (l - ph_pad pw + u + ph_in_off pw) kr (kw - 1 - (koc + u * sw)) else 0)); auto|].
  unfold gather2. apply zsum_ext. intros kr _. fold ph.
  assert (E : forall r, zsum 0 (ceil_div (kw - koc) sw) (fun u => if (0 <=? l - ph_pad pw + u) && (l - ph_pad pw + u <? ph_in pw) then X r (l - ph_pad pw + u + ph_in_off pw) kr (kw - 1 - (koc + u * sw)) else 0)
     = zsum 0 kw (fun kc => if hits nw sw pl (ph_out_off pw + l * sw) kc then X r ((ph_out_off pw + l * sw + pl - kc) / sw) kr kc else 0)).
  { intros r. apply (phase_sum nw ow kw sw pl pr koc) with (j := l) (F := fun cl kc => X r cl kr kc); auto. }
  rewrite E.
  destruct (hits nh sh pt _ kr); cbn [andb]; [reflexivity|]. symmetry. apply zsum_0.
Qed.

Lemma gather2_ext nh nw kh kw sh sw pt pl H W X Y G G' :
  (forall r cl kr kc, X r cl kr kc = Y r cl kr kc) -> (forall kr kc, G kr kc = G' kr kc) ->
  gather2 nh nw kh kw sh sw pt pl H W X G = gather2 nh nw kh kw sh sw pt pl H W Y G'.
Proof. intros E1 E2. unfold gather2. apply zsum_ext. intros. apply zsum_ext. intros. now rewrite E1, E2. Qed.

(** * The loops over phases *)

Section Loops.
Context (dom : Z -> Z -> Z -> Prop) (at_ : Z -> Z -> Z -> Z) (V : Z -> Z -> Z -> option Z) (m0 : mem).
Context (Hinj : forall h w c h' w' c', dom h w c -> dom h' w' c' -> at_ h w c = at_ h' w' c' -> h = h' /\ w = w' /\ c = c').

(** One phase: output (h, w, c) of the phase is (fh h, fw w, c) of the whole output. *)
Lemma out_loops_filled (value : Z -> Z -> Z -> option Z) (o : ptensor) (fh fw : Z -> Z) rows cols nch R m :
  0 <= rows -> 0 <= cols -> 0 <= nch ->
  (forall h w c, 0 <= h < rows -> 0 <= w < cols -> 0 <= c < nch ->
     dom (fh h) (fw w) c /\ p_ptr o + p_row o * h + p_col o * w + p_chs o * c = at_ (fh h) (fw w) c
     /\ value h w c = V (fh h) (fw w) c /\ exists v, V (fh h) (fw w) c = Some v) ->
  filled dom at_ V m0 R m ->
  exists m', out_loops value o rows cols nch m = Some m'
    /\ filled dom at_ V m0 (fun H W c => R H W c \/ exists h, 0 <= h < rows /\ exists w, 0 <= w < cols /\ exists k, 0 <= k < nch /\ H = fh h /\ W = fw w /\ c = k) m'.
Proof.
  intros Hr Hc Hn HV F. unfold out_loops.
  refine (filled_loop0 dom at_ V m0 Hinj _ (fun h H W c => exists w, 0 <= w < cols /\ exists k, 0 <= k < nch /\ H = fh h /\ W = fw w /\ c = k) 0 rows R m Hr F _).
  intros h R1 m1 Hh F1.
  refine (filled_loop0 dom at_ V m0 Hinj _ (fun w H W c => exists k, 0 <= k < nch /\ H = fh h /\ W = fw w /\ c = k) 0 cols R1 m1 Hc F1 _).
  intros w R2 m2 Hw F2.
  refine (filled_loop0 dom at_ V m0 Hinj _ (fun k H W c => H = fh h /\ W = fw w /\ c = k) 0 nch R2 m2 Hn F2 _).
  intros c R3 m3 Hcc F3. destruct (HV h w c Hh Hw Hcc) as (D & E1 & E2 & v & E3). rewrite E2, E3, E1. cbn [bind].
  apply (filled_store dom at_ V m0 Hinj); auto.
Qed.

Lemma phases_filled (f : Z -> Z -> mem -> option mem) (T : Z -> Z -> Z -> Z -> Z -> Prop) sh sw R m :
  0 <= sh -> 0 <= sw ->
  (forall kh kw R m, 0 <= kh < sh -> 0 <= kw < sw -> filled dom at_ V m0 R m ->
     exists m', f kh kw m = Some m' /\ filled dom at_ V m0 (fun H W c => R H W c \/ T kh kw H W c) m') ->
  filled dom at_ V m0 R m ->
  exists m', foldM (fun kh m => foldM (fun kw m => f kh kw m) (zrange 0 sw) m) (zrange 0 sh) m = Some m'
    /\ filled dom at_ V m0 (fun H W c => R H W c \/ exists kh, 0 <= kh < sh /\ exists kw, 0 <= kw < sw /\ T kh kw H W c) m'.
Proof.
  intros S1 S2 Hf F.
  refine (filled_loop0 dom at_ V m0 Hinj _ (fun kh H W c => exists kw, 0 <= kw < sw /\ T kh kw H W c) 0 sh R m S1 F _).
  intros kh R1 m1 Hh F1.
  refine (filled_loop0 dom at_ V m0 Hinj _ (fun kw H W c => T kh kw H W c) 0 sw R1 m1 S2 F1 _).
  intros kw R2 m2 Hw F2. apply Hf; auto.
Qed.
End Loops.

(** * The checker *)

(** One axis of an accepted configuration. *)
Definition trans_axis (n o k s pb pe : Z) : Prop :=
  0 < n /\ 0 < s /\ s <= k /\ 0 <= pb < k /\ 0 <= pe < k /\ o = (n - 1) * s + k - pb - pe /\ 0 < o.

Lemma chk_trans_spec tin tw tb tout c :
  chk_transpose tin tw tb tout c = ST_OK -> conv_fits tin tw tout c ->
  fits32 tin -> fits32 tw -> fits32 tb -> fits32 tout ->
  (chk_tensor tin = ST_OK /\ chk_tensor tw = ST_OK /\ chk_tensor tb = ST_OK /\ chk_tensor tout = ST_OK)
  /\ (dim tin 2 = dim tw 2 /\ dim tout 2 = dim tw 3 /\ dim tb 0 = dim tw 3)
  /\ (exists h w ch sr sc, t_shape tin = [h; w; ch] /\ t_stride tin = [sr; sc; 1] /\ 0 < h /\ 0 < w /\ 0 < ch)
  /\ (exists h w d n sr sc sd, t_shape tw = [h; w; d; n] /\ t_stride tw = [sr; sc; sd; 1] /\ 0 < h /\ 0 < w /\ 0 < d /\ 0 < n)
  /\ (exists n, t_shape tb = [n] /\ t_stride tb = [1] /\ 0 < n)
  /\ (exists h w ch sr sc, t_shape tout = [h; w; ch] /\ t_stride tout = [sr; sc; 1] /\ 0 < h /\ 0 < w /\ 0 < ch)
  /\ trans_axis (dim tin 0) (dim tout 0) (dim tw 0) (cv_sh c) (cv_top c) (cv_bottom c)
  /\ trans_axis (dim tin 1) (dim tout 1) (dim tw 1) (cv_sw c) (cv_left c) (cv_right c).
Proof.
  intros K Hf Fi Fw Fb Fo. unfold chk_transpose in K.
  destruct (chk_tensor tin) eqn:Ci; try discriminate. destruct (chk_tensor tw) eqn:Cw; try discriminate.
  destruct (chk_tensor tb) eqn:Cb; try discriminate. destruct (chk_tensor tout) eqn:Co; try discriminate.
  match type of K with (if negb ?b then _ else _) = _ => destruct b eqn:Kr; cbn [negb] in K; [|discriminate] end.
  match type of K with (if negb ?b then _ else _) = _ => destruct b eqn:Ki; cbn [negb] in K; [|discriminate] end.
  match type of K with (if negb ?b then _ else _) = _ => destruct b eqn:Kc; cbn [negb] in K; [|discriminate] end.
  repeat (apply andb_true_iff in Kr; let X := fresh "R" in destruct Kr as [Kr X]).
  repeat (apply andb_true_iff in Ki; let X := fresh "I" in destruct Ki as [Ki X]).
  apply Z.eqb_eq in Kr, R, R0, R1, R2, R3, R4.
  destruct (chk_hwc tin Ci Fi Kr Ki) as (h & w & ch & sr & sc & Es & Et & P1 & P2 & P3).
  destruct (chk_hwcn tw Cw Fw R3 I1) as (kh & kw & kd & kn & wr & wc & wd & Es1 & Et1 & Q1 & Q2 & Q3 & Q4).
  destruct (chk_vec tb Cb Fb R2 I0) as (n & Es2 & Et2 & V1).
  destruct (chk_hwc tout Co Fo R4 I) as (h' & w' & ch' & sr' & sc' & Es' & Et' & P1' & P2' & P3').
  split; [auto|]. split; [auto|]. split; [exists h, w, ch, sr, sc; auto|]. split; [exists kh, kw, kd, kn, wr, wc, wd; auto 10|].
  split; [exists n; auto|]. split; [exists h', w', ch', sr', sc'; auto|].
  destruct Hf as (U1 & U2 & U3 & U4 & U5 & U6 & U7 & U8 & U9).
  destruct (U9 tin ltac:(auto)) as [D1 D2]. destruct (U9 tw ltac:(auto)) as [D3 D4]. destruct (U9 tout ltac:(auto)) as [D5 D6].
  unfold in_ubits in *. change (2 ^ 8) with 256 in *. change (2 ^ 22) with 4194304 in *.
  unfold dim in *. unfold chk_trans_cfg in Kc. rewrite Es, Es1, Es' in *. cbn [nth] in *. cbv zeta in Kc.
  repeat (apply andb_true_iff in Kc; let X := fresh "C" in destruct Kc as [Kc X]).
  apply Z.eqb_eq in Kc, C9, C, C0. apply Z.ltb_lt in C8, C7, C6, C5. apply Z.gtb_lt in C4, C3. apply Z.leb_le in C2, C1.
  assert (UW : forall v x, 0 < v <= 4194304 -> - 2 ^ 31 <= x < 2 ^ 31 -> v = uwrap 32 x -> v = x).
  { intros v x Hv Hx E. unfold uwrap in E. destruct (Z.ltb_spec x 0).
    - assert (x mod 2 ^ 32 = x + 2 ^ 32) by (symmetry; apply Z.mod_unique_pos with (-1); lia). lia.
    - rewrite Z.mod_small in E by lia. exact E. }
  assert (W1 : 0 <= (h - 1) * cv_sh c <= 4194304 * 255).
  { split; [apply Z.mul_nonneg_nonneg; lia|]. apply Z.mul_le_mono_nonneg; lia. }
  assert (W2 : 0 <= (w - 1) * cv_sw c <= 4194304 * 255).
  { split; [apply Z.mul_nonneg_nonneg; lia|]. apply Z.mul_le_mono_nonneg; lia. }
  apply UW in C; [|clear - P1' D5; lia|clear - W1 D3 Q1 U5 U6; lia]. apply UW in C0; [|clear - P2' D6; lia|clear - W2 D4 Q2 U3 U4; lia].
  split; unfold trans_axis; clear - P1 P2 P1' P2' C C0 C1 C2 C3 C4 C5 C6 C7 C8 U3 U4 U5 U6; lia.
Qed.
