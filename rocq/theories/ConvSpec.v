(** Mathematical specification of the convolutions, independent of the model of the kernels. *)
From Coq Require Import ZArith List Lia Bool QArith Qabs.
From Verif Require Import Base FxMath FxMathProofs Tensor QSpec Quant QuantProofs QuantCastProofs DotProdProofs PoolProofs Conv.
Import ListNotations.
Open Scope Z_scope.

(** Elements of an HWC tensor (rank 3), an HWCN tensor (rank 4) and a vector. *)
Definition at3 (m : mem) (t : tensor) (r cl ch : Z) : Z := rd m (t_data t + addr (t_stride t) [r; cl; ch]).
Definition at4 (m : mem) (t : tensor) (kr kc ic oc : Z) : Z := rd m (t_data t + addr (t_stride t) [kr; kc; ic; oc]).
Definition at1 (m : mem) (t : tensor) (k : Z) : Z := rd m (t_data t + addr (t_stride t) [k]).

(** The position is inside an image of [nh] rows and [nw] columns. *)
Definition inside (nh nw r cl : Z) : bool := (0 <=? r) && (r <? nh) && (0 <=? cl) && (cl <? nw).

(** Sum over all [kh] * [kw] kernel taps (kr, kc). Tap (kr, kc) meets the image at row [r0 + kr * dh],
    column [c0 + kc * dw]; it contributes [F] inside of the image and [G] outside. *)
Definition taps (nh nw kh kw r0 c0 dh dw : Z) (F G : Z -> Z -> Z) : Z :=
  zsum 0 kh (fun kr => zsum 0 kw (fun kc =>
    if inside nh nw (r0 + kr * dh) (c0 + kc * dw) then F kr kc else G kr kc)).

(** The taps of output position (H, W) of a convolution of [tin] by the HWCN kernel [tw]. *)
Definition conv_taps (tin tw : tensor) (c : conv_cfg) (H W : Z) (F G : Z -> Z -> Z) : Z :=
  taps (dim tin 0) (dim tin 1) (dim tw 0) (dim tw 1) (H * cv_sh c - cv_top c) (W * cv_sw c - cv_left c) (cv_dh c) (cv_dw c) F G.

(** Input row and column of a tap. *)
Definition tap_r (c : conv_cfg) (H kr : Z) : Z := H * cv_sh c - cv_top c + kr * cv_dh c.
Definition tap_c (c : conv_cfg) (W kc : Z) : Z := W * cv_sw c - cv_left c + kc * cv_dw c.

(** The convolution sum at output (H, W, oc): padding contributes nothing; [zi], [zw] are zero points. *)
Definition conv_sum (mi mw : mem) (tin tw : tensor) (c : conv_cfg) (zi zw : Z) (H W oc : Z) : Z :=
  conv_taps tin tw c H W
    (fun kr kc => zsum 0 (dim tin 2) (fun ic =>
       (at3 mi tin (tap_r c H kr) (tap_c c W kc) ic - zi) * (at4 mw tw kr kc ic oc - zw)))
    (fun _ _ => 0).

(** The depthwise sum: one input channel per output channel. *)
Definition depthwise_sum (mi mw : mem) (tin tw : tensor) (c : conv_cfg) (zi zw : Z) (H W ch : Z) : Z :=
  conv_taps tin tw c H W
    (fun kr kc => (at3 mi tin (tap_r c H kr) (tap_c c W kc) ch - zi) * (at4 mw tw kr kc 0 ch - zw))
    (fun _ _ => 0).

(** The group sum: output channel [oc] belongs to group [oc / (filters per group)], which uses the
    input channels group * n .. group * n + n - 1 where n is the depth of the kernel. *)
Definition group_of (tin tw : tensor) (oc : Z) : Z := oc / (dim tw 3 / (dim tin 2 / dim tw 2)).
Definition group_sum (mi mw : mem) (tin tw : tensor) (c : conv_cfg) (zi zw : Z) (H W oc : Z) : Z :=
  conv_taps tin tw c H W
    (fun kr kc => zsum 0 (dim tw 2) (fun ic =>
       (at3 mi tin (tap_r c H kr) (tap_c c W kc) (group_of tin tw oc * dim tw 2 + ic) - zi) * (at4 mw tw kr kc ic oc - zw)))
    (fun _ _ => 0).

(** * Output formats *)

(** [v] is the value of the [n]-bit format [real] inside the range of the activation [t] that is closest to [x]. *)
Definition activated (n : Z) (t : relu_type) (real : Z -> Q) (x v : Z) : Prop :=
  in_bits n v /\ relu_range t (real v)
  /\ forall u, in_bits n u -> relu_range t (real u) -> Z.abs (v - x) <= Z.abs (u - x).

(** FX output: [S] is the exact accumulator with [fa] fractional bits; it is rounded to [fo] fractional bits,
    saturated to [n] bits and passed through the activation. *)
Definition fx_output (rm : rmode) (n : Z) (t : relu_type) (fa fo S v : Z) : Prop :=
  exists r, nearest rm S (fa - fo) r /\ activated n t (fxval fo) (sat n r) v.

(** SA8 output: [S] is the exact accumulator in units of [F] output steps; the output is within [e] of the
    requantized value, clipped to 8 bits, and passed through the activation. *)
Definition sa8_output (e : Q) (t : relu_type) (o : qpar) (F : Q) (S v : Z) : Prop :=
  exists r, in_bits 8 r /\ within e (inject_Z r) (qclamp (- (128)) 127 (inject_Z S * F + inject_Z (q_zp o)))
    /\ activated 8 t (saval (q_scale o) (q_frac o) (q_zp o)) r v.

(** * Sizes for which the accumulators cannot overflow *)

(** FX with [na]-bit input and [nb]-bit weights and bias (16: 64-bit accumulator, 8: 32-bit), [N]
    multiplications per output: the largest magnitude of products plus bias stays inside the accumulator,
    and inside half of it if the output shift drops more bits than the accumulator is wider than the
    output; the formats are accepted by the checker. *)
Definition fx_acc_bits (nb : Z) : Z := if nb =? 16 then 64 else 32.
Definition fx_acc_ok (na nb no N fin fw fb fout : Z) : Prop :=
  let M := N * 2 ^ (na + nb - 2) + 2 ^ (nb - 1 + (fin + fw - fb)) in
  (nb = 8 \/ nb = 16) /\ fb <= fin + fw /\ fout <= fin + fw /\ (nb = 16 -> fin + fw - fb <= 16)
  /\ M <= smax (fx_acc_bits nb)
  /\ (fin + fw - fout <= fx_acc_bits nb - no \/ M <= 2 ^ (fx_acc_bits nb - 2) - 1).

(** SA8: [N] products of (input - zero point) and weight, plus the bias. *)
Definition sa8_acc_ok (N b : Z) : Prop := N * (2 * 2 ^ 14) + Z.abs b <= smax 32.
