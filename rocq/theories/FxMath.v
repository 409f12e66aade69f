(** Model of the reference fixed-point arithmetic, lib/src/pal/ref/mli_math.h.
    The template parameter T (int8_t, int16_t, int32_t, int64_t) is represented by its width [n] in
    bits; mli_acc32_t is int32_t and mli_acc40_t is int64_t in the reference build.
    C++ [>>] on signed values is the arithmetic shift (Z.shiftr), [<<] is Z.shiftl (only reached when
    the result is representable), [&] is Z.land. *)
From Coq Require Import ZArith List Lia Bool.
From Verif Require Import Base.
Open Scope Z_scope.

(** Build-time option ROUND_MODE (mli_math.h:89, 99). *)
Inductive rmode := RM_UP | RM_CONV.

(** mli_math.h:23-26 mli_math_limit_fx *)
Definition limit_fx (n s : Z) : Z := if s <? 0 then smin n else smax n.

(** mli_math.h:28-37 mli_math_asr_pos_nbits_fx *)
Definition asr_pos_fx (n x k : Z) : Z :=
  if k >? n - 1 then (if x <? 0 then -1 else 0) else Z.shiftr x k.

(** mli_math.h:51-68 mli_math_asl_fx *)
Definition asl_fx (n x k : Z) : Z :=
  if k <? 0 then asr_pos_fx n x (- k)
  else if k >? n - 1 then (if negb (x =? 0) then limit_fx n x else 0)
  else
    let hi := Z.shiftr x (n - 1 - k) in
    if (hi =? 0) || (hi =? -1) then Z.shiftl x k else limit_fx n hi.

(** mli_math.h:39-49 mli_math_asr_fx *)
Definition asr_fx (n x k : Z) : Z :=
  if k >? n - 1 then (if x <? 0 then -1 else 0)
  else if k <? 0 then asl_fx n x (- k)
  else Z.shiftr x k.

(** mli_math.h:159-166 mli_math_add_fx *)
Definition add_fx (n l r : Z) : Z :=
  if (r >? 0) && (l >? smax n - r) then smax n
  else if (r <? 0) && (l <? smin n - r) then smin n
  else l + r.

(** mli_math.h:170-177 mli_math_sub_fx *)
Definition sub_fx (n l r : Z) : Z :=
  if (r <? 0) && (l >? smax n + r) then smax n
  else if (r >? 0) && (l <? smin n + r) then smin n
  else l - r.

(** mli_math.h:70-109 mli_math_asr_rnd_fx. [(T)((one << nbits) >> 1)] is 2^(nbits-1) for
    1 <= nbits <= n-1 in every instance used. *)
Definition asr_rnd_fx (rm : rmode) (n x k : Z) : Z :=
  if k <? 0 then asl_fx n x (- k)
  else if k =? 0 then x
  else if k >? n - 1 then 0
  else
    let half := Z.shiftr (Z.shiftl 1 k) 1 in
    match rm with
    | RM_UP => asr_fx n (add_fx n x half) k
    | RM_CONV =>
        let r := asr_fx n x k in
        if negb (Z.land x half =? 0)
           && (negb (Z.land r 1 =? 0) || negb (Z.land x (half - 1) =? 0))
        then add_fx n r 1 else r
    end.

(** mli_math.h:111-115 mli_math_asl_rnd_fx *)
Definition asl_rnd_fx (rm : rmode) (n x k : Z) : Z := asr_rnd_fx rm n x (- k).

(** mli_math.h:117-120 mli_math_neg_fx *)
Definition neg_fx (n x : Z) : Z := if x =? smin n then smax n else - x.

(** mli_math.h:122-126 mli_math_sat_fx; [drop] is its parameter nbits: the number of high bits
    given up. *)
Definition sat_fx (n x drop : Z) : Z := asr_fx n (asl_fx n x drop) drop.

(** mli_math.h:128-132 mli_math_abs_fx *)
Definition abs_fx (n x : Z) : Z := if x >=? 0 then x else neg_fx n x.

(** mli_math.h:144-145, the loop of mli_math_norm_fx; [fuel] bounds the iterations. *)
Fixpoint norm_loop (fuel : nat) (x hi r : Z) : Z :=
  match fuel with
  | O => r
  | S f => if Z.shiftr x r =? hi then r else norm_loop f x hi (r + 1)
  end.

(** mli_math.h:134-147 mli_math_norm_fx (the loop runs at most n times, see [norm_loop_fuel]). *)
Definition norm_fx (n x : Z) : Z :=
  let hi := if x <? 0 then -1 else 0 in
  if x =? 0 then n - 1 else (n - 1) - norm_loop (Z.to_nat n) x hi 0.

(** mli_math.h:181-189 mli_math_max_fx, 193-196 mli_math_min_fx *)
Definition max_fx (l r : Z) : Z := if l >? r then l else r.
Definition min_fx (l r : Z) : Z := if l <? r then l else r.

(** mli_math.h:415-421 mli_math_bound_range_fx *)
Definition bound_range_fx (x l r : Z) : Z := min_fx (max_fx x l) r.

(** mli_math.h:205-210 mli_math_mul_fx_high *)
Definition mul_fx_high (l r : Z) : Z := wrap 32 (Z.shiftr (l * r + 2 ^ 30) 31).

(** mli_math.h:313-316, 333-337, 346-350, 367-377, 384-388: mli_math_cast_fx<in_T,out_T>(x, shift)
    with a narrower result: 16->8, 32->8, 32->16, 64->8, 64->16, 64->32. *)
Definition cast_narrow (rm : rmode) (ni no x k : Z) : Z :=
  wrap no (sat_fx ni (asr_rnd_fx rm ni x k) (ni - no)).

(** mli_math.h:318-331, 357-360: mli_math_cast_fx with a result that is not narrower (8->8, 8->16,
    16->16, 32->32); the shift is done at the width [no] of the result. *)
Definition cast_same (rm : rmode) (no x k : Z) : Z := wrap no (asr_rnd_fx rm no x k).

(** mli_math.h:352-355, 379-382: mli_math_cast_fx<in_T,int16_t>(x) without shift. *)
Definition cast_noshift_16 (ni x : Z) : Z := wrap 16 (sat_fx ni x (ni - 16)).

(** mli_math.h:362-365: mli_math_cast_fx<int16_t, mli_acc40_t>; note the conversion to int32_t. *)
Definition cast_16_acc40 (rm : rmode) (x k : Z) : Z := wrap 32 (asr_rnd_fx rm 64 x k).

(** mli_math.h:293-298 mli_math_acc_cast_fx<int8_t, mli_acc32_t> *)
Definition acc_cast_8 (rm : rmode) (acc k : Z) : Z :=
  wrap 8 (Z.shiftr (asl_fx 32 (asr_rnd_fx rm 32 acc k) 24) 24).

(** mli_math.h:300-305 mli_math_acc_cast_fx<int16_t, mli_acc32_t> *)
Definition acc_cast_16 (rm : rmode) (acc k : Z) : Z :=
  wrap 16 (sat_fx 32 (asr_fx 32 (asl_fx 32 (asr_rnd_fx rm 32 acc k) 16) 16) 16).

(** mli_math.h:149-155 mli_math_norm_cast_fx: returns the cast value and *norm_shift. The inner
    cast goes to [no] bits; for no = ni it is [cast_same]. *)
Definition norm_cast_fx (rm : rmode) (ni no x : Z) : Z * Z :=
  let sh := (ni - no) - norm_fx ni x in
  (if no <? ni then cast_narrow rm ni no x sh else cast_same rm no x sh, sh).

(** mli_math.h:426-449 mli_math_mac_fx: the accumulator is n bits wide; C++ signed overflow is
    undefined, the model wraps. *)
Definition mac_fx (n acc l r : Z) : Z := wrap n (acc + l * r).
