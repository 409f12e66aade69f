(** Model of the adjustments of an iterator configuration and of a tensor (include/mli_iterator.hpp, include/mli_types.hpp). *)
From Coq Require Import ZArith List Bool.
From Verif Require Import Base Tensor Ops3 Iter.
Import ListNotations.
Open Scope Z_scope.

(** mli_iterator.hpp:267-275 ApplyPrePadding, one iteration dimension; [pad] is the padding of its axis. *)
Definition prepad_dim (pad : Z) (d : idim) : idim :=
  if (0 <=? it_order d) && (1 <? it_count d) then
    mkIdim (it_order d) (it_count d) (wrap 32 (it_first_inc d + pad)) (it_inc d) (wrap 32 (it_last_inc d - pad)) (it_first_size d) (it_size d) (it_last_size d)
  else d.

(** mli_math_macros.h:16-17 CEIL_DIV and CEIL_RND on uint32_t, and CEIL_DIV on int32_t, whose division truncates. The overflow of the
    signed product, undefined in C++, wraps here. *)
Definition ceil_div_u (num den : Z) : Z := uwrap 32 (uwrap 32 num + den - 1) / den.
Definition ceil_rnd_u (num den : Z) : Z := uwrap 32 (den * ceil_div_u num den).
Definition ceil_div_s (num den : Z) : Z := Z.quot (wrap 32 num + den - 1) den.

(** mli_iterator.hpp:278-287 ApplyAlignsToSizes *)
Definition align_dim (al : Z) (d : idim) : idim :=
  if (0 <=? it_order d) && (1 <? it_count d) then
    mkIdim (it_order d) (it_count d) (it_first_inc d) (it_inc d) (it_last_inc d) (ceil_rnd_u (it_first_size d) al) (ceil_rnd_u (it_size d) al) (ceil_rnd_u (it_last_size d) al)
  else d.

(** mli_iterator.hpp:298-307 IteratorCfg::ConvertGran *)
Definition gran_dim (axis old new : Z) (d : idim) : idim :=
  if it_order d =? axis then
    mkIdim (it_order d) (it_count d) (ceil_div_s (it_first_inc d * old) new) (ceil_div_s (it_inc d * old) new) (ceil_div_s (it_last_inc d * old) new)
      (ceil_div_u (it_first_size d * old) new) (ceil_div_u (it_size d * old) new) (ceil_div_u (it_last_size d * old) new)
  else d.

(** mli_types.hpp:815-830 Tensor::ConvertGran: the shape and, with [inner] the stride of the axis next to the converted one, the stride of another axis. *)
Definition gran_shape (old new s : Z) : Z := ceil_div_u (s * old) new.
Definition gran_stride (old new inner stride : Z) : Z := wrap 32 (Z.quot stride inner * ceil_div_u (inner * old) new).

(** mli_iterator.hpp:403-415 OverrideIncrements. [D] is the tensor's dimension with the number of the iteration dimension, not of its axis. *)
Definition override_incs (v D : Z) (d : idim) : idim :=
  if v =? -1 then d
  else
    let last := if 1 <? it_count d then wrap 32 (wrap 32 (v * (2 - it_count d)) - v) else 0 in
    mkIdim (it_order d) (it_count d) v v last (uwrap 32 v) (uwrap 32 v) (uwrap 32 (D + last)).
Definition override_cfg (vs : list Z) (shape : list Z) (cfg : list idim) : list idim :=
  map (fun x => override_incs (fst x) (fst (snd x)) (snd (snd x))) (combine vs (combine shape cfg)).

(** mli_iterator.hpp:314-336 set_config from a configuration of [n] dimensions less *)
Definition extend_cfg (n : nat) (cfg : list idim) : list idim := cfg ++ repeat (mkIdim (-1) 1 0 0 0 0 0 0) n.
