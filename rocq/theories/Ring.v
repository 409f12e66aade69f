(** Model of tile buffers that hold a few tiles (include/mli_iterator.hpp): ShrinkBuffer, ShrinkCfg and the variant of Next that returns
    position increments. *)
From Coq Require Import ZArith List Bool.
From Verif Require Import Base Tensor Ops3 Iter.
Import ListNotations.
Open Scope Z_scope.

(** mli_iterator.hpp:238-246 ShrinkCfg *)
Definition shrink_zero (d : idim) : idim := mkIdim (it_order d) (it_count d) 0 0 0 (it_first_size d) (it_size d) (it_last_size d).
Definition shrink_head (d : idim) : idim :=
  mkIdim (it_order d) (it_count d) (it_first_inc d) (it_inc d) (wrap 32 (it_last_size d)) (it_first_size d) (it_size d) (it_last_size d).
Definition shrink_cfg (cyclic : bool) (cfg : list idim) : list idim :=
  match cfg with d :: cfg' => (if cyclic then shrink_head d else shrink_zero d) :: map shrink_zero cfg' | [] => [] end.

(** mli_iterator.hpp:831-837: the largest tile size of an iteration dimension *)
Definition dim_max (d : idim) : Z :=
  if 1 <? it_count d then
    let m := Z.max (it_last_size d) (it_first_size d) in
    if 2 <? it_count d then Z.max m (it_size d) else m
  else it_last_size d.

(** mli_iterator.hpp:839-852: the size of the cyclic dimension for [N] tiles. The arithmetic is that of uint32_t; the loops that add the increment are products. *)
Definition ring_len (d : idim) (N align : Z) : Z :=
  let m := dim_max d in
  let dimsz := if 1 <? N then
      if it_count d =? 1 then uwrap 32 (m * N)
      else if it_count d =? 2 then uwrap 32 (it_last_size d + it_first_size d + (N - 2) * it_inc d)
      else uwrap 32 (m + Z.max (it_first_size d) (uwrap 32 (it_inc d)) + (N - 2) * it_inc d)
    else m in
  let overlap := uwrap 32 (it_size d - uwrap 32 (it_inc d)) in
  Z.max dimsz (uwrap 32 (uwrap 32 (align * N) + overlap)).

(** mli_iterator.hpp:829-857: the dimensions of the buffer after ShrinkBuffer. Line 856, which makes room for [N] tiles, is inside of the loop. *)
Definition shrink_step (N : Z) (cyclic : bool) (aligns : list Z) (dims : list Z) (id : nat * idim) : list Z :=
  let '(i, d) := id in
  if it_order d <? 0 then dims
  else
    let o := Z.to_nat (it_order d) in
    let align := nth o aligns 0 in
    let dims := set_at o (if cyclic && Nat.eqb i 0 then ring_len d N align else uwrap 32 (ceil_rnd (dim_max d) align)) dims in
    if cyclic then dims else set_at 0 (uwrap 32 (nth 0 dims 0 * N)) dims.
Definition shrink_dims (N : Z) (cyclic : bool) (aligns : list Z) (cfg : list idim) (shape : list Z) : list Z :=
  fold_left (shrink_step N cyclic aligns) (combine (seq 0 (length cfg)) cfg) shape.

(** mli_iterator.hpp:858-861: the reported size *)
Definition shrink_size (N : Z) (cyclic : bool) (aligns : list Z) (cfg : list idim) (shape : list Z) : Z :=
  fold_right (fun x p => uwrap 32 (x * p)) 1 (shrink_dims N cyclic aligns cfg shape).

(** mli_iterator.hpp:966-990 Next(pos_inc): the tile indices, the increments of the position (into which [inc], zeros at first, is turned), and the end. *)
Fixpoint iter_next_pos (cfg : list idim) (st : list Z) (inc : list Z) : list Z * list Z * bool :=
  match cfg, st with
  | d :: cfg', idx :: st' =>
      if it_order d <? 0 then
        let '(st'', inc', done) := iter_next_pos cfg' st' inc in
        (idx :: st'', inc', match cfg' with [] => false | _ => done end)
      else
        let o := Z.to_nat (it_order d) in
        if idx =? it_count d - 1 then
          let '(st'', inc', done) := iter_next_pos cfg' st' (set_at o (it_last_inc d) inc) in
          (0 :: st'', inc', match cfg' with [] => true | _ => done end)
        else if idx =? 0 then (idx + 1 :: st', set_at o (it_first_inc d) inc, false)
        else (idx + 1 :: st', set_at o (it_inc d) inc, false)
  | _, _ => (st, inc, false)
  end.

(** [n] calls of Next(pos_inc) from Reset by a user who adds up the increments for a tensor of rank [r]. *)
Fixpoint pos_run (cfg : list idim) (r : nat) (n : nat) : list Z * list Z :=
  match n with
  | O => (map (fun _ => 0) cfg, repeat 0 r)
  | S k => let '(st, pos) := pos_run cfg r k in
           let '(st', inc, _) := iter_next_pos cfg st (repeat 0 r) in
           (st', map (fun p => fst p + snd p) (combine pos inc))
  end.
