(** Model of the multiply-accumulate bricks: lib/src/bricks/impl/mli_krn_dotprod_ref.h,
    mli_krn_reduce_sum2d_ref.h and the zero-point corrections of mli_prv_quant_ref.h. Pointers are
    element indices of the buffer they point into; stepping a pointer is unchecked, dereferencing it
    outside of its buffer is [None]. *)
From Coq Require Import ZArith List Lia Bool.
From Verif Require Import Base FxMath.
Import ListNotations.
Open Scope Z_scope.

(** mli_math.h:426-449 mli_math_mac_fx: the sum is computed in the accumulator type of [n] bits;
    signed overflow is undefined behaviour ([None]). *)
Definition mac_chk (n acc l r : Z) : option Z :=
  let v := acc + l * r in
  if (smin n <=? v) && (v <=? smax n) then Some v else None.

(** One step of the pointer-walking loops: accu += *in * *krn; in += in_step; krn += krn_step. *)
Definition dot_step (n : Z) (mi mw : mem) (in_step krn_step : Z) (s : Z * Z * Z) : option (Z * Z * Z) :=
  let '(acc, p, q) := s in
  do x <- load mi p;
  do w <- load mw q;
  do acc <- mac_chk n acc x w;
  Some (acc, p + in_step, q + krn_step).

(** mli_krn_dotprod_ref.h:24-38 dotprod1D *)
Definition dotprod1D (n : Z) (mi mw : mem) (p q acc vals in_step krn_step : Z) : option Z :=
  do s <- foldM (fun _ s => dot_step n mi mw in_step krn_step s) (zrange 0 vals) (acc, p, q);
  Some (fst (fst s)).

(** The two inner loops of dotprod2D and dotprod3D; the row steps are those after the subtraction of
    width * col_step. *)
Definition dot_plane (n : Z) (mi mw : mem) (width height icol irow kcol krow : Z) (s : Z * Z * Z)
  : option (Z * Z * Z) :=
  foldM (fun _ s =>
    do s <- foldM (fun _ s => dot_step n mi mw icol kcol s) (zrange 0 width) s;
    let '(acc, p, q) := s in Some (acc, p + irow, q + krow)) (zrange 0 height) s.

(** mli_krn_dotprod_ref.h:40-61 and :63-93 dotprod2D *)
Definition dotprod2D (n : Z) (mi mw : mem) (p q acc width height icol irow kcol krow : Z) : option Z :=
  let irow := irow - width * icol in
  let krow := krow - width * kcol in
  do s <- dot_plane n mi mw width height icol irow kcol krow (acc, p, q);
  Some (fst (fst s)).

(** mli_krn_dotprod_ref.h:95-134 and :136-174 dotprod3D *)
Definition dotprod3D (n : Z) (mi mw : mem) (p q width height channels icol irow ich kcol krow kch acc : Z)
  : option Z :=
  let ich := ich - height * irow in
  let kch := kch - height * krow in
  let irow := irow - width * icol in
  let krow := krow - width * kcol in
  do s <- foldM (fun _ s =>
    do s <- dot_plane n mi mw width height icol irow kcol krow s;
    let '(acc, p, q) := s in Some (acc, p + ich, q + kch)) (zrange 0 channels) (acc, p, q);
  Some (fst (fst s)).

(** mli_krn_reduce_sum2d_ref.h:23-54 reduce_sum2D and reduce_sum2D_v *)
Definition reduce_sum2D (n : Z) (m : mem) (p mul acc width height col_stride row_stride : Z) : option Z :=
  foldM (fun row acc =>
    foldM (fun clmn acc =>
      do x <- load m (p + (row_stride * row + col_stride * clmn));
      mac_chk n acc mul x) (zrange 0 width) acc) (zrange 0 height) acc.

(** mli_krn_reduce_sum2d_ref.h:56-70 reduce_sum, for an array *)
Definition reduce_sum (n : Z) (m : mem) (p mul acc vals step : Z) : option Z :=
  do s <- foldM (fun _ s =>
    let '(acc, p) := s in
    do x <- load m p;
    do acc <- mac_chk n acc mul x;
    Some (acc, p + step)) (zrange 0 vals) (acc, p);
  Some (fst s).

(** mli_prv_quant_ref.h:223-248 (2D) weights_additive and :311-321 in_additive for SA8: minus [off]
    times the sum of the elements; the negated offset is passed as int16. *)
Definition additive2D (n : Z) (m : mem) (p acc off width height col_step row_step : Z) : option Z :=
  if off =? 0 then Some acc
  else reduce_sum2D n m p (wrap 16 (- off)) acc width height col_step row_step.

(** mli_prv_quant_ref.h:258-296 (3D) weights_additive and :346-360 in_additive for SA8 *)
Definition additive3D (n : Z) (m : mem) (p acc off width height ch col_step row_step ch_step : Z) : option Z :=
  if off =? 0 then Some acc
  else
    do s <- foldM (fun _ s =>
      let '(acc, p) := s in
      do acc <- reduce_sum2D n m p (wrap 16 (- off)) acc width height col_step row_step;
      Some (acc, p + ch_step)) (zrange 0 ch) (acc, p);
    Some (fst s).

(** mli_prv_quant_ref.h:373-397 zp_additive for SA8: [len] times the product of the zero points, by
    repeated addition (reduce_sum with step 0 over the address of weights_offset). *)
Definition zp_additive (n acc w_off in_off len : Z) : option Z :=
  if (w_off =? 0) && (in_off =? 0) then Some acc
  else reduce_sum n (fun a => if a =? 0 then Some w_off else None) 0 in_off acc len 0.
