(** Model of mli_krn_permute (lib/src/kernels/diverse/impl/mli_krn_permute_ref.h) and of its checker. *)
From Coq Require Import ZArith List Lia Bool.
From Verif Require Import Base Tensor.
Import ListNotations.
Open Scope Z_scope.

(** First four entries of an array of which the first ones are given (generic tensors and the local
    arrays of the kernel have MLI_MAX_RANK = 4 entries). *)
Definition pad4 (d : Z) (l : list Z) : list Z := firstn 4 (l ++ repeat d 4).

(** mli_check.cc:2641-2676 mli_chk_permute. [perm] are the first rank entries of cfg->perm_dim. *)
Fixpoint perm_unique (l : list nat) : bool :=
  match l with [] => true | x :: tl => forallb (fun y => negb (Nat.eqb x y)) tl && perm_unique tl end.
Definition chk_permute (tin tout : tensor) (perm : list nat) : status :=
  match chk_tensor tin with
  | ST_OK =>
      match chk_tensor tout with
      | ST_OK =>
          if negb (forallb (fun p => Nat.ltb p (length (t_shape tin))) perm && perm_unique perm)
          then ST_BAD_FUNC_CFG
          else if negb (forallb (fun ip => nth (fst ip) (t_shape tout) 1 =? nth (snd ip) (t_shape tin) 1)
                                (combine (seq 0 (length (t_shape tin))) perm))
          then ST_SHAPE_MISMATCH
          else ST_OK
      | e => e
      end
  | e => e
  end.

(** mli_krn_permute_ref.h:38-41: each increment minus the distance covered by the next inner loop. *)
Fixpoint perm_increments (shape strides : list Z) : list Z :=
  match shape, strides with
  | _ :: sh', s :: st' =>
      (match sh', st' with n' :: _, s' :: _ => s - s' * n' | _, _ => s end) :: perm_increments sh' st'
  | _, _ => []
  end.

(** mli_krn_permute_ref.h:44-57: the nested loops (four in the C++; here one per entry of the list).
    A dimension is (extent, output increment, input stride); state: output pointer and output memory. *)
Fixpoint perm_loop (min : mem) (dims : list (Z * Z * Z)) (ipos : Z) (st : Z * mem) : option (Z * mem) :=
  match dims with
  | [] => do v <- load min ipos; do m <- store (snd st) (fst st) v; Some (fst st, m)
  | (n, inc, is) :: tl =>
      foldM (fun d st => do st' <- perm_loop min tl (ipos + d * is) st; Some (fst st' + inc, snd st'))
            (zrange 0 n) st
  end.

(** mli_krn_permute_ref.h:26-82 mli_krn_permute_calc and the preparation in mli_krn_permute_run. *)
Definition permute_run (tin tout : tensor) (perm : list nat) (min mout : mem) : option mem :=
  let rank := length (t_shape tin) in
  let perm_dim := perm ++ seq rank (4 - rank) in
  let in_stride := pad4 0 (t_stride tin) in
  let out_shape := pad4 1 (t_shape tout) in
  let incs := perm_increments out_shape (pad4 0 (t_stride tout)) in
  let dims := combine (combine out_shape incs) (map (fun p => nth p in_stride 0) perm_dim) in
  do st <- perm_loop min dims (t_data tin) (t_data tout, mout); Some (snd st).

(** mli_krn_permute_ref.h:84-100: quantization axis of the output; -1 stays -1. *)
Fixpoint perm_find (k : nat) (perm : list nat) (dim : Z) : Z :=
  match perm with [] => -1 | p :: tl => if Z.of_nat p =? dim then Z.of_nat k else perm_find (S k) tl dim end.
Definition permute_qdim (tin : tensor) (perm : list nat) : Z :=
  if t_qdim tin <? 0 then -1 else perm_find 0 perm (t_qdim tin).
