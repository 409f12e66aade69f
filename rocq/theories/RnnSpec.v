(** Specification of the recurrent kernels, independent of their model: vectors are lists, a cell is a function of an input vector
    and state vectors. *)
From Coq Require Import ZArith List Lia Bool.
From Verif Require Import Base FxMath FxMathProofs Tensor QSpec Quant QuantProofs QuantCastProofs DotProdProofs.
Import ListNotations.
Open Scope Z_scope.

(** * Vectors *)

(** Element [k] of a vector. *)
Definition el (l : list Z) (k : Z) : Z := nth (Z.to_nat k) l 0.
(** The vector f(0), ..., f(n-1). *)
Definition vec (n : Z) (f : Z -> Z) : list Z := map f (zrange 0 n).
(** Element by element operation on two vectors of [n] elements. *)
Definition pw (n : Z) (f : Z -> Z -> Z) (a b : list Z) : list Z := vec n (fun k => f (el a k) (el b k)).
(** The [n] elements of a memory from [p] on. *)
Definition vec_at (m : mem) (p n : Z) : list Z := vec n (fun k => rd m (p + k)).
(** The rows of a matrix of [len] rows of [n] elements without gaps, stored from [p] on. *)
Definition rows_at (m : mem) (p len n : Z) : list (list Z) := map (fun t => vec_at m (p + t * n) n) (zrange 0 len).

(** Row vector [x] (of [n] elements, zero point [z]) times column [o] of the matrix [w]. *)
Definition vdot (n z : Z) (x : list Z) (w : Z -> Z -> Z) (o : Z) : Z := zsum 0 n (fun k => (el x k - z) * w k o).

(** * Cells *)

(** The equations of the LSTM cell (Hochreiter and Schmidhuber, with forget gate): [dense g x h] is the affine map of gate [g]
    (0 input, 1 new information, 2 forget, 3 output), [c], [h] are cell state and hidden state. *)
Definition lstm_cell_eq (n : Z) (dense : Z -> list Z -> list Z -> list Z) (sigm tanh act : Z -> Z) (mul_cf mul_gi add_cg mul_ho : Z -> Z -> Z)
    (x : list Z) (s : list Z * list Z) : list Z * list Z :=
  let '(c, h) := s in
  let i := map sigm (dense 0 x h) in
  let g := map tanh (dense 1 x h) in
  let f := map sigm (dense 2 x h) in
  let o := map sigm (dense 3 x h) in
  let c' := pw n add_cg (pw n mul_cf c f) (pw n mul_gi g i) in
  (c', pw n mul_ho (map act c') o).

(** The equations of the GRU cell (Cho et al., reset applied before the multiplication): gates 0 update, 1 reset, 2 new. *)
Definition gru_cell_eq (n : Z) (dense : Z -> list Z -> list Z -> list Z) (sigm tanh compl : Z -> Z) (mul_rh mul_hu mul_nu add_nh : Z -> Z -> Z)
    (x h : list Z) : list Z :=
  let u := map sigm (dense 0 x h) in
  let r := map sigm (dense 1 x h) in
  let n' := map tanh (dense 2 x (pw n mul_rh r h)) in
  pw n add_nh (pw n mul_nu n' (map compl u)) (pw n mul_hu h u).

(** A recurrence: the states after each input. [step b] is used with [b = true] for the first input only (the hidden state then has
    the format of the initial state, afterwards that of the output). *)
Fixpoint recur {X St} (step : bool -> X -> St -> St) (first : bool) (xs : list X) (s : St) : list St :=
  match xs with
  | [] => []
  | x :: xs => let s' := step first x s in s' :: recur step false xs s'
  end.

(** The state after all inputs. *)
Definition final {St} (states : list St) (s : St) : St := last states s.
