(** Model of the DMA channel pool, the handles and the callbacks of the data movement API
    (lib/src/move/mli_mov_api.cc, lib/src/move/mli_mov_decl.h) for a build without USE_DMA. *)
From Coq Require Import ZArith List Lia Bool.
From Verif Require Import Base.
Import ListNotations.
Open Scope Z_scope.

(** mli_mov_decl.h:18 MAX_DMA_CHAN *)
Definition max_dma_chan : Z := 16.

(** mli_mov_decl.h:20-24 *)
Inductive ch_status := CH_NOT_USED | CH_AVAILABLE | CH_IN_USE.
Definition is_available (s : ch_status) : bool := match s with CH_AVAILABLE => true | _ => false end.

(** mli_mov_decl.h:26-30 mli_mov_dma_pool_t *)
Record dma_pool := mkPool { dp_base : Z; dp_size : Z; dp_status : Z -> ch_status }.
(** mli_mov_decl.h:31 MLI_MOV_DMA_POOL_INIT: the statuses are zero-initialized. *)
Definition dma_pool_init : dma_pool := mkPool 0 max_dma_chan (fun _ => CH_NOT_USED).

(** Access to the 16-entry array; outside of it the behaviour is undefined. *)
Definition ch_get (p : dma_pool) (i : Z) : option ch_status :=
  if (0 <=? i) && (i <? max_dma_chan) then Some (dp_status p i) else None.
Definition ch_set (p : dma_pool) (i : Z) (s : ch_status) : option dma_pool :=
  if (0 <=? i) && (i <? max_dma_chan)
  then Some (mkPool (dp_base p) (dp_size p) (fun j => if j =? i then s else dp_status p j)) else None.

(** include/api/mli_mov_api.h:27-34 mli_mov_state *)
Inductive mov_state := MS_INVALID | MS_OPEN | MS_PREPARED | MS_DMA_CONFIGURED | MS_DMA_RUNNING | MS_DONE.
(** include/api/mli_mov_api.h mli_mov_handle_t *)
Record mov_handle := mkHandle { h_ch : Z; h_num : Z; h_state : mov_state }.
Definition handle_zero : mov_handle := mkHandle 0 0 MS_INVALID.

(** mli_mov_api.cc:367-375 mli_mov_set_num_dma_ch *)
Definition set_num_dma_ch (ch_offset num_ch : Z) (p : dma_pool) : option dma_pool :=
  foldM (fun i p => ch_set p (i + ch_offset) CH_AVAILABLE) (zrange 0 num_ch)
        (mkPool ch_offset num_ch (dp_status p)).

(** mli_mov_api.cc:387-390: all [num_ch] statuses are read ([&=] does not short-circuit). *)
Definition acq_found (p : dma_pool) (i num_ch : Z) : option bool :=
  foldM (fun c found => do s <- ch_get p (i + c); Some (found && is_available s)) (zrange 0 num_ch) true.

(** mli_mov_api.cc:386-402: scan of the start channels *)
Fixpoint acq_scan (p : dma_pool) (num_ch : Z) (l : list Z) : option (option mov_handle * dma_pool) :=
  match l with
  | [] => Some (None, p)
  | i :: l' =>
      do found <- acq_found p i num_ch;
      if (found : bool) then
        do p' <- foldM (fun c p => ch_set p (i + c) CH_IN_USE) (zrange 0 num_ch) p;
        Some (Some (mkHandle i num_ch MS_OPEN), p')
      else acq_scan p num_ch l'
  end.

(** mli_mov_api.cc:382-404 mli_mov_acquire_handle. [None] as the handle is the status
    MLI_STATUS_NOT_ENGH_MEM (the handle is not changed then). *)
Definition acquire_handle (num_ch : Z) (p : dma_pool) : option (option mov_handle * dma_pool) :=
  acq_scan p num_ch (zrange (dp_base p) (dp_base p + dp_size p)).

(** mli_mov_api.cc:411-421 mli_mov_release_handle *)
Definition release_handle (h : mov_handle) (p : dma_pool) : option (mov_handle * dma_pool) :=
  do p' <- foldM (fun c p => ch_set p (h_ch h + c) CH_AVAILABLE) (zrange 0 (h_num h)) p;
  Some (handle_zero, p').

(** callbacktable[MAX_DMA_CHAN] (mli_mov_api.cc:32): callback and cookie, None for a null callback. *)
Definition cb_table := Z -> option (Z * Z).

(** mli_mov_api.cc:284-293 mli_mov_registercallback *)
Definition register_callback (h : mov_handle) (cb cookie : Z) (t : cb_table) : option cb_table :=
  if (0 <=? h_ch h) && (h_ch h <? max_dma_chan)
  then Some (fun i => if i =? h_ch h then Some (cb, cookie) else t i) else None.

(** mli_mov_api.cc:303-321 mli_mov_start without USE_DMA: new handle and the calls made. *)
Definition mov_start (h : mov_handle) (t : cb_table) : option (mov_handle * list (Z * Z)) :=
  if (0 <=? h_ch h) && (h_ch h <? max_dma_chan)
  then Some (mkHandle (h_ch h) (h_num h) MS_DONE, match t (h_ch h) with Some c => [c] | None => [] end)
  else None.

(** mli_mov_api.cc:329-341 mli_mov_isdone *)
Definition mov_isdone (h : mov_handle) : bool := match h_state h with MS_DONE => true | _ => false end.

(** mli_mov_api.cc:348-355 mli_mov_wait: without DMA nothing changes the state, so the loop ends iff isdone. *)
Definition mov_wait (h : mov_handle) : option mov_handle := if mov_isdone h then Some h else None.

(** * Histories of calls *)

(** The state of the module and of the user's handles (numbered); [w_log] lists the callback calls, most
    recent first, with the handle on which mli_mov_start was called. *)
Record dma_world := mkWorld { w_pool : dma_pool; w_cb : cb_table; w_handle : nat -> mov_handle; w_log : list (nat * (Z * Z)) }.
Definition dma_world_init : dma_world := mkWorld dma_pool_init (fun _ => None) (fun _ => handle_zero) [].
Definition set_handle (f : nat -> mov_handle) (id : nat) (h : mov_handle) : nat -> mov_handle :=
  fun j => if Nat.eqb j id then h else f j.

Inductive dma_op :=
| OpAcquire (id : nat) (num_ch : Z)
| OpRelease (id : nat)
| OpRegister (id : nat) (cb cookie : Z)
| OpPrepare (id : nat)
| OpStart (id : nat).

(** mli_mov_prepare changes only the state of the handle (mli_mov_api.cc:226); the data is in Mov.v. *)
Definition dma_step (o : dma_op) (w : dma_world) : option dma_world :=
  match o with
  | OpAcquire id n =>
      do r <- acquire_handle n (w_pool w);
      Some (mkWorld (snd r) (w_cb w) (match fst r with Some h => set_handle (w_handle w) id h | None => w_handle w end) (w_log w))
  | OpRelease id =>
      do r <- release_handle (w_handle w id) (w_pool w);
      Some (mkWorld (snd r) (w_cb w) (set_handle (w_handle w) id (fst r)) (w_log w))
  | OpRegister id cb ck =>
      do t <- register_callback (w_handle w id) cb ck (w_cb w);
      Some (mkWorld (w_pool w) t (w_handle w) (w_log w))
  | OpPrepare id =>
      let h := w_handle w id in
      Some (mkWorld (w_pool w) (w_cb w) (set_handle (w_handle w) id (mkHandle (h_ch h) (h_num h) MS_PREPARED)) (w_log w))
  | OpStart id =>
      do r <- mov_start (w_handle w id) (w_cb w);
      Some (mkWorld (w_pool w) (w_cb w) (set_handle (w_handle w) id (fst r)) (map (fun c => (id, c)) (snd r) ++ w_log w))
  end.
Definition dma_run (l : list dma_op) (w : dma_world) : option dma_world := foldM dma_step l w.

(** mli_mov_api.cc:53-80 mli_mov_tensor_sync without USE_DMA: no channels are acquired. The result says
    whether the status is OK. The data part (mli_mov_prepare) is assumed to succeed. *)
Definition sync_control (w : dma_world) (id : nat) : option (bool * dma_world) :=
  do w1 <- dma_step (OpAcquire id 0) w;
  match h_state (w_handle w1 id) with
  | MS_OPEN =>
      do w2 <- dma_step (OpPrepare id) w1;
      do w3 <- dma_step (OpStart id) w2;
      do _h <- mov_wait (w_handle w3 id);
      do w4 <- dma_step (OpRelease id) w3;
      Some (true, w4)
  | _ => do w2 <- dma_step (OpRelease id) w1; Some (false, w2)
  end.
