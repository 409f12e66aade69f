(** Model of the hand-over of a kernel from the compile time object to ExecutionInterface::Create (lib/src/private/src/mli_runtime.cc). *)
From Coq Require Import ZArith List Bool.
From Verif Require Import Base.
Import ListNotations.
Open Scope Z_scope.

(** The kernels: the compile time classes of include/api/mli_ref_compiler_api.hpp and Nop_CS (include/mli_compiler_api.hpp:90-106) with the runtime classes of
    include/api/mli_ref_runtime_api.hpp. TableBuiltin and ArgMax are left out: their compile time classes have no implementation. *)
Inductive kcls := KC_Nop | KC_Conv2d | KC_Prelu | KC_Move | KC_DWConv2d | KC_MaxPool2D | KC_FullyConnected | KC_SumPool2D | KC_Add | KC_Sub | KC_Mul | KC_Max | KC_Min |
    KC_Rescale | KC_Clip | KC_ReduceMax | KC_TransConv2D | KC_Permute | KC_ReduceSum | KC_MatMul | KC_MoveBroadcast | KC_ResizeBilinear.

(** The structures of include/internal/mli_ref_private_types.hpp; [PD_Base] is PrivateData (include/mli_types.hpp:189-198). *)
Inductive pdt := PD_Base | PD_Clip | PD_Conv2d | PD_DWConv2d | PD_Eltwise | PD_FullyConnected | PD_MatMul | PD_Move | PD_MoveBroadcast | PD_Permute | PD_Pool2D | PD_Prelu
    | PD_ReduceMax | PD_ReduceSum | PD_Rescale | PD_ResizeBilinear | PD_TransConv2D.

(** include/mli_types.hpp:155-181 kernel_id_t: the numbers of the enumerators of the kernels (kInvalidId = 0, kArgMaxId = 20, kTableBuiltinId = 21) *)
Definition kid (k : kcls) : Z :=
  match k with KC_Nop => 1 | KC_Conv2d => 2 | KC_Prelu => 3 | KC_Move => 4 | KC_DWConv2d => 5 | KC_MaxPool2D => 6 | KC_FullyConnected => 7 | KC_SumPool2D => 8 | KC_Add =>
    9 | KC_Sub => 10 | KC_Mul => 11 | KC_Max => 12 | KC_Min => 13 | KC_Rescale => 14 | KC_Clip => 15 | KC_ReduceMax => 16 | KC_TransConv2D => 17 | KC_Permute => 18 |
    KC_ReduceSum => 19 | KC_MatMul => 22 | KC_MoveBroadcast => 23 | KC_ResizeBilinear => 24 end.

(** The values of sizeof: of the private data structures and of the runtime classes. They depend on the platform and are arguments. *)
Record sizeofs := mkSizeofs { sz_pd : pdt -> Z; sz_rt : kcls -> Z }.

(** The structure that GetKernelPrivateData fills and whose size GetKernelPrivateDataSize returns (the _compiler.cc files, include/mli_compiler_api.hpp:93-104) *)
Definition cs_pd (k : kcls) : pdt :=
  match k with KC_Nop => PD_Base | KC_Conv2d => PD_Conv2d | KC_Prelu => PD_Prelu | KC_Move => PD_Move | KC_DWConv2d => PD_DWConv2d | KC_MaxPool2D => PD_Pool2D |
    KC_FullyConnected => PD_FullyConnected | KC_SumPool2D => PD_Pool2D | KC_Add => PD_Eltwise | KC_Sub => PD_Eltwise | KC_Mul => PD_Eltwise | KC_Max => PD_Eltwise |
    KC_Min => PD_Eltwise | KC_Rescale => PD_Rescale | KC_Clip => PD_Clip | KC_ReduceMax => PD_ReduceMax | KC_TransConv2D => PD_TransConv2D | KC_Permute => PD_Permute |
    KC_ReduceSum => PD_ReduceSum | KC_MatMul => PD_MatMul | KC_MoveBroadcast => PD_MoveBroadcast | KC_ResizeBilinear => PD_ResizeBilinear end.
Definition cs_private_size (z : sizeofs) (k : kcls) : Z := sz_pd z (cs_pd k).

(** What GetKernelPrivateData leaves in the members kernel_id and size of the base class: the constructors in include/internal/mli_ref_private_types.hpp give the number of
    the kernel (for pooling and elementwise kernels an argument in the _compiler.cc file) and the size of the structure. *)
Record priv_hdr := mkPrivate { pv_id : Z; pv_size : Z }.
Definition cs_private (z : sizeofs) (k : kcls) : priv_hdr := mkPrivate (kid k) (sz_pd z (cs_pd k)).

(** GetRuntimeObjectSize (the _compiler.cc files; Nop_CS: include/mli_compiler_api.hpp:105) *)
Definition cs_object_size (z : sizeofs) (k : kcls) : Z := match k with KC_Nop => 0 | _ => sz_rt z k end.

(** lib/src/private/src/mli_runtime.cc:62-217: the class that the switch chooses; none for kInvalidId and in the default case, which fail an assertion. *)
Definition create_case (id : Z) : option kcls :=
  if id =? 1 then Some KC_Nop else
  if id =? 2 then Some KC_Conv2d else
  if id =? 3 then Some KC_Prelu else
  if id =? 4 then Some KC_Move else
  if id =? 5 then Some KC_DWConv2d else
  if id =? 6 then Some KC_MaxPool2D else
  if id =? 7 then Some KC_FullyConnected else
  if id =? 8 then Some KC_SumPool2D else
  if id =? 9 then Some KC_Add else
  if id =? 10 then Some KC_Sub else
  if id =? 11 then Some KC_Mul else
  if id =? 12 then Some KC_Max else
  if id =? 13 then Some KC_Min else
  if id =? 14 then Some KC_Rescale else
  if id =? 15 then Some KC_Clip else
  if id =? 16 then Some KC_ReduceMax else
  if id =? 17 then Some KC_TransConv2D else
  if id =? 18 then Some KC_Permute else
  if id =? 19 then Some KC_ReduceSum else
  if id =? 22 then Some KC_MatMul else
  if id =? 23 then Some KC_MoveBroadcast else
  None.

(** The assertions of the constructors of the runtime classes on the private data (the first lines of each constructor in the _runtime.cc files; Nop has none): the structure
    whose size must be given and stored, and the number of the kernel where it is checked. Assertions on the contents of the structure are not part of this model. *)
Definition rt_pd (k : kcls) : option pdt :=
  match k with KC_Nop => None | KC_Conv2d => Some PD_Conv2d | KC_Prelu => Some PD_Prelu | KC_Move => Some PD_Move | KC_DWConv2d => Some PD_DWConv2d | KC_MaxPool2D => Some
    PD_Pool2D | KC_FullyConnected => Some PD_FullyConnected | KC_SumPool2D => Some PD_Pool2D | KC_Add => Some PD_Eltwise | KC_Sub => Some PD_Eltwise | KC_Mul => Some
    PD_Eltwise | KC_Max => Some PD_Eltwise | KC_Min => Some PD_Eltwise | KC_Rescale => Some PD_Rescale | KC_Clip => Some PD_Clip | KC_ReduceMax => Some PD_ReduceMax |
    KC_TransConv2D => Some PD_TransConv2D | KC_Permute => Some PD_Permute | KC_ReduceSum => Some PD_ReduceSum | KC_MatMul => Some PD_MatMul | KC_MoveBroadcast => Some
    PD_MoveBroadcast | KC_ResizeBilinear => None end.
Definition rt_id (k : kcls) : option Z :=
  match k with KC_Conv2d => Some 2 | KC_Move => Some 4 | KC_DWConv2d => Some 5 | KC_FullyConnected => Some 7 | KC_SumPool2D => Some 8 | KC_Add => Some 9 | KC_Sub => Some
    10 | KC_Mul => Some 11 | KC_Max => Some 12 | KC_Min => Some 13 | KC_Clip => Some 15 | KC_TransConv2D => Some 17 | KC_MatMul => Some 22 | KC_MoveBroadcast => Some 23 |
    _ => None end.
Definition rt_accepts (z : sizeofs) (k : kcls) (pv : priv_hdr) (size : Z) : bool :=
  match rt_pd k with Some p => (size =? sz_pd z p) && (pv_size pv =? sz_pd z p) | None => true end
  && match rt_id k with Some i => pv_id pv =? i | None => true end.

(** lib/src/private/src/mli_runtime.cc:42-220 ExecutionInterface::Create: [None] is a failed assertion, [Some None] the null pointer, [Some (Some k)] an object of the runtime
    class of [k]. kMliAlignment = 4 (include/mli_types.hpp:152). *)
Definition rt_create (z : sizeofs) (buf buf_size : Z) (pv : priv_hdr) (size : Z) : option (option kcls) :=
  if buf =? 0 then None
  else if negb (buf mod 4 =? 0) then None
  else if negb (sz_pd z PD_Base <=? size) then None
  else if negb (pv_size pv =? size) then None
  else match create_case (pv_id pv) with
       | None => None
       | Some k => if sz_rt z k <=? buf_size then (if rt_accepts z k pv size then Some (Some k) else None) else Some None
       end.
