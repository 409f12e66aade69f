(** ExecutionInterface::Create makes the runtime object that belongs to the compile time object (C84). *)
From Coq Require Import ZArith List Lia Bool.
From Verif Require Import Base Create.
Import ListNotations.
Open Scope Z_scope.

(** * Specification *)

(** Every structure of private data contains PrivateData, and every object takes at least one byte. *)
Definition sizes_ok (z : sizeofs) : Prop := (forall p, 0 < sz_pd z PD_Base <= sz_pd z p) /\ (forall k, 0 < sz_rt z k).

(** The buffer for the object: not null, and at a multiple of four bytes. *)
Definition buffer_ok (buf : Z) : Prop := buf <> 0 /\ buf mod 4 = 0.

(** * Proofs *)

Lemma create_case_kid k : k <> KC_ResizeBilinear -> create_case (kid k) = Some k.
Proof. destruct k; intros H; try reflexivity. congruence. Qed.

Lemma create_case_inv id k : create_case id = Some k -> id = kid k /\ k <> KC_ResizeBilinear.
Proof.
  unfold create_case.
  repeat match goal with |- (if id =? ?n then _ else _) = _ -> _ => destruct (Z.eqb_spec id n) as [->|_]; [intros E; injection E as <-; split; [reflexivity|discriminate]|] end.
  discriminate.
Qed.

Lemma rt_accepts_own z k : rt_accepts z k (cs_private z k) (cs_private_size z k) = true.
Proof. destruct k; unfold rt_accepts, cs_private, cs_private_size; cbn [rt_pd rt_id cs_pd kid pv_id pv_size]; rewrite ?Z.eqb_refl; reflexivity. Qed.

Lemma rt_create_unfold z buf n k : sizes_ok z -> buffer_ok buf -> k <> KC_ResizeBilinear ->
  rt_create z buf n (cs_private z k) (cs_private_size z k) = Some (if sz_rt z k <=? n then Some k else None).
Proof.
  intros [Hp _] [Hb Ha] Hk. unfold rt_create. rewrite (proj2 (Z.eqb_neq _ _) Hb), (proj2 (Z.eqb_eq _ _) Ha). cbn [negb].
  specialize (Hp (cs_pd k)). assert (E : sz_pd z PD_Base <=? cs_private_size z k = true) by (apply Z.leb_le; unfold cs_private_size; lia). rewrite E. cbn [negb].
  change (pv_size (cs_private z k)) with (cs_private_size z k). rewrite Z.eqb_refl. cbn [negb]. change (pv_id (cs_private z k)) with (kid k).
  rewrite create_case_kid by exact Hk. rewrite rt_accepts_own. destruct (sz_rt z k <=? n); reflexivity.
Qed.

(** C84: given what the compile time object reports, in private data and in the sizes of private data and object, Create makes the runtime object of the same kernel. *)
Theorem create_own z buf n k : sizes_ok z -> buffer_ok buf -> k <> KC_Nop -> k <> KC_ResizeBilinear -> cs_object_size z k <= n ->
  rt_create z buf n (cs_private z k) (cs_private_size z k) = Some (Some k).
Proof.
  intros Hz Hb Hn Hr Hs. rewrite rt_create_unfold by assumption. assert (E : sz_rt z k <=? n = true) by (apply Z.leb_le; destruct k; try exact Hs; congruence). now rewrite E.
Qed.

(** C84: with a smaller buffer the result is the null pointer. *)
Theorem create_small z buf n k : sizes_ok z -> buffer_ok buf -> k <> KC_ResizeBilinear -> n < cs_object_size z k ->
  rt_create z buf n (cs_private z k) (cs_private_size z k) = Some None.
Proof.
  intros Hz Hb Hr Hs. rewrite rt_create_unfold by assumption.
  assert (E : sz_rt z k <=? n = false) by (apply Z.leb_gt; destruct k; try exact Hs; cbn [cs_object_size] in Hs; pose proof (proj2 Hz KC_Nop); lia). now rewrite E.
Qed.

(** C84: whatever private data is given, an object that is made fits in its buffer, at an aligned address, and is of the kernel that the data names; other than for Nop, the
    data has the size of that kernel's structure. *)
Theorem create_only z buf n pv size k : rt_create z buf n pv size = Some (Some k) ->
  buffer_ok buf /\ sz_rt z k <= n /\ pv_id pv = kid k /\ pv_size pv = size /\ (k = KC_Nop \/ size = cs_private_size z k).
Proof.
  unfold rt_create. destruct (Z.eqb_spec buf 0) as [|Hb]; [discriminate|]. destruct (Z.eqb_spec (buf mod 4) 0) as [Ha|]; [|discriminate]. cbn [negb].
  destruct (sz_pd z PD_Base <=? size); [|discriminate]. cbn [negb]. destruct (Z.eqb_spec (pv_size pv) size) as [Hs|]; [|discriminate]. cbn [negb].
  destruct (create_case (pv_id pv)) as [k'|] eqn:C; [|discriminate]. destruct (Z.leb_spec (sz_rt z k') n) as [Hn|]; [|discriminate].
  destruct (rt_accepts z k' pv size) eqn:A; [|discriminate]. intros E. injection E as <-. destruct (create_case_inv _ _ C) as [Hk Hr].
  split; [split; assumption|]. split; [exact Hn|]. split; [exact Hk|]. split; [exact Hs|].
  unfold rt_accepts in A. apply andb_prop in A. destruct A as [A _]. unfold cs_private_size.
  destruct k'; [left; reflexivity|..]; try congruence; right; cbn [rt_pd cs_pd] in A |- *; apply andb_prop in A; apply Z.eqb_eq; apply A.
Qed.

(** C84: no two kernels have the same private data. *)
Theorem create_distinct z k k' : cs_private z k = cs_private z k' -> k = k'.
Proof. intros E. apply (f_equal pv_id) in E. destruct k, k'; try reflexivity; discriminate E. Qed.

(** C84, refuted for Nop: the object size that its compile time object reports, 0, is never enough. *)
Theorem create_nop_refuted z buf : sizes_ok z -> buffer_ok buf ->
  rt_create z buf (cs_object_size z KC_Nop) (cs_private z KC_Nop) (cs_private_size z KC_Nop) = Some None.
Proof. intros Hz Hb. rewrite rt_create_unfold by (try assumption; discriminate). pose proof (proj2 Hz KC_Nop). cbn [cs_object_size]. destruct (Z.leb_spec (sz_rt z KC_Nop) 0); [lia|reflexivity]. Qed.

(** C84, refuted for ResizeBilinear: there is no case for it, so that Create fails an assertion for its private data, in a buffer of any size. *)
Theorem create_resize_refuted z buf n : rt_create z buf n (cs_private z KC_ResizeBilinear) (cs_private_size z KC_ResizeBilinear) = None.
Proof.
  unfold rt_create. cbn [cs_private pv_id pv_size]. destruct (buf =? 0); [reflexivity|]. destruct (negb (buf mod 4 =? 0)); [reflexivity|].
  destruct (negb (sz_pd z PD_Base <=? cs_private_size z KC_ResizeBilinear)); [reflexivity|]. destruct (negb _); reflexivity.
Qed.

(** * Non-vacuity *)

(** Sizes of a platform, and the objects made for the private data of MaxPool2D and Prelu. *)
Definition crx_sizes : sizeofs := mkSizeofs (fun p => match p with PD_Base => 12 | PD_Pool2D => 600 | _ => 800 end) (fun k => match k with KC_Nop => 8 | KC_MaxPool2D => 900 | _ => 1000 end).

Example create_ex : sizes_ok crx_sizes /\ buffer_ok 4096
  /\ rt_create crx_sizes 4096 900 (cs_private crx_sizes KC_MaxPool2D) 600 = Some (Some KC_MaxPool2D)
  /\ rt_create crx_sizes 4096 899 (cs_private crx_sizes KC_MaxPool2D) 600 = Some None
  /\ rt_create crx_sizes 4096 1000 (cs_private crx_sizes KC_Prelu) 800 = Some (Some KC_Prelu)
  /\ rt_create crx_sizes 4096 1000 (mkPrivate 21 800) 800 = None /\ rt_create crx_sizes 4098 1000 (cs_private crx_sizes KC_Prelu) 800 = None.
Proof.
  split; [split; [intros []; cbn; lia|intros []; cbn; lia]|]. split; [split; [discriminate|reflexivity]|]. repeat split.
Qed.
