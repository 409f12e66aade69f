From Coq Require Import ZArith List Lia Bool.
From Verif Require Import Base FxMath FxMathProofs Tensor TensorProofs MovProofs PermuteProofs ArgMax Quant QuantProofs QuantCastProofs DotProd DotProdProofs
  PoolKernels Conv ConvSpec ConvValues ConvTheorems FullyConnProofs Eltwise EltwiseProofs ReluProofs Lut LutProofs Rnn RnnSpec RnnProofs.
Import ListNotations.
Open Scope Z_scope.

(** * The GRU cell *)

(** The formats of the weights of the new gate. *)
Definition gru_wq (S : rnn_scheme) (w : wquant) : wquant := match S with RS_sa8 => gru_new_wquant w | _ => w end.

(** The two parameters give the same results. *)
Definition quant_like (rm : rmode) (full : bool) (q q' : quant) : Prop :=
  acc_bits q = acc_bits q' /\ q_zi q = q_zi q' /\ (forall a, rnn_requant rm full q a = rnn_requant rm full q' a)
  /\ (forall lo hi a, rnn_result rm q lo hi a = rnn_result rm q' lo hi a) /\ (forall b, q_bias_add rm full q b 0 = q_bias_add rm full q' b 0).

Lemma adjust_like full p p' : s8_ratio p = s8_ratio p' -> s8_in_to_out_shift p = s8_in_to_out_shift p' -> s8_w_scales p 0 = s8_w_scales p' 0 -> s8_w_shifts p 0 = s8_w_shifts p' 0 ->
  s8_out_mul (adjust_s8 full p 0) = s8_out_mul (adjust_s8 full p' 0) /\ s8_out_shift (adjust_s8 full p 0) = s8_out_shift (adjust_s8 full p' 0).
Proof.
  intros A B C D. unfold adjust_s8. assert (E : forall b : bool, (if b then 0 else 0) = 0) by now intros []. rewrite !E, A, B, C, D. destruct full; split; reflexivity.
Qed.

Lemma gru_new_like rm full S i w fb o : (S = RS_sa8 -> wq_dim w = 0) ->
  quant_like rm full (rnn_params rm S i (gru_wq S w) fb o) (rnn_gate_params (rnn_params rm S i w fb o) 2).
Proof.
  intros Hw. destruct S; [repeat split..|]. specialize (Hw eq_refl). unfold rnn_params, gru_wq, gru_new_wquant. rewrite Hw. cbn [Z.ltb Z.compare wq_dim wq_zp wq_scale wq_frac].
  unfold define_s8_params. destruct (norm_cast_fx rm 32 32 (q_scale i)) as [a b]. cbn [rnn_gate_params s8_w_dim Z.eqb].
  split; [reflexivity|]. split; [reflexivity|]. split; [|split; reflexivity].
  intros x. unfold rnn_requant.
  match goal with |- cast_narrow _ _ _ (_ * s8_out_mul (adjust_s8 _ ?p _)) _ = cast_narrow _ _ _ (_ * s8_out_mul (adjust_s8 _ ?p' _)) _ =>
    destruct (adjust_like full p p' eq_refl eq_refl eq_refl eq_refl) as [-> ->] end. reflexivity.
Qed.

Lemma gru_new_quant rm S i w fb o g : rs_quant S (rnn_gate_params (rnn_params rm S i w fb o) g) -> rs_quant S (rnn_params rm S i (gru_wq S w) fb o).
Proof.
  destruct S; [exact (fun H => H)..|]. unfold rnn_params, gru_wq, gru_new_wquant. unfold define_s8_params. destruct (norm_cast_fx rm 32 32 (q_scale i)) as [a b].
  destruct (wq_dim w <? 0); cbn [rs_quant rnn_gate_params s8_w_off s8_in_off wq_zp]; auto.
Qed.

Lemma dense_out_like rm full lo hi b q0 q0' q1 q1' n0 n1 w0 w1 x0 x1 o : quant_like rm full q0 q0' -> quant_like rm full q1 q1' ->
  dense_out rm full lo hi b [mkVin q0 n0 w0 x0; mkVin q1 n1 w1 x1] o = dense_out rm full lo hi b [mkVin q0' n0 w0 x0; mkVin q1' n1 w1 x1] o.
Proof.
  intros (A0 & Z0 & R0 & T0 & B0) (A1 & Z1 & R1 & T1 & B1). unfold dense_out, dense_sum, vin_acc. cbn [last vi_q vi_n vi_w vi_x fold_left fst snd].
  now rewrite T1, A0, A1, Z0, Z1, R0, R1, B0.
Qed.

(** One step: the equations of the cell with the operations of the kernels. *)
Definition gru_eq (rm : rmode) (full : bool) (S : rnn_scheme) (N : rnn_net) (n : Z) (hq : qpar) : list Z -> list Z -> list Z :=
  let iq := gru_ir_fmt S (rn_iq N) (rn_wiq N) in
  let sq := rnn_sigm_fmt S in
  let tq := rnn_tanh_fmt S in
  gru_cell_eq n (rnn_gate_dense rm full S N iq hq n)
    (rnn_act_fn rm S sigm_sa8_out (rn_sigm N) iq) (rnn_act_fn rm S tanh_sa8_out (rn_tanh N) iq)
    (rnn_elt rm S ELT_SUB (gru_one_fmt S) sq sq (smax (rs_bits S)))
    (rnn_elt rm S ELT_MUL sq hq hq) (rnn_elt rm S ELT_MUL hq sq hq) (rnn_elt rm S ELT_MUL tq sq (rn_oq N)) (rnn_elt rm S ELT_ADD (rn_oq N) hq (rn_oq N)).

Lemma gru_step_correct rm full S N c hq n d m pin ph po :
  rnn_facts rm full S N c (gru_ir_fmt S (rn_iq N) (rn_wiq N)) hq 3 n d -> (S = RS_sa8 -> wq_dim (rn_wiq N) = 0 /\ wq_dim (rn_woq N) = 0) ->
  rnn_lut_ok (rn_sigm N) -> rnn_lut_ok (rn_tanh N) -> rnn_fmt_ok S (gru_ir_fmt S (rn_iq N) (rn_wiq N)) ->
  mem_bits (rs_bits S) m -> row_ok m pin d -> row_ok m ph n -> row_ok m (rc_ps c) (3 * n) -> row_ok m po n ->
  apart pin d (rc_ps c) (3 * n) -> apart ph n (rc_ps c) (3 * n) -> apart po n (rc_ps c) (3 * n) -> apart pin d po n -> same_or_apart ph po n ->
  exists m', gru_step rm full S N c pin ph hq po m = Some m'
    /\ vec_at m' po n = gru_eq rm full S N n hq (vec_at m pin d) (vec_at m ph n)
    /\ (forall a, a < rc_ps c \/ rc_ps c + 3 * n <= a -> a < po \/ po + n <= a -> m' a = m a)
    /\ (forall a, allocated m a -> allocated m' a) /\ mem_bits (rs_bits S) m'.
Proof.
  intros HF Hax Ls Lt Fi MB Rin Rh Rs Ro Ai Ah Ao Aio Sho. pose proof HF as (Hn & Hd & HG & Ep & Wn & Ei & Eb & Sb0 & Sb1 & Hc & HC & Hin & Hb & Hp).
  pose proof (fun g Hg => rnn_gate_row S c (rn_bias N) 3 n g Sb0 Sb1 Hn Hg ltac:(lia) Hc HC) as HGR.
  destruct (HGR 0 ltac:(lia)) as (R0 & S0). destruct (HGR 1 ltac:(lia)) as (R1 & S1). destruct (HGR 2 ltac:(lia)) as (R2 & S2).
  clear HGR. unfold apart in *. set (ps := rc_ps c) in *.
  unfold gru_step. rewrite Ep.
  change (t_data (rnn_ir_tensor S c (rn_bias N))) with ps. replace (nth 0 (t_stride (rnn_ir_tensor S c (rn_bias N))) 0) with n by (cbn; auto).
  set (iq := gru_ir_fmt S (rn_iq N) (rn_wiq N)) in *. set (ug := rnn_gate (rnn_ir_tensor S c (rn_bias N)) 0) in *. set (rg := rnn_gate (rnn_ir_tensor S c (rn_bias N)) 1) in *.
  set (ng := rnn_gate (rnn_ir_tensor S c (rn_bias N)) 2) in *. cbv zeta. rewrite relu_none.
  change (match S with RS_sa8 => gru_new_wquant (rn_wiq N) | _ => rn_wiq N end) with (gru_wq S (rn_wiq N)).
  change (match S with RS_sa8 => gru_new_wquant (rn_woq N) | _ => rn_woq N end) with (gru_wq S (rn_woq N)).
  destruct (rnn_stacked rm full S N c iq hq 3 n d 2 m pin ph HF ltac:(lia) MB Rin Rh Rs Ai Ah) as (m1 & E1 & V1 & F1 & A1 & B1). fold ps in E1, V1, F1.
  rewrite E1. cbn [bind].
  assert (KH1 : vec_at m1 ph n = vec_at m ph n) by (apply vec_at_ext; intros; apply F1; lia).
  assert (KI1 : vec_at m1 pin d = vec_at m pin d) by (apply vec_at_ext; intros; apply F1; lia).
  assert (RG : forall g, 0 <= g < 3 -> row_ok m (ps + g * n) n) by (intros g Hg k Hk; rewrite <- Z.add_assoc; apply Rs; nia).
  destruct (rnn_act_wrote rm S sigm_sa8_out (rn_sigm N) iq ug ug (ps + 0 * n) (ps + 0 * n) n m1) as (m2 & E2 & W2); auto.
  { row_ok_tac. apply (RG 0); lia. } { row_ok_tac. apply (RG 0); lia. } { left; auto. }
  rewrite E2. cbn [bind].
  destruct (rnn_act_wrote rm S sigm_sa8_out (rn_sigm N) iq rg rg (ps + 1 * n) (ps + 1 * n) n m2) as (m3 & E3 & W3); auto; try bits_tac.
  { row_ok_tac. apply (RG 1); lia. } { row_ok_tac. apply (RG 1); lia. } { left; auto. }
  rewrite E3. cbn [bind]. rewrite (proj1 R1), (proj1 R0), (proj1 R2), S0, S1, S2, Wn. change (last [1; n] 0) with n.
  destruct (elt_1d_wrote (rs_bits S) (rnn_elt rm S ELT_MUL (rnn_sigm_fmt S) hq hq) (ps + 1 * n) ph (ps + 1 * n) n m3) as (m4 & E4 & W4); auto; try bits_tac.
  { row_ok_tac. apply (RG 1); lia. } { row_ok_tac. auto. } { row_ok_tac. apply (RG 1); lia. } { left; auto. } { right. lia. } { intros; apply rnn_elt_bits; auto. }
  rewrite E4. cbn [bind].
  destruct (elt_1d_wrote (rs_bits S) (rnn_elt rm S ELT_MUL hq (rnn_sigm_fmt S) hq) ph (ps + 0 * n) po n m4) as (m5 & E5 & W5); auto; try bits_tac.
  { row_ok_tac. auto. } { row_ok_tac. apply (RG 0); lia. } { row_ok_tac. auto. } { right. lia. } { intros; apply rnn_elt_bits; auto. }
  rewrite E5. cbn [bind].
  destruct (elt_1d_scalar_wrote (rs_bits S) (rnn_elt rm S ELT_SUB (gru_one_fmt S) (rnn_sigm_fmt S) (rnn_sigm_fmt S)) (smax (rs_bits S)) (ps + 0 * n) (ps + 0 * n) n m5) as (m6 & E6 & W6); auto; try bits_tac.
  { row_ok_tac. apply (RG 0); lia. } { row_ok_tac. apply (RG 0); lia. } { left; auto. } { intros; apply rnn_elt_bits; auto. }
  rewrite E6. cbn [bind].
  specialize (Hin 2 0 0 ltac:(lia)). specialize (Hb 2 0 0 ltac:(lia)). unfold rnn_inputs in Hin, Hb. rewrite Ei in Hin, Hb. cbn [map rnn_gate_in ri_q ri_p ri_n ri_mw ri_pw ri_ws hd] in Hin, Hb.
  pose proof (Forall_inv Hin) as I0. pose proof (Forall_inv (Forall_inv_tail Hin)) as I1. clear Hin. rewrite Ei.
  destruct I0 as (Q0 & N0 & M0 & L0). destruct I1 as (Q1 & N1 & M1 & L1). cbn [ri_q ri_p ri_n ri_mw ri_pw ri_ws] in *.
  match goal with |- context [rnn_dense_op _ _ _ _ _ _ _ _ [?a; ?b]] => set (i0 := a); set (i1 := b) end.
  destruct (dense_wrote rm full S (smin (rs_bits S)) (smax (rs_bits S)) (rn_mb N) (t_data (rn_bias N) + 2 * nth 0 (t_stride (rn_bias N)) 0) (ps + 2 * n) n i0 [i1] m6) as (m7 & E7 & W7); try bits_tac.
  { constructor; [|constructor; [|constructor]]; (split; [|split; [|split]]); cbn [i0 i1 ri_q ri_p ri_n ri_mw ri_pw ri_ws]; auto; eapply gru_new_quant; eassumption. }
  { constructor; [|constructor; [|constructor]]; cbn [i0 i1 ri_p ri_n]; row_ok_tac; [now apply Rin|]. apply (RG 1); lia. }
  { intros o Ho. destruct (Hb o Ho) as [Hb1 Hb2]. split; [exact Hb1|]. cbn [i0 ri_q ri_n] in *. rewrite rnn_gate_bias in Hb2. destruct S; exact Hb2. }
  { constructor; [|constructor]. exact Hp. }
  { destruct S; apply in_bits_unfold; cbn; lia. } { destruct S; apply in_bits_unfold; cbn; lia. }
  { row_ok_tac. apply (RG 2); lia. }
  { constructor; [|constructor; [|constructor]]; cbn [i0 i1 ri_p ri_n]; lia. }
  rewrite E7. cbn [bind].
  destruct (rnn_act_wrote rm S tanh_sa8_out (rn_tanh N) iq ng ng (ps + 2 * n) (ps + 2 * n) n m7) as (m8 & E8 & W8); auto; try bits_tac.
  { row_ok_tac. apply (RG 2); lia. } { row_ok_tac. apply (RG 2); lia. } { left; auto. }
  rewrite E8. cbn [bind].
  destruct (elt_1d_wrote (rs_bits S) (rnn_elt rm S ELT_MUL (rnn_tanh_fmt S) (rnn_sigm_fmt S) (rn_oq N)) (ps + 2 * n) (ps + 0 * n) (ps + 2 * n) n m8) as (m9 & E9 & W9); auto; try bits_tac.
  { row_ok_tac. apply (RG 2); lia. } { row_ok_tac. apply (RG 0); lia. } { row_ok_tac. apply (RG 2); lia. } { left; auto. } { right. lia. } { intros; apply rnn_elt_bits; auto. }
  rewrite E9. cbn [bind].
  destruct (elt_1d_wrote (rs_bits S) (rnn_elt rm S ELT_ADD (rn_oq N) hq (rn_oq N)) (ps + 2 * n) po po n m9) as (m10 & E10 & W10); auto; try bits_tac.
  { row_ok_tac. apply (RG 2); lia. } { row_ok_tac. auto. } { row_ok_tac. auto. } { right. lia. } { left; auto. } { intros; apply rnn_elt_bits; auto. }
  exists m10. split; [exact E10|]. split; [|split; [|split]].
  - unfold gru_eq, gru_cell_eq. fold iq.
    assert (VR : vec_at m6 (ps + 1 * n) n = pw n (rnn_elt rm S ELT_MUL (rnn_sigm_fmt S) hq hq)
      (map (rnn_act_fn rm S sigm_sa8_out (rn_sigm N) iq) (rnn_gate_dense rm full S N iq hq n 1 (vec_at m pin d) (vec_at m ph n))) (vec_at m ph n)).
    { clear W7 W8 W9 W10. look_all. rewrite KH1, (V1 1) by lia. reflexivity. }
    assert (VI : vec_at m6 pin d = vec_at m pin d) by (clear W7 W8 W9 W10; look_all; exact KI1).
    assert (VN : vec_at m7 (ps + 2 * n) n = rnn_gate_dense rm full S N iq hq n 2 (vec_at m pin d) (vec_at m6 (ps + 1 * n) n)).
    { rewrite (proj1 W7). unfold rnn_gate_dense. apply vec_ext. intros o Ho. unfold rnn_inputs. rewrite Ei, <- VI.
      cbn [map combine fst snd]. unfold vin_of, vin_gate, i0, i1. cbn [ri_q ri_p ri_n ri_mw ri_pw ri_ws fst snd].
      apply dense_out_like; apply gru_new_like; tauto. }
    rewrite (proj1 W10), (proj1 W9), (proj1 W8), VN, VR. clear VN VR VI. look_all. rewrite KH1, (V1 0) by lia. reflexivity.
  - intros a H1 H2. rewrite (proj1 (proj2 W10)), (proj1 (proj2 W9)), (proj1 (proj2 W8)), (proj1 (proj2 W7)), (proj1 (proj2 W6)), (proj1 (proj2 W5)), (proj1 (proj2 W4)), (proj1 (proj2 W3)), (proj1 (proj2 W2)) by lia. apply F1. lia.
  - intros a H. apply (proj1 (proj2 (proj2 W10))), (proj1 (proj2 (proj2 W9))), (proj1 (proj2 (proj2 W8))), (proj1 (proj2 (proj2 W7))), (proj1 (proj2 (proj2 W6))), (proj1 (proj2 (proj2 W5))), (proj1 (proj2 (proj2 W4))), (proj1 (proj2 (proj2 W3))),
      (proj1 (proj2 (proj2 W2))), A1, H.
  - apply W10.
Qed.
