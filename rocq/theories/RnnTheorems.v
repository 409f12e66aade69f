(** Theorems about the recurrent cells: what the checkers guarantee, the LSTM cell and the GRU cell as recurrences over the
    sequence, and splitting a sequence. *)
From Coq Require Import ZArith List Lia Bool.
From Verif Require Import Base FxMath FxMathProofs Tensor TensorProofs ArgMax QSpec Quant QuantProofs QuantCastProofs DotProd DotProdProofs PermuteProofs MovProofs
  PoolKernels FullyConnProofs Conv ConvValues Eltwise EltwiseProofs Lut LutProofs Rnn RnnSpec RnnProofs RnnGru RnnDense.
Import ListNotations.
Open Scope Z_scope.

(** * What the checkers guarantee *)

(** Sizes of a call: elements of an input, elements of the state, length of the sequence, rows of the output. *)
Definition rnn_d (N : rnn_net) : Z := nth 1 (t_shape (rn_in N)) 0.
Definition rnn_n (N : rnn_net) : Z := nth 0 (t_shape (rn_prev N)) 0.
Definition rnn_len (N : rnn_net) : Z := nth 0 (t_shape (rn_in N)) 0.
Definition rnn_outlen (N : rnn_net) (c : rnn_cfg) : Z := if rc_all c then rnn_len N else 1.
Definition rnn_gates (lstm : bool) : Z := if lstm then 4 else 3.

Definition rnn_tensors (lstm : bool) (N : rnn_net) : list tensor :=
  [rn_in N; rn_prev N; rn_out N] ++ (if lstm then [rn_cell N] else []).

(** A call: the checkers accept it, the sizes do not overflow the 32-bit arithmetic of the library, buffers are as large as
    declared, elements have the width of their type. *)
Definition rnn_call (lstm : bool) (S : rnn_scheme) (N : rnn_net) (c : rnn_cfg) (m : mem) : Prop :=
  chk_rnn_cell lstm S N c = ST_OK /\ (S = RS_sa8 -> chk_rnn_quant lstm N = true)
  /\ Forall fits32 (rnn_tensors lstm N ++ [rn_win N; rn_wout N; rn_bias N])
  /\ Forall (fun t => backed t m) (rnn_tensors lstm N) /\ backed (rn_win N) (rn_mwi N) /\ backed (rn_wout N) (rn_mwo N) /\ backed (rn_bias N) (rn_mb N)
  /\ (forall k, 0 <= k -> (k + 1) * rs_esz S <= rc_cap c -> allocated m (rc_ps c + k)) /\ rc_cap c <= 2 ^ 31 - 1
  /\ t_esz (rn_out N) = rs_esz S /\ rnn_outlen N c * rnn_n N * rs_esz S < 2 ^ 32
  /\ mem_bits (rs_bits S) m /\ mem_bits (rs_wbits S) (rn_mwi N) /\ mem_bits (rs_wbits S) (rn_mwo N)
  /\ rnn_lut_ok (rn_sigm N) /\ rnn_lut_ok (rn_tanh N).

(** No accumulator can overflow: the shifted bias and [d] products, and [n] products. *)
Definition rnn_acc_ok (rm : rmode) (full : bool) (lstm : bool) (S : rnn_scheme) (N : rnn_net) (iq : qpar) : Prop :=
  (forall g o, 0 <= g < rnn_gates lstm -> 0 <= o < rnn_n N ->
     Z.abs (q_bias_add rm full (rnn_params rm S (rn_iq N) (rn_wiq N) (rn_bfrac N) iq) (rd (rn_mb N) (t_data (rn_bias N) + addr (t_stride (rn_bias N)) [g; o])) 0)
       + rnn_d N * rs_prod S <= smax (rs_acc S))
  /\ rnn_n N * rs_prod S <= smax (rs_acc S).

Lemma shape1 t : t_rank t = 1 -> fits32 t -> exists n s, t_shape t = [n] /\ t_stride t = [s].
Proof.
  unfold t_rank. intros H (L & _). destruct (t_shape t) as [|n [|]]; cbn [length] in *; try lia. destruct (t_stride t) as [|s [|]]; cbn [length] in *; try lia. eauto.
Qed.
Lemma shape2 t : t_rank t = 2 -> fits32 t -> exists a b s u, t_shape t = [a; b] /\ t_stride t = [s; u].
Proof.
  unfold t_rank. intros H (L & _). destruct (t_shape t) as [|a [|b [|]]]; cbn [length] in *; try lia. destruct (t_stride t) as [|s [|u [|]]]; cbn [length] in *; try lia.
  exists a, b, s, u. auto.
Qed.
Lemma shape3 t : t_rank t = 3 -> fits32 t -> exists a b n s u v, t_shape t = [a; b; n] /\ t_stride t = [s; u; v].
Proof.
  unfold t_rank. intros H (L & _). destruct (t_shape t) as [|a [|b [|n [|]]]]; cbn [length] in *; try lia. destruct (t_stride t) as [|s [|u [|v [|]]]]; cbn [length] in *; try lia.
  exists a, b, n, s, u, v. auto.
Qed.
Lemma inner_one t sh st s : t_shape t = sh -> t_stride t = st ++ [s] -> sh <> [] -> inner_stride_is_one t = true -> s = 1.
Proof.
  intros H1 H2 H3 H. apply inner_one_last in H; [|unfold t_rank; rewrite H1; destruct sh; [tauto|cbn [length]; lia]]. rewrite H2 in H. now rewrite last_last in H.
Qed.

Lemma count1 n : 0 <= n < 2 ^ 32 -> count_elem_num_part [n] = n.
Proof. intros H. unfold count_elem_num_part, uwrap. cbn [fold_left]. rewrite Z.mul_1_l. now apply Z.mod_small. Qed.

Record rnn_shapes (lstm : bool) (S : rnn_scheme) (N : rnn_net) (c : rnn_cfg) : Prop := {
  rh_n : 0 < rnn_n N; rh_d : 0 < rnn_d N; rh_len : 0 < rnn_len N; rh_n31 : rnn_gates lstm * rnn_n N <= 2 ^ 31 - 1; rh_d31 : rnn_d N <= 2 ^ 31 - 1;
  rh_in : t_shape (rn_in N) = [rnn_len N; rnn_d N]; rh_in' : t_stride (rn_in N) = [rnn_d N; 1];
  rh_prev : t_shape (rn_prev N) = [rnn_n N]; rh_prev' : t_stride (rn_prev N) = [1];
  rh_win : t_shape (rn_win N) = [rnn_gates lstm; rnn_d N; rnn_n N]; rh_win' : t_stride (rn_win N) = [nth 0 (t_stride (rn_win N)) 0; nth 1 (t_stride (rn_win N)) 0; 1];
  rh_wout : t_shape (rn_wout N) = [rnn_gates lstm; rnn_n N; rnn_n N]; rh_wout' : t_stride (rn_wout N) = [nth 0 (t_stride (rn_wout N)) 0; nth 1 (t_stride (rn_wout N)) 0; 1];
  rh_bias : t_shape (rn_bias N) = [rnn_gates lstm; rnn_n N]; rh_bias' : t_stride (rn_bias N) = [nth 0 (t_stride (rn_bias N)) 0; 1];
  rh_cell : lstm = true -> t_shape (rn_cell N) = [rnn_n N] /\ t_stride (rn_cell N) = [1] /\ chk_tensor (rn_cell N) = ST_OK;
  rh_cap : rnn_outlen N c * rnn_n N * rs_esz S <= t_cap (rn_out N); rh_cap31 : t_cap (rn_out N) <= 2 ^ 31 - 1;
  rh_scr : rnn_gates lstm * rnn_n N * rs_esz S <= rc_cap c;
  rh_chk : Forall (fun t => chk_tensor t = ST_OK) [rn_in N; rn_prev N; rn_win N; rn_wout N; rn_bias N; rn_out N]
}.

Lemma rnn_call_shapes lstm S N c m : rnn_call lstm S N c m -> rnn_shapes lstm S N c.
Proof.
  intros (H & _ & F & _ & _ & _ & _ & _ & HC & Ez & Ho & _).
  unfold rnn_tensors in F. cbn [app] in F.
  pose proof (Forall_inv F) as Fi. apply Forall_inv_tail in F. pose proof (Forall_inv F) as Fp. apply Forall_inv_tail in F. pose proof (Forall_inv F) as Fo. apply Forall_inv_tail in F.
  apply Forall_app in F. destruct F as [Fc F].
  pose proof (Forall_inv F) as Fwi. apply Forall_inv_tail in F. pose proof (Forall_inv F) as Fwo. apply Forall_inv_tail in F. pose proof (Forall_inv F) as Fb. clear F.
  unfold chk_rnn_cell in H. cbv zeta in H.
  destruct (chk_tensor (rn_in N)) eqn:Ci; try discriminate. destruct (chk_tensor (rn_prev N)) eqn:Cp; try discriminate.
  destruct (negb _) eqn:K1 in H; [discriminate|]. destruct (negb _) eqn:K2 in H; [discriminate|].
  destruct (chk_tensor (rn_win N)) eqn:Cwi; try discriminate. destruct (chk_tensor (rn_wout N)) eqn:Cwo; try discriminate.
  destruct (negb _) eqn:K3 in H; [discriminate|]. destruct (negb _) eqn:K4 in H; [discriminate|].
  destruct (chk_tensor (rn_bias N)) eqn:Cb; try discriminate. destruct (negb _) eqn:K5 in H; [discriminate|].
  destruct (if lstm then chk_tensor (rn_cell N) else ST_OK) eqn:Cc; try discriminate.
  destruct (lstm && _)%bool eqn:K6 in H; [discriminate|]. destruct (chk_tensor (rn_out N)) eqn:Co; try discriminate.
  destruct (negb _) eqn:K7 in H; [discriminate|]. destruct (negb _) eqn:K8 in H; [discriminate|]. destruct (negb _) eqn:K9 in H; [discriminate|]. clear H.
  apply negb_false_iff in K1, K2, K3, K4, K5, K7, K8, K9.
  repeat (apply andb_true_iff in K1; let X := fresh "A" in destruct K1 as [K1 X]).
  repeat (apply andb_true_iff in K2; let X := fresh "A" in destruct K2 as [K2 X]).
  repeat (apply andb_true_iff in K3; let X := fresh "A" in destruct K3 as [K3 X]).
  repeat (apply andb_true_iff in K4; let X := fresh "A" in destruct K4 as [K4 X]).
  repeat (apply andb_true_iff in K5; let X := fresh "A" in destruct K5 as [K5 X]).
  apply andb_true_iff in K9. destruct K9 as [K9 K10]. apply andb_true_iff in K9. destruct K9 as [K9 K11].
  repeat match goal with X : (_ =? _) = true |- _ => apply Z.eqb_eq in X | X : (_ <=? _) = true |- _ => apply Z.leb_le in X end.
  destruct (shape2 (rn_in N)) as (len & d & s & u & Si & Ti); auto. destruct (shape1 (rn_prev N)) as (n & sp & Sp & Tp); auto.
  destruct (shape3 (rn_win N)) as (g1 & d1 & n1 & s1 & u1 & v1 & Swi & Twi); auto. destruct (shape3 (rn_wout N)) as (g2 & d2 & n2 & s2 & u2 & v2 & Swo & Two); auto.
  destruct (shape2 (rn_bias N)) as (g3 & n3 & s3 & u3 & Sb & Tb); auto.
  unfold rnn_n, rnn_d, rnn_len, rnn_outlen in *. fold (rnn_gates lstm) in *. unfold rnn_len in *.
  rewrite Si, Sp, Swi, Swo, Sb in *. cbn [nth tl] in *.
  apply (inner_one _ _ [] _ Sp Tp) in A0; [|discriminate]. apply (inner_one _ _ [s1; u1] _ Swi Twi) in K4; [|discriminate]. apply (inner_one _ _ [s2; u2] _ Swo Two) in A8; [|discriminate].
  apply (inner_one _ _ [s3] _ Sb Tb) in K11; [|discriminate]. subst sp v1 v2 u3.
  destruct (chk_tensor_nested _ Fi Ci) as (Ni & _). destruct (chk_tensor_nested _ Fp Cp) as (Np & _). destruct (chk_tensor_nested _ Fb Cb) as (Nb & _).
  pose proof Fi as (_ & Ei & _ & Pi). pose proof Fp as (_ & Ep & _ & Pp). pose proof Fb as (_ & Eb & _ & Pb).
  rewrite <- Si in K2. pose proof (contiguous_spec _ Fi K2) as Ct. rewrite Si, Ti in Ni, Pi. rewrite Ti, Si in Ct. pose proof (f_equal (fun l => nth 0 l 0) Ct) as C0. pose proof (f_equal (fun l => nth 1 l 0) Ct) as C1.
  cbn [contiguous_strides nth] in C0, C1. rewrite Z.mul_1_l in C0. subst s u.
  rewrite Sp, Tp in Np, Pp. rewrite Sb, Tb in Nb, Pb. cbn [nested] in Ni, Np, Nb. cbn [span] in Pi, Pp, Pb.
  destruct Ni as (L1 & _ & _ & L2 & _). destruct Np as (L3 & _). destruct Nb as (L4 & L5 & L6 & L7 & _).
  assert (P1 : d <= 2 ^ 31 - 1) by (clear - Pi Ei L1 L2; assert (0 <= (len - 1) * d) by nia; nia). assert (P2 : n <= 2 ^ 31 - 1) by (clear - Pp Ep L3; nia).
  rewrite !count1 in * by lia. rewrite A4, A3 in *. subst n1 d1 n3 g1 g2 d2 n2 g3.
  assert (P3 : rnn_gates lstm * n <= 2 ^ 31 - 1) by (clear - Pb Eb L4 L5 L6 L7; assert (rnn_gates lstm * n <= (rnn_gates lstm - 1) * s3 + ((n - 1) * 1 + 1)) by nia; nia).
  assert (Q1 : uwrap 32 (uwrap 32 (rnn_gates lstm * n) * rs_esz S) = rnn_gates lstm * n * rs_esz S).
  { unfold uwrap. rewrite (Z.mod_small (rnn_gates lstm * n)) by (clear - P3 L4 L3; nia). apply Z.mod_small. clear - P3 L4 L3. destruct S; cbn [rs_esz]; nia. }
  assert (Q2 : uwrap 32 (uwrap 32 ((if rc_all c then len else 1) * n) * rs_esz S) = (if rc_all c then len else 1) * n * rs_esz S).
  { clear - Ho L1 L3. assert (0 < (if rc_all c then len else 1)) by (destruct (rc_all c); lia). set (o := if rc_all c then len else 1) in *. unfold uwrap.
    rewrite (Z.mod_small (o * n)) by (destruct S; cbn [rs_esz] in *; nia). apply Z.mod_small. destruct S; cbn [rs_esz] in *; nia. }
  rewrite Q1 in K8. rewrite Q2 in K7. destruct (chk_tensor_nested _ Fo Co) as (_ & _ & O31).
  constructor; unfold rnn_n, rnn_d, rnn_len, rnn_outlen, rnn_len; rewrite ?Si, ?Sp, ?Sb, ?Swi, ?Swo, ?Ti, ?Tp, ?Tb, ?Twi, ?Two; cbn [nth]; auto; try lia; try (f_equal; lia).
  - intros ->. cbn [negb orb andb app] in *. apply negb_false_iff in K6. apply andb_true_iff in K6. destruct K6 as [K6 K6']. apply Z.eqb_eq in K6, K6'.
    destruct (shape1 (rn_cell N)) as (n' & sc & Sc & Tc); auto. { exact (Forall_inv Fc). }
    apply (inner_one _ _ [] _ Sc Tc) in K9; [|discriminate]. rewrite Sc in K6'. cbn [nth] in K6'. subst. auto.
  - repeat constructor; auto.
Qed.

Lemma rnn_params_quant rm S i w fb o : (S = RS_sa8 -> wq_zp w 0 = 0 /\ in_bits 8 (q_zp i)) -> rs_quant S (rnn_params rm S i w fb o).
Proof.
  destruct S; intros H; cbn [rnn_params rs_quant]; [exact I|reflexivity|]. unfold define_s8_params. destruct (norm_cast_fx rm 32 32 (q_scale i)). exact (H eq_refl).
Qed.

Lemma chk_act_quant_zp i : chk_act_quant i = true -> in_bits 8 (q_zp i) /\ 0 < q_scale i.
Proof. unfold chk_act_quant. intros H. rewrite ib8. lia. Qed.

Lemma chk_wquant_zp lstm w : chk_rnn_wquant (rnn_gates lstm) w = true -> forall k, 0 <= k < (if wq_dim w <? 0 then 1 else rnn_gates lstm) -> 0 < wq_scale w k /\ wq_zp w k = 0.
Proof.
  unfold chk_rnn_wquant. intros H k Hk. rewrite forallb_forall in H. assert (I : In k (zrange 0 (if wq_dim w <? 0 then 1 else rnn_gates lstm))) by now apply in_zrange.
  apply H in I. lia.
Qed.

(** What the SA8 checker guarantees. *)
Lemma rnn_quant_facts lstm N : chk_rnn_quant lstm N = true ->
  chk_act_quant (rn_iq N) = true /\ chk_act_quant (rn_oq N) = true /\ chk_act_quant (rn_pq N) = true /\ (lstm = true -> chk_act_quant (rn_cq N) = true)
  /\ wq_zp (rn_wiq N) 0 = 0 /\ wq_zp (rn_woq N) 0 = 0
  /\ (wq_dim (rn_wiq N) < 0 /\ wq_dim (rn_woq N) < 0 \/ wq_dim (rn_wiq N) = 0 /\ wq_dim (rn_woq N) = 0).
Proof.
  unfold chk_rnn_quant. fold (rnn_gates lstm). intros H. apply andb_true_iff in H. destruct H as [H H4]. apply andb_true_iff in H. destruct H as [H H3]. apply andb_true_iff in H. destruct H as [H H2].
  rewrite forallb_forall in H. pose proof (chk_wquant_zp _ _ H3 0) as W1. pose proof (chk_wquant_zp _ _ H4 0) as W2.
  split; [apply H; cbn; auto|]. split; [apply H; cbn; auto|]. split; [apply H; cbn; auto|]. split; [intros ->; apply H; cbn; auto|].
  split; [apply W1; destruct (wq_dim (rn_wiq N) <? 0), lstm; cbn; lia|]. split; [apply W2; destruct (wq_dim (rn_woq N) <? 0), lstm; cbn; lia|].
  destruct (Z.ltb_spec (wq_dim (rn_wiq N)) 0); lia.
Qed.

Lemma rnn_facts_ok rm full lstm S N c m iq hq : rnn_call lstm S N c m -> rnn_acc_ok rm full lstm S N iq -> hq = rn_pq N \/ hq = rn_oq N ->
  rnn_facts rm full S N c iq hq (rnn_gates lstm) (rnn_n N) (rnn_d N).
Proof.
  intros HC (Hb & Hn) Hhq. pose proof (rnn_call_shapes _ _ _ _ _ HC) as [].
  destruct HC as (_ & Q & F & _ & Bwi & Bwo & Bb & _ & Cap & _ & _ & _ & Mwi & Mwo & _).
  apply Forall_app in F. destruct F as [_ F]. pose proof (Forall_inv F) as Fwi. apply Forall_inv_tail in F. pose proof (Forall_inv F) as Fwo. apply Forall_inv_tail in F. pose proof (Forall_inv F) as Fb. clear F.
  do 2 apply Forall_inv_tail in rh_chk0. pose proof (Forall_inv rh_chk0) as Cwi. apply Forall_inv_tail in rh_chk0. pose proof (Forall_inv rh_chk0) as Cwo. apply Forall_inv_tail in rh_chk0. pose proof (Forall_inv rh_chk0) as Cb. clear rh_chk0.
  assert (G4 : 0 < rnn_gates lstm <= 4) by (destruct lstm; cbn; lia). assert (N31 : rnn_n N <= 2 ^ 31 - 1) by (destruct lstm; cbn [rnn_gates] in *; lia).
  assert (Q' : S = RS_sa8 -> (wq_zp (rn_wiq N) 0 = 0 /\ in_bits 8 (q_zp (rn_iq N))) /\ wq_zp (rn_woq N) 0 = 0 /\ in_bits 8 (q_zp hq)).
  { intros E. destruct (rnn_quant_facts _ _ (Q E)) as (Q1 & Q2 & Q3 & _ & Q4 & Q5 & _). apply chk_act_quant_zp in Q1, Q2, Q3. destruct Hhq; subst hq; tauto. }
  assert (W32 : forall x, 0 < x <= 2 ^ 31 - 1 -> wrap 32 x = x) by (intros; apply wrap_id; [lia|apply ib32; lia]).
  unfold rnn_facts. rewrite rh_in0, rh_prev0, rh_bias0. cbn [tl]. rewrite !count1 by lia. rewrite !W32 by lia.
  repeat (split; [solve [auto | lia]|]). split; [|split; [|exact Hn]].
  - intros g pin ph Hg. unfold rnn_inputs. rewrite rh_in0. cbn [tl]. rewrite count1, W32 by lia. cbn [map rnn_gate_in ri_q ri_p ri_n ri_mw ri_pw ri_ws].
    constructor; [|constructor; [|constructor]]; (split; [apply rnn_gate_params_ok, rnn_params_quant; tauto|]); cbn [ri_q ri_p ri_n ri_mw ri_pw ri_ws]; (split; [lia|]); (split; [assumption|]); intros o k Ho Hk.
    + pose proof (chk_backed _ _ Fwi Cwi Bwi [g; k; o]) as A. rewrite rh_win0, rh_win'0 in A. cbn [valid addr] in A.
      match goal with |- allocated _ ?x => match type of A with _ -> allocated _ ?y => replace x with y by lia end end. apply A. lia.
    + pose proof (chk_backed _ _ Fwo Cwo Bwo [g; k; o]) as A. rewrite rh_wout0, rh_wout'0 in A. cbn [valid addr] in A.
      match goal with |- allocated _ ?x => match type of A with _ -> allocated _ ?y => replace x with y by lia end end. apply A. lia.
  - intros g pin ph Hg o Ho. unfold rnn_inputs. cbn [hd rnn_gate_in ri_q ri_n]. rewrite rnn_gate_bias, rh_in0. cbn [tl]. rewrite count1, W32 by lia.
    pose proof (chk_backed _ _ Fb Cb Bb [g; o]) as A. specialize (Hb g o Hg Ho). rewrite rh_bias0 in A. rewrite rh_bias'0 in A, Hb. cbn [valid addr] in A, Hb.
    replace (t_data (rn_bias N) + g * nth 0 (t_stride (rn_bias N)) 0 + o) with (t_data (rn_bias N) + (nth 0 (t_stride (rn_bias N)) 0 * g + (1 * o + 0))) by lia.
    split; [apply A; lia|exact Hb].
Qed.

(** * The cells *)

(** The sequence of input vectors in the order in which the cell sees them. *)
Definition rnn_seq (N : rnn_net) (c : rnn_cfg) (m : mem) : list (list Z) :=
  let xs := rows_at m (t_data (rn_in N)) (rnn_len N) (rnn_d N) in if rc_backward c then rev xs else xs.

(** The input is apart from everything the cell writes, the scratch data from all tensors, and the output from the cell state. *)
Definition lstm_apart (N : rnn_net) (c : rnn_cfg) : Prop :=
  let n := rnn_n N in
  let li := rnn_len N * rnn_d N in
  let lo := rnn_outlen N c * n in
  apart (t_data (rn_in N)) li (rc_ps c) (4 * n) /\ apart (t_data (rn_in N)) li (t_data (rn_cell N)) n /\ apart (t_data (rn_in N)) li (t_data (rn_out N)) lo
  /\ apart (t_data (rn_prev N)) n (rc_ps c) (4 * n) /\ apart (t_data (rn_cell N)) n (rc_ps c) (4 * n) /\ apart (t_data (rn_out N)) lo (rc_ps c) (4 * n)
  /\ apart (t_data (rn_out N)) lo (t_data (rn_cell N)) n.
(** The hidden state given to the GRU cell may be the first row of the output. *)
Definition gru_apart (N : rnn_net) (c : rnn_cfg) : Prop :=
  let n := rnn_n N in
  let li := rnn_len N * rnn_d N in
  let lo := rnn_outlen N c * n in
  apart (t_data (rn_in N)) li (rc_ps c) (3 * n) /\ apart (t_data (rn_in N)) li (t_data (rn_out N)) lo
  /\ apart (t_data (rn_prev N)) n (rc_ps c) (3 * n) /\ apart (t_data (rn_out N)) lo (rc_ps c) (3 * n) /\ same_or_apart (t_data (rn_prev N)) (t_data (rn_out N)) n.

Lemma rows_at_intro {St} (hid : St -> list Z) (states : list St) s0 m p len n : Z.of_nat (length states) = len ->
  (forall t, 0 <= t < len -> vec_at m (p + t * n) n = hid (nth (Z.to_nat t) states s0)) -> rows_at m p len n = map hid states.
Proof.
  intros L H. unfold rows_at. apply nth_ext with (d := []) (d' := []). { rewrite !map_length, zrange_length. lia. }
  intros k Hk. rewrite map_length, zrange_length in Hk.
  rewrite nth_indep with (d' := vec_at m (p + 0 * n) n) by (rewrite map_length, zrange_length; lia). rewrite (map_nth (fun t => vec_at m (p + t * n) n)).
  rewrite (nth_indep _ _ (hid s0)) by (rewrite map_length; lia). rewrite map_nth.
  replace k with (Z.to_nat (Z.of_nat k)) by lia. rewrite (nth_zrange len (Z.of_nat k)) by lia. apply H. lia.
Qed.

Lemma rnn_seq_length N c m : length (rnn_seq N c m) = Z.to_nat (rnn_len N).
Proof. unfold rnn_seq, rows_at. destruct (rc_backward c); rewrite ?rev_length, map_length, zrange_length; f_equal; lia. Qed.

Lemma rnn_row_in N c len d t : 0 <= t < len -> 0 < d -> t_data (rn_in N) <= pin_at N c len d t /\ pin_at N c len d t + d <= t_data (rn_in N) + len * d.
Proof. intros. unfold pin_at. destruct (rc_backward c); nia. Qed.
Lemma rnn_row_out N c n t : 0 <= t < rnn_len N -> 0 < n -> t_data (rn_out N) <= po_at N c n t /\ po_at N c n t + n <= t_data (rn_out N) + rnn_outlen N c * n.
Proof. intros. unfold po_at, rnn_outlen. destruct (rc_all c); nia. Qed.
Lemma rnn_row_hid N c n t : 0 <= t < rnn_len N -> 0 < n -> ph_at N c n t = t_data (rn_prev N)
  \/ (t_data (rn_out N) <= ph_at N c n t /\ ph_at N c n t + n <= t_data (rn_out N) + rnn_outlen N c * n).
Proof. intros. unfold ph_at. destruct (Z.eqb_spec t 0); [auto|]. right. apply rnn_row_out; lia. Qed.

Lemma rnn_rows_ok lstm S N c m : rnn_call lstm S N c m ->
  row_ok m (t_data (rn_in N)) (rnn_len N * rnn_d N) /\ row_ok m (t_data (rn_prev N)) (rnn_n N) /\ row_ok m (t_data (rn_out N)) (rnn_outlen N c * rnn_n N)
  /\ row_ok m (rc_ps c) (rnn_gates lstm * rnn_n N) /\ (lstm = true -> row_ok m (t_data (rn_cell N)) (rnn_n N)).
Proof.
  intros HC. pose proof (rnn_call_shapes _ _ _ _ _ HC) as []. destruct HC as (_ & _ & F & B & _ & _ & _ & Bs & _ & Ez & _).
  unfold rnn_tensors in F, B. cbn [app] in F, B.
  pose proof (Forall_inv F) as Fi. pose proof (Forall_inv B) as Bi. apply Forall_inv_tail in F. apply Forall_inv_tail in B.
  pose proof (Forall_inv F) as Fp. pose proof (Forall_inv B) as Bp. apply Forall_inv_tail in F. apply Forall_inv_tail in B.
  pose proof (Forall_inv F) as Fo. pose proof (Forall_inv B) as Bo. apply Forall_inv_tail in F. apply Forall_inv_tail in B.
  pose proof (Forall_inv rh_chk0) as Ci. apply Forall_inv_tail in rh_chk0. pose proof (Forall_inv rh_chk0) as Cp. clear rh_chk0.
  split; [|split; [|split; [|split]]].
  - intros k Hk. pose proof (chk_backed _ _ Fi Ci Bi [k / rnn_d N; k mod rnn_d N]) as A. rewrite rh_in0, rh_in'0 in A. cbn [valid addr] in A.
    pose proof (Z.div_mod k (rnn_d N) ltac:(lia)). pose proof (Z.mod_pos_bound k (rnn_d N) ltac:(lia)).
    replace (t_data (rn_in N) + k) with (t_data (rn_in N) + (rnn_d N * (k / rnn_d N) + (1 * (k mod rnn_d N) + 0))) by lia. apply A.
    assert (0 <= k / rnn_d N < rnn_len N) by (split; [apply Z.div_pos; lia|apply Z.div_lt_upper_bound; lia]). lia.
  - intros k Hk. pose proof (chk_backed _ _ Fp Cp Bp [k]) as A. rewrite rh_prev0, rh_prev'0 in A. cbn [valid addr] in A.
    replace (t_data (rn_prev N) + k) with (t_data (rn_prev N) + (1 * k + 0)) by lia. apply A. lia.
  - intros k Hk. apply Bo; [lia|]. rewrite Ez. destruct S; cbn [rs_esz] in *; lia.
  - intros k Hk. apply Bs; [lia|]. destruct S; cbn [rs_esz] in *; lia.
  - intros ->. intros k Hk. cbn [app] in F, B. destruct (rh_cell0 eq_refl) as (Sc & Tc & Cc). pose proof (chk_backed _ _ (Forall_inv F) Cc (Forall_inv B) [k]) as A.
    rewrite Sc, Tc in A. cbn [valid addr] in A. replace (t_data (rn_cell N) + k) with (t_data (rn_cell N) + (1 * k + 0)) by lia. apply A. lia.
Qed.

Definition fmt_bits (S : rnn_scheme) (i : qpar) : Prop := match S with RS_sa8 => in_bits 16 (q_scale i) | _ => in_bits 8 (q_frac i) end.

(** The LSTM cell computes the recurrence of the LSTM equations over the sequence, forward or backward: the cell state becomes the
    last cell state, the output consists of all hidden states or the last one. *)
Theorem lstm_cell_correct rm full S N c m : rnn_call true S N c m -> rnn_acc_ok rm full true S N (lstm_ir_fmt S (rn_iq N) (rn_wiq N)) ->
  fmt_bits S (rn_cq N) -> lstm_apart N c ->
  let n := rnn_n N in
  let s0 := (vec_at m (t_data (rn_cell N)) n, vec_at m (t_data (rn_prev N)) n) in
  let states := recur (fun first x s => lstm_eq rm full S N c n (if first : bool then rn_pq N else rn_oq N) x s) true (rnn_seq N c m) s0 in
  exists m', lstm_cell rm full S N c m = Some m'
    /\ vec_at m' (t_data (rn_cell N)) n = fst (final states s0)
    /\ rows_at m' (t_data (rn_out N)) (rnn_outlen N c) n = (if rc_all c then map snd states else [snd (final states s0)])
    /\ rnn_out_shape N c = ([rnn_outlen N c; n], [n; 1])
    /\ (forall a, a < t_data (rn_out N) \/ t_data (rn_out N) + rnn_outlen N c * n <= a -> a < t_data (rn_cell N) \/ t_data (rn_cell N) + n <= a ->
          a < rc_ps c \/ rc_ps c + 4 * n <= a -> m' a = m a)
    /\ (forall a, allocated m a -> allocated m' a) /\ mem_bits (rs_bits S) m'.
Proof.
  intros HC HA HF (A1 & A2 & A3 & A4 & A5 & A6 & A7) n s0 states.
  pose proof (rnn_call_shapes _ _ _ _ _ HC) as HS. pose proof (rnn_rows_ok _ _ _ _ _ HC) as (R1 & R2 & R3 & R4 & R5). specialize (R5 eq_refl). cbn [rnn_gates] in R4.
  pose proof (fun hq => rnn_facts_ok rm full true S N c m _ hq HC HA) as FA. cbn [rnn_gates] in FA.
  destruct HS. destruct (rh_cell0 eq_refl) as (Sc & Tc & Cc). fold n in rh_n0, R2, R3, R4, R5, rh_prev0, Sc.
  assert (N31 : n <= 2 ^ 31 - 1) by (cbn [rnn_gates] in rh_n32; fold n in rh_n32; lia).
  assert (En : count_elem_num_part (t_shape (rn_prev N)) = n) by (rewrite rh_prev0; apply count1; lia).
  destruct HC as (_ & Q & F & B & _ & _ & _ & _ & _ & _ & _ & MB & _ & _ & Ls & Lt).
  assert (Fc : fits32 (rn_cell N)) by (rewrite Forall_forall in F; apply F; cbn; auto 10).
  assert (Rc : row_tensor (rn_cell N) (t_data (rn_cell N)) n).
  { destruct (chk_tensor_nested _ Fc Cc) as (_ & X & Y). pose proof Fc as (_ & E & _). rewrite Sc, Tc in X. cbn [span] in X. split; [reflexivity|]. split; [lia|]. split; [exact E|]. split; [lia|]. split; [exact Y|auto]. }
  assert (Hc1 : n * rs_esz S <= t_cap (rn_out N) <= 2 ^ 31 - 1).
  { split; [|lia]. fold n in rh_cap0. assert (1 <= rnn_outlen N c) by (unfold rnn_outlen; destruct (rc_all c); lia). destruct S; cbn [rs_esz] in *; nia. }
  assert (Fi : rnn_fmt_ok S (lstm_ir_fmt S (rn_iq N) (rn_wiq N))).
  { destruct S; cbn [rnn_fmt_ok lstm_ir_fmt q_frac q_scale]; [apply wrap_in_bits; lia..|]. split; [reflexivity|apply ib16; lia]. }
  assert (Fcq : rnn_fmt_ok S (rn_cq N)).
  { destruct S; [exact HF..|]. split; [|exact HF]. apply (rnn_quant_facts _ _ (Q eq_refl)). reflexivity. }
  unfold lstm_cell.
  destruct (rnn_loop_correct (lstm_step rm full S N c) N c n (rnn_d N) (rnn_len N) (rs_bits S) (fun m p => (vec_at m (t_data (rn_cell N)) n, vec_at m p n)) snd
    (lstm_eq rm full S N c n) (fun a => rc_ps c <= a < rc_ps c + 4 * n \/ t_data (rn_cell N) <= a < t_data (rn_cell N) + n) m) as (m' & E & H1 & H2 & H3 & H4 & H5); auto.
  - rewrite rh_in'0. reflexivity.
  - intros t mt Ht Al Mt. pose proof (rnn_row_in N c (rnn_len N) (rnn_d N) t Ht rh_d0). pose proof (rnn_row_out N c n t Ht rh_n0). pose proof (rnn_row_hid N c n t Ht rh_n0).
    unfold apart in *. fold n in A1, A2, A3, A4, A5, A6, A7.
    destruct (lstm_step_correct rm full S N c (hq_at N t) n (rnn_d N) mt (pin_at N c (rnn_len N) (rnn_d N) t) (ph_at N c n t) (po_at N c n t)) as (m' & E & V & Fr & Al' & B'); auto; try (unfold apart; lia).
    + apply FA. unfold hq_at. destruct (t =? 0); auto.
    + intros k Hk. apply Al. replace (pin_at N c (rnn_len N) (rnn_d N) t + k) with (t_data (rn_in N) + (pin_at N c (rnn_len N) (rnn_d N) t - t_data (rn_in N) + k)) by lia. apply R1. lia.
    + intros k Hk. apply Al. destruct H1 as [->|H1]; [now apply R2|]. replace (ph_at N c n t + k) with (t_data (rn_out N) + (ph_at N c n t - t_data (rn_out N) + k)) by lia. apply R3. lia.
    + intros k Hk. apply Al, R4. lia.
    + intros k Hk. apply Al, R5. lia.
    + intros k Hk. apply Al. replace (po_at N c n t + k) with (t_data (rn_out N) + (po_at N c n t - t_data (rn_out N) + k)) by lia. apply R3. lia.
    + exists m'. split; [exact E|]. split; [exact V|]. split; [|auto]. intros a Ha1 Ha2. apply Fr; lia.
  - intros a Ha. unfold apart in *. fold n in A1, A2, A3. fold (rnn_outlen N c). lia.
  - intros a Ha. unfold apart in *. fold n in A6, A7. fold (rnn_outlen N c) in Ha. lia.
  - fold (rnn_seq N c m) in H1, H2. cbv beta in H1, H2. fold s0 in H1, H2. fold states in H1, H2. exists m'. split; [exact E|].
    fold (rnn_outlen N c) in H3.
    split; [rewrite <- H1; reflexivity|]. split; [|split; [|split; [|auto]]].
    + unfold rnn_outlen. destruct (rc_all c) eqn:All.
      * apply (rows_at_intro snd states s0); [|intros t Ht; now apply H2]. unfold states. rewrite recur_length, rnn_seq_length. lia.
      * rewrite <- H1. unfold rows_at, po_at. rewrite All. change (zrange 0 1) with [0]. cbn [map snd]. replace (t_data (rn_out N) + 0 * n) with (t_data (rn_out N) + 0) by lia. reflexivity.
    + unfold rnn_out_shape. rewrite En. reflexivity.
    + intros a Ha1 Ha2 Ha3. apply H3; [lia|exact Ha1].
Qed.

(** The GRU cell computes the recurrence of the GRU equations. SA8 weights must have one scale per gate. *)
Theorem gru_cell_correct rm full S N c m : rnn_call false S N c m -> rnn_acc_ok rm full false S N (gru_ir_fmt S (rn_iq N) (rn_wiq N)) ->
  (S = RS_sa8 -> wq_dim (rn_wiq N) = 0) -> gru_apart N c ->
  let n := rnn_n N in
  let s0 := vec_at m (t_data (rn_prev N)) n in
  let states := recur (fun first x h => gru_eq rm full S N n (if first : bool then rn_pq N else rn_oq N) x h) true (rnn_seq N c m) s0 in
  exists m', gru_cell rm full S N c m = Some m'
    /\ rows_at m' (t_data (rn_out N)) (rnn_outlen N c) n = (if rc_all c then states else [final states s0])
    /\ rnn_out_shape N c = ([rnn_outlen N c; n], [n; 1])
    /\ (forall a, a < t_data (rn_out N) \/ t_data (rn_out N) + rnn_outlen N c * n <= a -> a < rc_ps c \/ rc_ps c + 3 * n <= a -> m' a = m a)
    /\ (forall a, allocated m a -> allocated m' a) /\ mem_bits (rs_bits S) m'.
Proof.
  intros HC HA Hax (A1 & A3 & A4 & A6 & A7) n s0 states.
  pose proof (rnn_call_shapes _ _ _ _ _ HC) as HS. pose proof (rnn_rows_ok _ _ _ _ _ HC) as (R1 & R2 & R3 & R4 & _). cbn [rnn_gates] in R4.
  pose proof (fun hq => rnn_facts_ok rm full false S N c m _ hq HC HA) as FA. cbn [rnn_gates] in FA.
  destruct HS. fold n in rh_n0, R2, R3, R4, rh_prev0.
  assert (N31 : n <= 2 ^ 31 - 1) by (cbn [rnn_gates] in rh_n32; fold n in rh_n32; lia).
  assert (En : count_elem_num_part (t_shape (rn_prev N)) = n) by (rewrite rh_prev0; apply count1; lia).
  destruct HC as (_ & Q & F & B & _ & _ & _ & _ & _ & _ & _ & MB & _ & _ & Ls & Lt).
  assert (Fi : rnn_fmt_ok S (gru_ir_fmt S (rn_iq N) (rn_wiq N))).
  { destruct S; cbn [rnn_fmt_ok gru_ir_fmt q_frac q_scale]; [apply wrap_in_bits; lia..|]. split; [reflexivity|apply ib16; lia]. }
  assert (Hax' : S = RS_sa8 -> wq_dim (rn_wiq N) = 0 /\ wq_dim (rn_woq N) = 0).
  { intros E. specialize (Hax E). destruct (rnn_quant_facts _ _ (Q E)) as (_ & _ & _ & _ & _ & _ & [X|X]); [lia|exact X]. }
  unfold gru_cell.
  destruct (rnn_loop_correct (gru_step rm full S N c) N c n (rnn_d N) (rnn_len N) (rs_bits S) (fun m p => vec_at m p n) (fun v => v)
    (gru_eq rm full S N n) (fun a => rc_ps c <= a < rc_ps c + 3 * n) m) as (m' & E & H1 & H2 & H3 & H4 & H5); auto.
  - rewrite rh_in'0. reflexivity.
  - intros t mt Ht Al Mt. pose proof (rnn_row_in N c (rnn_len N) (rnn_d N) t Ht rh_d0). pose proof (rnn_row_out N c n t Ht rh_n0). pose proof (rnn_row_hid N c n t Ht rh_n0).
    unfold apart in *. fold n in A1, A3, A4, A6, A7.
    assert (Sho : same_or_apart (ph_at N c n t) (po_at N c n t) n).
    { unfold ph_at. destruct (Z.eqb_spec t 0) as [->|Hne].
      - unfold po_at. replace (if rc_all c then 0 * n else 0) with 0 by (destruct (rc_all c); lia). rewrite Z.add_0_r. exact A7.
      - unfold same_or_apart, po_at. destruct (rc_all c); nia. }
    destruct (gru_step_correct rm full S N c (hq_at N t) n (rnn_d N) mt (pin_at N c (rnn_len N) (rnn_d N) t) (ph_at N c n t) (po_at N c n t)) as (m' & E & V & Fr & Al' & B'); auto; try (unfold apart; lia).
    + apply FA. unfold hq_at. destruct (t =? 0); auto.
    + intros k Hk. apply Al. replace (pin_at N c (rnn_len N) (rnn_d N) t + k) with (t_data (rn_in N) + (pin_at N c (rnn_len N) (rnn_d N) t - t_data (rn_in N) + k)) by lia. apply R1. lia.
    + intros k Hk. apply Al. destruct H1 as [->|H1]; [now apply R2|]. replace (ph_at N c n t + k) with (t_data (rn_out N) + (ph_at N c n t - t_data (rn_out N) + k)) by lia. apply R3. lia.
    + intros k Hk. apply Al, R4. lia.
    + intros k Hk. apply Al. replace (po_at N c n t + k) with (t_data (rn_out N) + (po_at N c n t - t_data (rn_out N) + k)) by lia. apply R3. lia.
    + exists m'. split; [exact E|]. split; [exact V|]. split; [|auto]. intros a Ha1 Ha2. apply Fr; lia.
  - intros a Ha. unfold apart in *. fold n in A1, A3. fold (rnn_outlen N c). lia.
  - intros a Ha. unfold apart in *. fold n in A6. fold (rnn_outlen N c) in Ha. lia.
  - fold (rnn_seq N c m) in H1, H2. cbv beta in H1, H2. fold s0 in H1, H2. fold states in H1, H2. exists m'. split; [exact E|].
    fold (rnn_outlen N c) in H3. split; [|split; [|split; [|auto]]].
    + unfold rnn_outlen. destruct (rc_all c) eqn:All.
      * rewrite <- (map_id states). apply (rows_at_intro (fun v => v) states s0); [|intros t Ht; now apply H2]. unfold states. rewrite recur_length, rnn_seq_length. lia.
      * rewrite <- H1. unfold rows_at, po_at. rewrite All. change (zrange 0 1) with [0]. cbn [map]. replace (t_data (rn_out N) + 0 * n) with (t_data (rn_out N) + 0) by lia. reflexivity.
    + unfold rnn_out_shape. rewrite En. reflexivity.
    + intros a Ha1 Ha3. apply H3; [lia|exact Ha1].
Qed.

(** * The dense kernel *)

(** One input: tensor and format, weights with format and memory. *)
Definition dense_arg := (tensor * qpar * (tensor * wquant * mem))%type.
(** The values of an input. *)
Definition dense_din (m : mem) (x : dense_arg) : din :=
  let '(ti, i, (tw, w, mw)) := x in
  (i, w, prod (t_shape ti), fun k o => rd mw (t_data tw + addr (t_stride tw) [k; o]), vec_at m (t_data ti) (prod (t_shape ti))).

Definition dense_arg_ok (S : rnn_scheme) (m : mem) (tout : tensor) (n : Z) (x : dense_arg) : Prop :=
  let '(ti, i, (tw, w, mw)) := x in
  fits32 ti /\ fits32 tw /\ backed ti m /\ backed tw mw /\ mem_bits (rs_wbits S) mw
  /\ (S = RS_sa8 -> wq_zp w 0 = 0 /\ in_bits 8 (q_zp i))
  /\ apart (t_data ti) (prod (t_shape ti)) (t_data tout) n /\ prod (t_shape ti) * rs_prod S <= smax (rs_acc S).

Definition dense_pair (x : dense_arg) : tensor * tensor := let '(ti, _, (tw, _, _)) := x in (ti, tw).

Lemma chk_dense_fold (f : status -> tensor * tensor -> status) l : (forall st x, f st x = ST_OK -> st = ST_OK) ->
  fold_left f l ST_OK = ST_OK -> Forall (fun x => f ST_OK x = ST_OK) l.
Proof.
  intros Hf. assert (G : forall l st, fold_left f l st = ST_OK -> st = ST_OK).
  { induction l0 as [|x l0 IH]; intros st H; [exact H|]. cbn [fold_left] in H. apply IH in H. now apply Hf in H. }
  induction l as [|x l IH]; intros H; constructor.
  - cbn [fold_left] in H. now apply G in H.
  - apply IH. cbn [fold_left] in H. pose proof (G _ _ H) as E. now rewrite E in H.
Qed.

Lemma chk_rnn_dense_facts l tb tout : chk_rnn_dense l tb tout = ST_OK -> fits32 tb -> fits32 tout -> Forall (fun x => fits32 (fst x) /\ fits32 (snd x)) l ->
  (0 < length l <= 4)%nat /\ exists n, 0 < n <= 2 ^ 31 - 1 /\ chk_tensor tb = ST_OK /\ chk_tensor tout = ST_OK /\ t_shape tb = [n] /\ t_stride tb = [1] /\ t_shape tout = [n] /\ t_stride tout = [1]
  /\ Forall (fun x => chk_tensor (fst x) = ST_OK /\ chk_tensor (snd x) = ST_OK /\ t_stride (fst x) = contiguous_strides (t_shape (fst x))
       /\ exists s, 0 < s /\ t_shape (snd x) = [prod (t_shape (fst x)); n] /\ t_stride (snd x) = [s; 1]) l.
Proof.
  intros H Fb Fo Fl. unfold chk_rnn_dense in H. cbv zeta in H.
  destruct (negb _) eqn:K0 in H; [discriminate|]. apply negb_false_iff in K0. apply andb_true_iff in K0. destruct K0 as [K0 K0'].
  match type of H with context [fold_left ?f l ST_OK] => set (F := f) in *; destruct (fold_left F l ST_OK) eqn:E; try discriminate; pose proof (chk_dense_fold F l ltac:(intros [] x Hx; [reflexivity|cbn in Hx; congruence..]) E) as P end. clear E.
  destruct (chk_tensor tb) eqn:Cb; try discriminate. destruct (negb _) eqn:K1 in H; [discriminate|]. destruct (chk_tensor tout) eqn:Co; try discriminate.
  destruct (negb _) eqn:K2 in H; [discriminate|]. destruct (negb _) eqn:K3 in H; [discriminate|]. clear H. apply negb_false_iff in K1, K2, K3.
  apply andb_true_iff in K1, K2, K3. destruct K1 as [K1 K1'], K2 as [K2 K2'], K3 as [K3 K3']. apply Z.eqb_eq in K1, K1', K2, K2'.
  destruct (shape1 tb) as (n & s & Sb & Tb); auto. destruct (shape1 tout) as (n' & s' & So & To); auto.
  apply (inner_one _ _ [] _ Sb Tb) in K3; [|discriminate]. pose proof (contiguous_spec _ Fo K3') as Ct. rewrite So, To in Ct. cbn [contiguous_strides] in Ct. injection Ct as ->. subst s.
  rewrite Sb in K1', K2'. rewrite So in K2'. cbn [nth] in K1', K2'. subst n'.
  destruct (tensor_count tb Fb Cb) as (_ & C2 & _). rewrite Sb in C2. unfold prod in C2. cbn [fold_right] in C2.
  split; [lia|]. exists n. split; [lia|]. repeat (split; [first [reflexivity | assumption]|]).
  apply Forall_forall. intros x Hx. rewrite Forall_forall in P, Fl. specialize (P x Hx). destruct (Fl x Hx) as [Fi Fw]. destruct x as [ti tw]. cbn [F fst snd] in *.
  destruct (chk_tensor ti) eqn:Ci; try discriminate. destruct (chk_tensor tw) eqn:Cw; try discriminate.
  destruct (negb _) eqn:K4 in P; [discriminate|]. destruct (negb _) eqn:K5 in P; [discriminate|]. clear P. apply negb_false_iff in K4, K5.
  apply andb_true_iff in K4, K5. destruct K4 as [K4 K4'], K5 as [K5 K5']. apply andb_true_iff in K4. destruct K4 as [K4 K4'']. apply Z.eqb_eq in K4, K4', K4''.
  destruct (shape2 tw) as (a & b & sa & sb & Sw & Tw); auto. rewrite Sw in K4', K4''. cbn [nth] in K4', K4''.
  apply (inner_one _ _ [sa] _ Sw Tw) in K5'; [|discriminate]. subst sb. destruct (tensor_count ti Fi Ci) as (E1 & _ & _).
  split; [reflexivity|]. split; [reflexivity|]. split; [now apply contiguous_spec|]. exists sa.
  destruct (chk_tensor_nested _ Fw Cw) as (Nw & _). rewrite Sw, Tw in Nw. cbn [nested] in Nw. split; [tauto|]. split; [|exact Tw]. rewrite Sw. f_equal; [congruence|f_equal; congruence].
Qed.

Definition vin_same (o : Z) (v v' : vin) : Prop :=
  vi_q v = vi_q v' /\ vi_n v = vi_n v' /\ vi_x v = vi_x v' /\ forall k, 0 <= k < vi_n v -> vi_w v k o = vi_w v' k o.

Lemma dense_out_ext rm full lo hi b o vs vs' : Forall2 (vin_same o) vs vs' -> dense_out rm full lo hi b vs o = dense_out rm full lo hi b vs' o.
Proof.
  intros H. assert (E : forall s, fold_left (vin_acc rm full o) vs s = fold_left (vin_acc rm full o) vs' s).
  { induction H as [|v v' vs vs' (Q & N & X & W) _ IH]; intros s; [reflexivity|]. cbn [fold_left]. rewrite IH. f_equal. unfold vin_acc. rewrite <- Q, <- N, <- X. do 4 f_equal.
    unfold vdot. apply zsum_ext. intros k Hk. now rewrite W. }
  assert (L : forall d d', vi_q d = vi_q d' -> vi_q (last vs d) = vi_q (last vs' d')).
  { clear E. induction H as [|v v' vs vs' (Q & _) HF IH]; intros d d' Hd; [exact Hd|]. inversion HF; subst; [exact Q|]. exact (IH d d' Hd). }
  unfold dense_out, dense_sum. destruct H as [|v v' vs vs' (Q & _) HF]; [reflexivity|]. rewrite E, Q. unfold rnn_result. now rewrite (L v v' Q).
Qed.

(** mli_krn_rnn_dense: every output is the closed form [dense_out] (see dense_fx_value and dense_sa8_value) of the inputs, their weights and the
    bias; nothing else is written. *)
Theorem rnn_dense_correct rm full S fb o mb (ins : list dense_arg) tb tout m n : chk_rnn_dense (map dense_pair ins) tb tout = ST_OK -> t_shape tb = [n] ->
  fits32 tb -> fits32 tout -> backed tb mb -> backed tout m -> mem_bits (rs_bits S) m -> Forall (dense_arg_ok S m tout n) ins ->
  let dins := map (dense_din m) ins in
  let bias k := rd mb (t_data tb + addr (t_stride tb) [k]) in
  (forall i k, hd_error dins = Some i -> 0 <= k < n ->
     Z.abs (q_bias_add rm full (vi_q (din_vin rm S fb o None i)) (bias k) 0) + (let '(_, _, d, _, _) := i in d) * rs_prod S <= smax (rs_acc S)) ->
  exists m', rnn_dense rm full S fb o mb ins tb tout m = Some m'
    /\ (forall k, valid (t_shape tout) [k] -> m' (t_data tout + addr (t_stride tout) [k])
          = Some (dense_out rm full (smin (rs_bits S)) (smax (rs_bits S)) (bias k) (map (din_vin rm S fb o None) dins) k))
    /\ frame_ok tout m m'.
Proof.
  intros HC Sb Fb Fo Bb Bo MB HI dins bias HB.
  destruct (chk_rnn_dense_facts _ _ _ HC Fb Fo) as (HL & n' & Hn & Cb & Co & Sb' & Tb & So & To & P).
  { apply Forall_map. eapply Forall_impl; [|exact HI]. intros [[ti i] [[tw w] mw]] (A & B & _). split; assumption. }
  rewrite Sb in Sb'. injection Sb' as <-. rewrite Forall_map in P. rewrite Forall_forall in HI, P.
  set (RI := fun x : dense_arg => let '(ti, i, (tw, w, mw)) := x in
       mkIn (rnn_params rm S i w fb o) (t_data ti) (wrap 32 (count_elem_num_part (t_shape ti))) mw (t_data tw)
         (if negb (nth 0 (t_stride tw) 0 =? 0) then nth 0 (t_stride tw) 0 else nth 1 (t_shape tw) 0)).
  assert (RF : forall x, In x ins -> let '(ti, i, (tw, w, mw)) := x in ri_n (RI x) = prod (t_shape ti) /\ 0 < prod (t_shape ti) /\ row_ok m (t_data ti) (prod (t_shape ti))
     /\ in_ok S n (RI x) /\ (forall k q, 0 <= k < n -> 0 <= q < prod (t_shape ti) -> ri_pw (RI x) + k + q * ri_ws (RI x) = t_data tw + addr (t_stride tw) [q; k])).
  { intros [[ti i] [[tw w] mw]] Hx. destruct (HI _ Hx) as (Fi & Fw & Bi & Bw & Mw & Zw & Ap & Pr). destruct (P _ Hx) as (Ci & Cw & Cs & s & Hs & Sw & Tw). cbn [dense_pair fst snd] in *.
    destruct (tensor_count ti Fi Ci) as (E1 & E2 & E3). cbn [RI ri_n ri_p ri_q ri_mw ri_pw ri_ws]. rewrite E1, E3, Tw. cbn [nth]. destruct (Z.eqb_spec s 0); [lia|]. cbn [negb].
    split; [reflexivity|]. split; [lia|]. split; [|split].
    - intros k Hk. destruct (contiguous_flat ti k Fi Ci Cs Hk) as [A V]. rewrite <- A. apply (chk_backed _ _ Fi Ci Bi). exact V.
    - split; [now apply rnn_params_quant|]. cbn [ri_n ri_p ri_q ri_mw ri_pw ri_ws]. split; [lia|]. split; [exact Mw|]. intros k q Hk Hq.
      pose proof (chk_backed _ _ Fw Cw Bw [q; k]) as A. rewrite Sw, Tw in A. cbn [valid addr] in A. replace (t_data tw + k + q * s) with (t_data tw + (s * q + (1 * k + 0))) by lia. apply A. lia.
    - intros k q Hk Hq. cbn [addr]. lia. }
  destruct ins as [|x0 ins']; [cbn in HL; lia|].
  assert (RM : map RI (x0 :: ins') = RI x0 :: map RI ins') by reflexivity.
  destruct (dense_wrote rm full S (smin (rs_bits S)) (smax (rs_bits S)) mb (t_data tb) (t_data tout) n (RI x0) (map RI ins') m) as (m' & E & V & F & Al & _); auto.
  - rewrite <- RM. apply Forall_map, Forall_forall. intros x Hx. specialize (RF x Hx). destruct x as [[ti i] [[tw w] mw]]. apply RF.
  - rewrite <- RM. apply Forall_map, Forall_forall. intros x Hx. specialize (RF x Hx). destruct x as [[ti i] [[tw w] mw]]. destruct RF as (E & _ & R & _). rewrite E. exact R.
  - intros k Hk. split.
    + pose proof (chk_backed _ _ Fb Cb Bb [k]) as A. rewrite Sb, Tb in A. cbn [valid addr] in A. replace (t_data tb + k) with (t_data tb + (1 * k + 0)) by lia. apply A. lia.
    + specialize (HB _ k eq_refl Hk). specialize (RF x0 (or_introl eq_refl)). destruct x0 as [[ti i] [[tw w] mw]]. destruct RF as (E & _). rewrite E.
      cbn [dense_din din_vin vi_q RI ri_q] in *. unfold bias in HB. rewrite Tb in HB. cbn [addr] in HB. replace (t_data tb + k) with (t_data tb + (1 * k + 0)) by lia. exact HB.
  - apply Forall_map, Forall_forall. intros x Hx. specialize (RF x (or_intror Hx)). specialize (HI x (or_intror Hx)). destruct x as [[ti i] [[tw w] mw]]. destruct RF as (E & _). rewrite E. apply HI.
  - destruct S; apply in_bits_unfold; cbn; lia.
  - destruct S; apply in_bits_unfold; cbn; lia.
  - intros k Hk. pose proof (chk_backed _ _ Fo Co Bo [k]) as A. rewrite So, To in A. cbn [valid addr] in A. replace (t_data tout + k) with (t_data tout + (1 * k + 0)) by lia. apply A. lia.
  - rewrite <- RM. apply Forall_map, Forall_forall. intros x Hx. specialize (RF x Hx). specialize (HI x Hx). destruct x as [[ti i] [[tw w] mw]]. destruct RF as (E & _). rewrite E.
    destruct HI as (_ & _ & _ & _ & _ & _ & A & _). exact A.
  - exists m'. split; [|split].
    + unfold rnn_dense. rewrite relu_none. destruct (tensor_count tb Fb Cb) as (E1 & _ & E3). rewrite E1, E3, Sb. replace (prod [n]) with n by (unfold prod; cbn [fold_right]; lia). exact E.
    + intros k Hk. rewrite So in Hk. cbn [valid] in Hk. rewrite To. cbn [addr].
      pose proof (f_equal (fun l => el l k) V) as V'. cbv beta in V'. unfold vec_at in V'. rewrite !el_vec in V' by lia.
      replace (t_data tout + (1 * k + 0)) with (t_data tout + k) by lia.
      assert (A : allocated m' (t_data tout + k)).
      { apply Al. pose proof (chk_backed _ _ Fo Co Bo [k]) as A. rewrite So, To in A. cbn [valid addr] in A. replace (t_data tout + k) with (t_data tout + (1 * k + 0)) by lia. apply A. lia. }
      unfold rd at 1 in V'. unfold allocated in A. destruct (m' (t_data tout + k)) as [v|]; [|congruence]. rewrite V'. f_equal. unfold bias. rewrite Tb. cbn [addr].
      replace (t_data tb + (1 * k + 0)) with (t_data tb + k) by lia. rewrite <- RM. unfold dins. rewrite !map_map. apply dense_out_ext.
      clear - RF Hk. induction (x0 :: ins') as [|x l IH]; constructor.
      * specialize (RF x (or_introl eq_refl)). destruct x as [[ti i] [[tw w] mw]]. destruct RF as (E & _ & _ & _ & W). unfold vin_of, din_vin, dense_din.
        split; [reflexivity|]. cbn [vi_n vi_x vi_w vi_q]. rewrite E. split; [reflexivity|]. split; [reflexivity|]. intros q Hq. rewrite W by lia. reflexivity.
      * apply IH. intros y Hy. apply RF. now right.
    + intros a Ha. apply F. destruct (Z_lt_dec a (t_data tout)); [lia|]. destruct (Z_le_dec (t_data tout + n) a); [lia|]. exfalso.
      apply (Ha [a - t_data tout]); [rewrite So; cbn; lia|]. rewrite To. cbn [addr]. lia.
Qed.
