(** Splitting a sequence between two calls of a recurrent cell; the pre-activation values of a gate in closed form; the GRU cell with
    per-tensor weights; concrete cells. *)
From Coq Require Import ZArith QArith Qabs List Lia Bool.
From Verif Require Import Base FxMath FxMathProofs Tensor TensorProofs ArgMax QSpec Quant QuantProofs QuantCastProofs DotProd DotProdProofs PermuteProofs MovProofs
  PoolKernels FullyConnProofs Conv ConvTheorems ConvValues Eltwise EltwiseProofs EltwiseSa8Proofs Lut LutProofs Rnn RnnSpec RnnProofs RnnGru RnnDense RnnTheorems.
Import ListNotations.
Open Scope Z_scope.

(** * Splitting a sequence *)

(** The same tensor at another place; the rows [first .. first + len) of a tensor. *)
Definition at_data (t : tensor) (p : Z) : tensor := mkTensor p (t_cap t) (t_esz t) (t_shape t) (t_stride t) (t_asym t) (t_qdim t) (t_qoff t).
Definition rows_of (t : tensor) (first len : Z) : tensor :=
  mkTensor (t_data t + first * nth 0 (t_stride t) 0) (t_cap t) (t_esz t) (len :: tl (t_shape t)) (t_stride t) (t_asym t) (t_qdim t) (t_qoff t).

Definition with_io (N : rnn_net) (tin tprev : tensor) (pq : qpar) (tout : tensor) : rnn_net :=
  mkNet tin tprev (rn_win N) (rn_wout N) (rn_bias N) (rn_cell N) tout (rn_iq N) pq (rn_cq N) (rn_oq N) (rn_wiq N) (rn_woq N) (rn_bfrac N)
    (rn_mwi N) (rn_mwo N) (rn_mb N) (rn_tanh N) (rn_sigm N).

(** The first [a] elements of the sequence (the last [a] rows if it is processed backward). *)
Definition first_part (N : rnn_net) (c : rnn_cfg) (a : Z) : rnn_net :=
  with_io N (rows_of (rn_in N) (if rc_backward c then rnn_len N - a else 0) a) (rn_prev N) (rn_pq N) (rn_out N).
(** The rest of the sequence, starting from the last hidden state the first part has put out; its output follows the output of the first
    part (or replaces it if only the last hidden state is put out). *)
Definition second_part (N : rnn_net) (c : rnn_cfg) (a : Z) : rnn_net :=
  let n := rnn_n N in
  with_io N (rows_of (rn_in N) (if rc_backward c then 0 else a) (rnn_len N - a))
    (at_data (rn_prev N) (t_data (rn_out N) + (if rc_all c then (a - 1) * n else 0))) (rn_oq N)
    (at_data (rn_out N) (t_data (rn_out N) + (if rc_all c then a * n else 0))).

Section loop_split.
Context (step : Z -> Z -> qpar -> Z -> mem -> option mem) (back all : bool) (oq : qpar) (st n : Z).
Let body : Z -> mem * Z * (Z * qpar) * Z -> option (mem * Z * (Z * qpar) * Z) := fun _ s =>
  let '(m, pin, (ph, hq), po) := s in
  do m' <- step pin ph hq po m; Some (m', pin + (if back then - st else st), (po, oq), if all then po + n else po).

(** Where the loop stands after the steps of a list. *)
Lemma loop_pointers l : forall m pin h po s, foldM body l (m, pin, h, po) = Some s ->
  s = (fst (fst (fst s)), pin + Z.of_nat (length l) * (if back then - st else st),
       (match l with [] => h | _ => (po + (if all then (Z.of_nat (length l) - 1) * n else 0), oq) end), po + (if all then Z.of_nat (length l) * n else 0)).
Proof.
  induction l as [|x l IH]; intros m pin h po s E.
  - cbn [foldM] in E. injection E as <-. cbn [fst length]. repeat f_equal; destruct all; lia.
  - cbn [foldM] in E. unfold body at 1 in E. destruct h as [ph hq]. cbn [bind] in E. destruct (step pin ph hq po m) as [m'|] eqn:Es; cbn [bind] in E; [|discriminate].
    apply IH in E. rewrite E at 1. cbn [length]. rewrite Nat2Z.inj_succ. f_equal; [f_equal; [f_equal; lia|]|destruct all; lia].
    destruct l as [|y l]; cbn [length]; [f_equal; destruct all; lia|f_equal; rewrite Nat2Z.inj_succ; destruct all; lia].
Qed.

Lemma loop_any l1 : forall l2 s, length l1 = length l2 -> foldM body l1 s = foldM body l2 s.
Proof.
  induction l1 as [|x l1 IH]; intros [|y l2] s L; try discriminate; [reflexivity|]. cbn [foldM]. unfold body at 1 3. destruct s as [[[m pin] [ph hq]] po].
  cbn [bind]. destruct (step pin ph hq po m); cbn [bind]; [|reflexivity]. apply IH. now injection L.
Qed.
End loop_split.

Lemma rnn_loop_split step step1 step2 N c m a : 0 < a < rnn_len N -> 0 <= rnn_n N < 2 ^ 32 -> t_shape (rn_prev N) = [rnn_n N] ->
  step1 = step -> step2 = step ->
  rnn_loop step N c m = (do m' <- rnn_loop step1 (first_part N c a) c m; rnn_loop step2 (second_part N c a) c m').
Proof.
  intros Ha Hn Sp -> ->. unfold rnn_loop. cbn [first_part second_part with_io rows_of at_data rn_in rn_prev rn_out rn_oq rn_pq t_data t_shape t_stride]. rewrite Sp, count1 by lia. cbn [nth].
  fold (rnn_len N). set (st := nth 0 (t_stride (rn_in N)) 0). set (n := rnn_n N). set (len := rnn_len N) in *.
  set (body := fun (_ : Z) (s : mem * Z * (Z * qpar) * Z) => let '(m0, pin, (ph, hq), po) := s in
      do m1 <- step pin ph hq po m0; Some (m1, pin + (if rc_backward c then - st else st), (po, rn_oq N), if rc_all c then po + n else po)).
  set (i0 := t_data (rn_in N) + (if rc_backward c then (len - 1) * st else 0)).
  replace (t_data (rn_in N) + (if rc_backward c then len - a else 0) * st + (if rc_backward c then (a - 1) * st else 0)) with i0 by (unfold i0; destruct (rc_backward c); ring).
  replace (zrange 0 len) with (zrange 0 a ++ zrange a len) by (symmetry; apply zrange_split; lia).
  rewrite foldM_app. destruct (foldM body (zrange 0 a) (m, i0, (t_data (rn_prev N), rn_pq N), t_data (rn_out N))) as [s|] eqn:E1; cbn [bind]; [|reflexivity].
  pose proof (loop_pointers step (rc_backward c) (rc_all c) (rn_oq N) st n (zrange 0 a) _ _ _ _ _ E1) as P. fold body in P.
  rewrite zrange_length in P. replace (Z.of_nat (Z.to_nat (a - 0))) with a in P by lia.
  destruct (zrange 0 a) as [|z0 l0] eqn:Ez. { pose proof (zrange_length 0 a) as L. rewrite Ez in L. cbn [length] in L. lia. }
  rewrite P at 1.
  pose proof (loop_any step (rc_backward c) (rc_all c) (rn_oq N) st n (zrange a len) (zrange 0 (len - a))) as LA. fold body in LA. rewrite LA by (rewrite !zrange_length; lia).
  match goal with |- bind (foldM _ _ ?x) _ = bind (foldM _ _ ?y) _ => replace x with y; [reflexivity|] end.
  unfold i0. f_equal. f_equal. f_equal. destruct (rc_backward c); ring.
Qed.

(** A sequence may be given to the LSTM cell in two parts: the memory after the two calls is the memory after one call with the whole
    sequence. The cell state carries over in its tensor, the hidden state is the last row the first call has written. *)
Theorem lstm_cell_stream rm full S N c m a : rnn_call true S N c m -> 0 < a < rnn_len N ->
  lstm_cell rm full S N c m = (do m' <- lstm_cell rm full S (first_part N c a) c m; lstm_cell rm full S (second_part N c a) c m').
Proof.
  intros HC Ha. pose proof (rnn_call_shapes _ _ _ _ _ HC) as []. cbn [rnn_gates] in *. unfold lstm_cell.
  apply rnn_loop_split; try assumption; try lia; reflexivity.
Qed.

(** The same for the GRU cell. *)
Theorem gru_cell_stream rm full S N c m a : rnn_call false S N c m -> 0 < a < rnn_len N ->
  gru_cell rm full S N c m = (do m' <- gru_cell rm full S (first_part N c a) c m; gru_cell rm full S (second_part N c a) c m').
Proof.
  intros HC Ha. pose proof (rnn_call_shapes _ _ _ _ _ HC) as []. cbn [rnn_gates] in *. unfold gru_cell.
  apply rnn_loop_split; try assumption; try lia; reflexivity.
Qed.

(** * The gates in closed form *)

(** The two inputs of gate [g]: an element [x] of the sequence and the hidden state [h] with format [hq], with the weights of the gate. *)
Definition gate_dins (N : rnn_net) (hq : qpar) (g : Z) (x h : list Z) : list din :=
  [ (rn_iq N, rn_wiq N, rnn_d N, fun k o => rd (rn_mwi N) (t_data (rn_win N) + addr (t_stride (rn_win N)) [g; k; o]), x);
    (hq, rn_woq N, rnn_n N, fun k o => rd (rn_mwo N) (t_data (rn_wout N) + addr (t_stride (rn_wout N)) [g; k; o]), h) ].
Definition gate_bias (N : rnn_net) (g o : Z) : Z := rd (rn_mb N) (t_data (rn_bias N) + addr (t_stride (rn_bias N)) [g; o]).

Lemma rnn_gate_dense_out rm full lstm S N c m iq hq g x h o : rnn_call lstm S N c m -> 0 <= o < rnn_n N ->
  el (rnn_gate_dense rm full S N iq hq (rnn_n N) g x h) o
  = dense_out rm full (smin (rs_bits S)) (smax (rs_bits S)) (gate_bias N g o) (map (din_vin rm S (rn_bfrac N) iq (Some g)) (gate_dins N hq g x h)) o.
Proof.
  intros HC Ho. pose proof (rnn_call_shapes _ _ _ _ _ HC) as HS. pose proof (rh_bias' _ _ _ _ HS) as Tb. pose proof (rh_win' _ _ _ _ HS) as Twi. pose proof (rh_wout' _ _ _ _ HS) as Two.
  pose proof (rh_in _ _ _ _ HS) as Si. pose proof (rh_n31 _ _ _ _ HS) as N31'. pose proof (rh_d31 _ _ _ _ HS) as D31. pose proof (rh_d _ _ _ _ HS) as D0. clear HS. assert (N31 : rnn_n N <= 2 ^ 31 - 1) by (destruct lstm; cbn [rnn_gates] in *; lia).
  unfold rnn_gate_dense. rewrite el_vec by assumption. unfold gate_bias. rewrite Tb at 2. cbn [addr].
  replace (t_data (rn_bias N) + (nth 0 (t_stride (rn_bias N)) 0 * g + (1 * o + 0))) with (t_data (rn_bias N) + g * nth 0 (t_stride (rn_bias N)) 0 + o) by lia.
  apply dense_out_ext. unfold rnn_inputs, gate_dins. rewrite Si. cbn [tl]. rewrite count1 by lia.
  replace (wrap 32 (rnn_d N)) with (rnn_d N) by (symmetry; apply wrap_id; [lia|apply ib32; lia]).
  cbn [combine map fst snd]. constructor; [|constructor; [|constructor]].
  - unfold vin_same, vin_gate, din_vin. cbn [fst snd ri_q ri_n ri_mw ri_pw ri_ws vi_q vi_n vi_x vi_w]. repeat (split; [reflexivity|]). intros k Hk. f_equal. rewrite Twi. cbn [addr nth]. lia.
  - unfold vin_same, vin_gate, din_vin. cbn [fst snd ri_q ri_n ri_mw ri_pw ri_ws vi_q vi_n vi_x vi_w]. repeat (split; [reflexivity|]). intros k Hk. f_equal. rewrite Two. cbn [addr nth]. lia.
Qed.

(** FX: a gate is the sum of the bias, the products with the input and the products with the hidden state, each rounded once to the
    fraction of the intermediate tensor, saturated. *)
Theorem rnn_gate_fx_value rm full lstm S N c m iq hq g x h o : rnn_call lstm S N c m -> is_fx S -> 0 <= o < rnn_n N ->
  (S = RS_fx16 -> Forall (fun i => din_frac i - q_frac iq <= 39) (gate_dins N hq g x h)) ->
  let bias := q_bias_add rm full (rnn_params rm S (rn_iq N) (rn_wiq N) (rn_bfrac N) iq) (gate_bias N g o) 0 in
  let terms := din_sums din_frac S o bias (gate_dins N hq g x h) in
  fx_terms_abs (q_frac iq) terms <= 2 ^ (rs_acc S - 2) - 1 ->
  el (rnn_gate_dense rm full S N iq hq (rnn_n N) g x h) o = sat 16 (fx_terms rm (q_frac iq) terms).
Proof.
  intros HC HS Ho H39 bias terms HB. rewrite (rnn_gate_dense_out rm full lstm S N c m) by assumption.
  assert (EB : match map (din_vin rm S (rn_bfrac N) iq (Some g)) (gate_dins N hq g x h) with [] => 0 | v :: _ => q_bias_add rm full (vi_q v) (gate_bias N g o) 0 end = bias).
  { cbn [gate_dins map din_vin vi_q]. apply rnn_gate_bias. }
  pose proof (dense_fx_value rm full S (rn_bfrac N) iq (Some g) (gate_dins N hq g x h) (gate_bias N g o) o HS ltac:(discriminate) H39) as D. cbv zeta in D. rewrite EB in D.
  specialize (D HB). etransitivity; [|exact D]. clear - HS. destruct S; [reflexivity|reflexivity|destruct (HS eq_refl)].
Qed.

(** SA8: a gate is within the error of the rescaling of the exact affine map in the format of the intermediate tensor. *)
Theorem rnn_gate_sa8_value rm lstm N c m iq hq g x h o : rnn_call lstm RS_sa8 N c m -> 0 <= o < rnn_n N ->
  Forall (din_ok (Some g)) (gate_dins N hq g x h) -> qpar_ok iq -> in_bits 32 (gate_bias N g o) ->
  let terms := din_sums (din_factor iq (Some g)) RS_sa8 o (gate_bias N g o) (gate_dins N hq g x h) in
  Forall (fun p => in_bits 32 (snd p)) terms -> (sa_terms_abs terms <= inject_Z (2 ^ 29))%Q ->
  within (sa_terms_err terms) (inject_Z (el (rnn_gate_dense rm true RS_sa8 N iq hq (rnn_n N) g x h) o)) (qclamp (- (128)) 127 (sa_terms terms + inject_Z (q_zp iq))).
Proof.
  intros HC Ho HD Hq Hb terms H1 H2. rewrite (rnn_gate_dense_out rm true lstm RS_sa8 N c m) by assumption.
  exact (dense_sa8_value rm (rn_bfrac N) iq (Some g) (gate_dins N hq g x h) (gate_bias N g o) o ltac:(discriminate) ltac:(cbn; lia) HD Hq Hb H1 H2).
Qed.

(** * The operations of the cells *)

(** FX: products and sums of the cells are exact, rounded once and saturated ([elt_exact], property C37). *)
Theorem rnn_elt_fx_value rm S op i1 i2 o a b : is_fx S -> elt_formats op 16 (q_frac i1) (q_frac i2) (q_frac o) -> in_bits 16 a -> in_bits 16 b ->
  rnn_elt rm S op i1 i2 o a b = elt_exact rm op 16 (q_frac i1) (q_frac i2) (q_frac o) a b.
Proof.
  intros HS Hf Ha Hb. unfold rnn_elt. destruct S; [..|destruct (HS eq_refl)]; now apply elt_fx_exact; auto.
Qed.

(** SA8: within [elt_bound] of the real operation (property C60). *)
Theorem rnn_elt_sa8_value rm op i1 i2 o a b :
  chk_elt_quant op i1 i2 o = true -> qpar_typed i1 -> qpar_typed i2 -> qpar_typed o -> elt_scales op i1 i2 o -> in_bits 8 a -> in_bits 8 b ->
  let so := real_scale (q_scale o) (q_frac o) in
  within (elt_bound op (sa_real i1 a) (sa_real i2 b) so) (inject_Z (rnn_elt rm RS_sa8 op i1 i2 o a b))
    (qclamp (- (128)) 127 (elt_real op (sa_real i1 a) (sa_real i2 b) / so + inject_Z (q_zp o))).
Proof. intros. unfold rnn_elt. now apply eltwise_sa8_value. Qed.

(** FX: the activations of the cells are the value of the table at the real value of the element. *)
Theorem rnn_act_fx_value rm S o l i x : is_fx S -> rnn_lut_ok l -> in_bits 8 (q_frac i) -> in_bits 16 x ->
  exists r, in_bits 16 r /\ table_spec l (q_frac i - l_fi l) x r /\ rnn_act_fn rm S o l i x = r.
Proof.
  intros HS (L1 & L2 & _) Hf Hx. destruct (lut_get_fx rm 16 l (q_frac i) x ltac:(auto) L1 L2 Hf Hx) as (_ & r & B & T & E). exists r. split; [exact B|]. split; [exact T|].
  unfold rnn_act_fn. destruct S; [..|destruct (HS eq_refl)]; rewrite E; change (16 - 16) with 0; rewrite rnd_0; apply sat_id; exact B.
Qed.

(** FX: the complement of a gate is the largest number minus the gate. *)
Theorem gru_compl_fx rm S u : is_fx S -> 0 <= u <= 32767 ->
  rnn_elt rm S ELT_SUB (gru_one_fmt S) (rnn_sigm_fmt S) (rnn_sigm_fmt S) (smax 16) u = 32767 - u.
Proof.
  intros HS Hu. rewrite rnn_elt_fx_value; auto.
  - unfold elt_exact. replace (gru_one_fmt S) with (mkQ 1 15 0) by (destruct S; try reflexivity; destruct (HS eq_refl)).
    replace (rnn_sigm_fmt S) with (act_fx_out 16) by (destruct S; try reflexivity; destruct (HS eq_refl)). cbn [act_fx_out q_frac].
    unfold to_format. change (16 - 1) with 15. change (Z.max 15 15) with 15. change (15 <=? 15) with true. cbv iota. change (15 - 15) with 0. change (2 ^ 0) with 1. rewrite rnd_0. unfold smax. change (16 - 1) with 15.
    change (2 ^ 15) with 32768. rewrite sat_id; [lia|]. apply ib16. lia.
  - replace (gru_one_fmt S) with (mkQ 1 15 0) by (destruct S; try reflexivity; destruct (HS eq_refl)).
    replace (rnn_sigm_fmt S) with (act_fx_out 16) by (destruct S; try reflexivity; destruct (HS eq_refl)). cbn. lia.
  - apply ib16. unfold smax. lia.
  - apply ib16. lia.
Qed.

(** * Concrete cells *)

(** Three steps with two inputs and a state of two elements, 16 bit. Memory: sequence, hidden state, cell state, output, scratch data. *)
Definition rx_mem : mem := list_mem [4096; -2048; 100; 200; -4096; 8000; 16384; -3000; 512; -700; 0; 0; 0; 0; 0; 0; 0; 0; 0; 0; 0; 0; 0; 0].
Definition rx_w (k : Z) : list Z := map (fun i => (i * i * 977 + k) mod 16001 - 8000) (zrange 0 16).
Definition rx_t (p esz : Z) (sh st : list Z) : tensor := mkTensor p (prod sh * esz) esz sh st false (-1) 0.
Definition rx_fx : qpar := mkQ 1 12 0.
Definition rx_wfx : wquant := mkWq (-1) (fun _ => 0) (fun _ => 1) (fun _ => 13).
Definition rx_net (lstm : bool) : rnn_net :=
  let g := rnn_gates lstm in
  mkNet (rx_t 0 2 [3; 2] [2; 1]) (rx_t 6 2 [2] [1]) (rx_t 0 2 [g; 2; 2] [4; 2; 1]) (rx_t 0 2 [g; 2; 2] [4; 2; 1]) (rx_t 0 2 [g; 2] [2; 1]) (rx_t 8 2 [2] [1]) (rx_t 10 2 [3; 2] [2; 1])
    rx_fx (mkQ 1 15 0) rx_fx (mkQ 1 14 0) rx_wfx rx_wfx 14 (list_mem (rx_w 0)) (list_mem (rx_w 5)) (list_mem (rx_w 9)) tanh_lut sigmoid_lut.
Definition rx_cfg (back all : bool) : rnn_cfg := mkRnn back all RNN_ACT_TANH 16 16.

Lemma lib_luts : rnn_lut_ok sigmoid_lut /\ rnn_lut_ok tanh_lut.
Proof. destruct library_tables_ok as ((S1 & S2 & _) & (T1 & T2 & _) & _). split; (split; [assumption|split; [assumption|vm_compute; congruence]]). Qed.

Lemma rx_scratch k cap esz : 0 < esz -> cap <= 8 * esz -> 0 <= k -> (k + 1) * esz <= cap -> allocated rx_mem (16 + k).
Proof. intros. unfold allocated, rx_mem, list_mem. destruct (Z.ltb_spec (16 + k) 0); [lia|]. apply nth_error_Some. assert (k < 8) by nia. cbn [length]. lia. Qed.

Lemma rx_backed p esz sh st l : 0 <= p -> 0 < esz -> prod sh <= Z.of_nat (length l) - p -> backed (rx_t p esz sh st) (list_mem l).
Proof. intros. apply list_backed_esz; cbn [rx_t t_data t_esz t_cap]; nia. Qed.

Example rx_call lstm back all : rnn_call lstm RS_fx16 (rx_net lstm) (rx_cfg back all) rx_mem.
Proof.
  split; [destruct lstm, back, all; vm_compute; reflexivity|]. split; [discriminate|].
  split. { destruct lstm; cbn [rnn_tensors app]; repeat (apply Forall_cons); try apply Forall_nil; fits32_tac. }
  split. { destruct lstm; cbn [rnn_tensors app]; repeat (apply Forall_cons); try apply Forall_nil; apply rx_backed; vm_compute; congruence. }
  split. { destruct lstm; apply rx_backed; vm_compute; congruence. } split. { destruct lstm; apply rx_backed; vm_compute; congruence. } split. { destruct lstm; apply rx_backed; vm_compute; congruence. }
  split. { intros k H1 H2. apply (rx_scratch k 16 2); [lia|lia|exact H1|exact H2]. }
  split; [vm_compute; congruence|]. split; [reflexivity|]. split; [destruct all; vm_compute; reflexivity|].
  split; [apply list_bits; vm_compute; reflexivity|]. split; [apply list_bits; vm_compute; reflexivity|]. split; [apply list_bits; vm_compute; reflexivity|].
  exact lib_luts.
Qed.

Example rx_acc_ok rm full lstm : rnn_acc_ok rm full lstm RS_fx16 (rx_net lstm) (if lstm then lstm_ir_fmt RS_fx16 rx_fx rx_wfx else gru_ir_fmt RS_fx16 rx_fx rx_wfx).
Proof.
  split; [|destruct lstm; vm_compute; congruence]. intros g o Hg Ho.
  assert (Eg : g = 0 \/ g = 1 \/ g = 2 \/ (g = 3 /\ lstm = true)) by (destruct lstm; cbn [rnn_gates] in Hg; lia). change (rnn_n (rx_net lstm)) with 2 in Ho.
  assert (Eo : o = 0 \/ o = 1) by lia.
  destruct Eo as [-> | ->], Eg as [-> | [-> | [-> | [-> ->]]]]; destruct rm, full; try destruct lstm; vm_compute; congruence.
Qed.

Example rx_apart back all : lstm_apart (rx_net true) (rx_cfg back all) /\ gru_apart (rx_net false) (rx_cfg back all).
Proof.
  unfold lstm_apart, gru_apart, apart, same_or_apart. change (rnn_n (rx_net true)) with 2. change (rnn_n (rx_net false)) with 2. change (rnn_d (rx_net true)) with 2. change (rnn_d (rx_net false)) with 2.
  unfold rnn_outlen. change (rnn_len (rx_net true)) with 3. change (rnn_len (rx_net false)) with 3. cbn [rx_net rx_t rx_cfg rn_in rn_prev rn_cell rn_out t_data rc_ps rc_all]. destruct all; lia.
Qed.

(** The hypotheses of the theorems about the cells hold, and the cells do compute something. *)
Example rx_lstm_ex : fmt_bits RS_fx16 (rn_cq (rx_net true))
  /\ option_map (fun m => rows_at m 10 3 2) (lstm_cell RM_UP true RS_fx16 (rx_net true) (rx_cfg false true) rx_mem) = Some [[2080; -1350]; [974; -971]; [-3868; 7249]].
Proof. split; [vm_compute; split; congruence|vm_compute; reflexivity]. Qed.
Example rx_gru_ex : option_map (fun m => rows_at m 10 1 2) (gru_cell RM_CONV true RS_fx16 (rx_net false) (rx_cfg true false) rx_mem) = Some [[10567; 8542]].
Proof. vm_compute; reflexivity. Qed.

(** The sequence given as one element and two elements. *)
Example rx_stream_ex : option_map (fun m => rows_at m 10 3 2) (bind (lstm_cell RM_UP true RS_fx16 (first_part (rx_net true) (rx_cfg false true) 1) (rx_cfg false true) rx_mem)
    (lstm_cell RM_UP true RS_fx16 (second_part (rx_net true) (rx_cfg false true) 1) (rx_cfg false true))) = Some [[2080; -1350]; [974; -971]; [-3868; 7249]]
  /\ rn_prev (second_part (rx_net true) (rx_cfg false true) 1) = rx_t 10 2 [2] [1] /\ rn_in (second_part (rx_net true) (rx_cfg false true) 1) = mkTensor 2 12 2 [2; 2] [2; 1] false (-1) 0.
Proof. repeat split; vm_compute; reflexivity. Qed.

(** Gate 1 of the first step. *)
Example rx_gate_ex : let N := rx_net true in
  let iq := lstm_ir_fmt RS_fx16 rx_fx rx_wfx in
  let ins := gate_dins N (rn_pq N) 1 [4096; -2048] [16384; -3000] in
  Forall (fun i => din_frac i - q_frac iq <= 39) ins
  /\ fx_terms_abs (q_frac iq) (din_sums din_frac RS_fx16 0 (q_bias_add RM_UP true (rnn_params RM_UP RS_fx16 rx_fx rx_wfx 14 iq) (gate_bias N 1 0) 0) ins) <= 2 ^ (64 - 2) - 1
  /\ el (rnn_gate_dense RM_UP true RS_fx16 N iq (rn_pq N) 2 1 [4096; -2048] [16384; -3000]) 0 = 1534.
Proof. split; [repeat constructor; vm_compute; congruence|]. split; [vm_compute; congruence|vm_compute; reflexivity]. Qed.

(** 8 bit, with a scale for each gate or one for all gates. *)
Definition rx8_mem : mem := list_mem [40; -20; 1; 2; -40; 80; 100; -30; 51; -70; 0; 0; 0; 0; 0; 0; 0; 0; 0; 0; 0; 0; 0; 0].
Definition rx8_w (k : Z) : list Z := map (fun i => (i * i * 97 + k) mod 251 - 125) (zrange 0 16).
Definition rx8_wq (axis : bool) : wquant := mkWq (if axis then 0 else -1) (fun _ => 0) (fun k => 100 + 10 * k) (fun _ => 14).
Definition rx8_net (lstm axis : bool) : rnn_net :=
  let g := rnn_gates lstm in
  mkNet (rx_t 0 1 [3; 2] [2; 1]) (rx_t 6 1 [2] [1]) (rx_t 0 1 [g; 2; 2] [4; 2; 1]) (rx_t 0 1 [g; 2; 2] [4; 2; 1]) (rx_t 0 1 [g; 2] [2; 1]) (rx_t 8 1 [2] [1]) (rx_t 10 1 [3; 2] [2; 1])
    (mkQ 3 7 5) (mkQ 1 7 0) (mkQ 1 6 3) (mkQ 1 7 (-2)) (rx8_wq axis) (rx8_wq axis) 0 (list_mem (rx8_w 0)) (list_mem (rx8_w 5)) (list_mem (rx_w 9)) tanh_lut sigmoid_lut.

Lemma rx8_scratch k : 0 <= k -> (k + 1) * 1 <= 8 -> allocated rx8_mem (16 + k).
Proof. intros. unfold allocated, rx8_mem, list_mem. destruct (Z.ltb_spec (16 + k) 0); [lia|]. apply nth_error_Some. cbn [length]. lia. Qed.

Example rx8_call lstm axis back all : rnn_call lstm RS_sa8 (rx8_net lstm axis) (mkRnn back all RNN_ACT_TANH 16 8) rx8_mem.
Proof.
  split; [destruct lstm, back, all; vm_compute; reflexivity|]. split; [intros _; destruct lstm, axis; vm_compute; reflexivity|].
  split. { destruct lstm; cbn [rnn_tensors app]; repeat (apply Forall_cons); try apply Forall_nil; fits32_tac. }
  split. { destruct lstm; cbn [rnn_tensors app]; repeat (apply Forall_cons); try apply Forall_nil; apply rx_backed; vm_compute; congruence. }
  split. { destruct lstm; apply rx_backed; vm_compute; congruence. } split. { destruct lstm; apply rx_backed; vm_compute; congruence. } split. { destruct lstm; apply rx_backed; vm_compute; congruence. }
  split. { intros k H1 H2. apply rx8_scratch; assumption. }
  split; [vm_compute; congruence|]. split; [reflexivity|]. split; [destruct all; vm_compute; reflexivity|].
  split; [apply list_bits; vm_compute; reflexivity|]. split; [apply list_bits; vm_compute; reflexivity|]. split; [apply list_bits; vm_compute; reflexivity|].
  exact lib_luts.
Qed.

Example rx8_acc_ok rm full lstm axis : rnn_acc_ok rm full lstm RS_sa8 (rx8_net lstm axis) (if lstm then lstm_ir_fmt RS_sa8 (mkQ 3 7 5) (rx8_wq axis) else gru_ir_fmt RS_sa8 (mkQ 3 7 5) (rx8_wq axis)).
Proof.
  split; [|destruct lstm; vm_compute; congruence]. intros g o Hg Ho.
  assert (Eg : g = 0 \/ g = 1 \/ g = 2 \/ (g = 3 /\ lstm = true)) by (destruct lstm; cbn [rnn_gates] in Hg; lia). change (rnn_n (rx8_net lstm axis)) with 2 in Ho.
  assert (Eo : o = 0 \/ o = 1) by lia.
  destruct Eo as [-> | ->], Eg as [-> | [-> | [-> | [-> ->]]]]; destruct rm, full, axis; try destruct lstm; vm_compute; congruence.
Qed.

Example rx8_apart axis back all : lstm_apart (rx8_net true axis) (mkRnn back all RNN_ACT_TANH 16 8) /\ gru_apart (rx8_net false axis) (mkRnn back all RNN_ACT_TANH 16 8).
Proof.
  unfold lstm_apart, gru_apart, apart, same_or_apart. change (rnn_n (rx8_net true axis)) with 2. change (rnn_n (rx8_net false axis)) with 2. change (rnn_d (rx8_net true axis)) with 2. change (rnn_d (rx8_net false axis)) with 2.
  unfold rnn_outlen. change (rnn_len (rx8_net true axis)) with 3. change (rnn_len (rx8_net false axis)) with 3. cbn [rx8_net rx_t rn_in rn_prev rn_cell rn_out t_data rc_ps rc_all]. destruct all; lia.
Qed.

(** A gate of the 8-bit cell meets the hypotheses of rnn_gate_sa8_value; the exact value is close. *)
Example rx8_gate_ex : let N := rx8_net true true in
  let iq := lstm_ir_fmt RS_sa8 (mkQ 3 7 5) (rx8_wq true) in
  let ins := gate_dins N (rn_pq N) 1 [40; -20] [100; -30] in
  let terms := din_sums (din_factor iq (Some 1)) RS_sa8 0 (gate_bias N 1 0) ins in
  Forall (din_ok (Some 1)) ins /\ qpar_ok iq /\ Forall (fun p => in_bits 32 (snd p)) terms /\ (sa_terms_abs terms <= inject_Z (2 ^ 29))%Q
  /\ el (rnn_gate_dense RM_UP true RS_sa8 N iq (rn_pq N) 2 1 [40; -20] [100; -30]) 0 = -33.
Proof.
  split; [repeat constructor; vm_compute; congruence|]. split; [vm_compute; repeat split; congruence|]. split; [repeat constructor; vm_compute; congruence|].
  split; [vm_compute; congruence|vm_compute; reflexivity].
Qed.

(** Per-tensor weights in the 8-bit GRU cell: the checkers accept them, but the new gate takes 4 more for the scale of the weights and 2 more for
    its fraction, so the output is not what the equations give. *)
Theorem gru_per_tensor_refuted : exists N c m m', rnn_call false RS_sa8 N c m /\ rnn_acc_ok RM_UP true false RS_sa8 N (gru_ir_fmt RS_sa8 (rn_iq N) (rn_wiq N)) /\ gru_apart N c
  /\ wq_dim (rn_wiq N) = -1 /\ gru_cell RM_UP true RS_sa8 N c m = Some m'
  /\ rows_at m' (t_data (rn_out N)) (rnn_outlen N c) (rnn_n N)
     <> recur (fun first x h => gru_eq RM_UP true RS_sa8 N (rnn_n N) (if first : bool then rn_pq N else rn_oq N) x h) true (rnn_seq N c m) (vec_at m (t_data (rn_prev N)) (rnn_n N)).
Proof.
  exists (rx8_net false false), (mkRnn false true RNN_ACT_TANH 16 8), rx8_mem.
  destruct (gru_cell RM_UP true RS_sa8 (rx8_net false false) (mkRnn false true RNN_ACT_TANH 16 8) rx8_mem) as [m'|] eqn:E; [|exfalso; vm_compute in E; discriminate].
  exists m'. split; [apply rx8_call|]. split; [apply (rx8_acc_ok RM_UP true false false)|]. split; [apply rx8_apart|]. split; [reflexivity|]. split; [reflexivity|].
  assert (R : option_map (fun m => rows_at m 10 3 2) (gru_cell RM_UP true RS_sa8 (rx8_net false false) (mkRnn false true RNN_ACT_TANH 16 8) rx8_mem) = Some [[43; -25]; [35; -8]; [35; 21]]) by (vm_compute; reflexivity).
  rewrite E in R. cbn [option_map] in R. apply (f_equal (fun o => match o with Some x => x | None => [] end)) in R. cbv beta iota in R.
  intros A. assert (B : rows_at m' 10 3 2 = [[106; -54]; [99; -19]; [104; 59]]). { etransitivity; [exact A|]. vm_compute. reflexivity. } rewrite R in B. discriminate B.
Qed.

(** rnn_dense with three inputs of different formats. *)
Example rx_dense_ex : let ins := [ (rx_t 0 2 [2; 1] [1; 1], rx_fx, (rx_t 0 2 [2; 2] [2; 1], rx_wfx, list_mem (rx_w 0)));
      (rx_t 2 2 [3] [1], mkQ 1 10 0, (mkTensor 1 16 2 [3; 2] [3; 1] false (-1) 0, rx_wfx, list_mem (rx_w 3))); (rx_t 5 2 [1] [1], rx_fx, (rx_t 0 2 [1; 2] [2; 1], rx_wfx, list_mem (rx_w 7))) ] in
  chk_rnn_dense (map dense_pair ins) (rx_t 0 2 [2] [1]) (rx_t 10 2 [2] [1]) = ST_OK
  /\ Forall (dense_arg_ok RS_fx16 rx_mem (rx_t 10 2 [2] [1]) 2) ins
  /\ (forall i k, hd_error (map (dense_din rx_mem) ins) = Some i -> 0 <= k < 2 ->
        Z.abs (q_bias_add RM_UP true (vi_q (din_vin RM_UP RS_fx16 14 rx_fx None i)) (rd (list_mem (rx_w 9)) (0 + addr [1] [k])) 0) + (let '(_, _, d, _, _) := i in d) * rs_prod RS_fx16 <= smax 64)
  /\ option_map (fun m => vec_at m 10 2) (rnn_dense RM_UP true RS_fx16 14 rx_fx (list_mem (rx_w 9)) ins (rx_t 0 2 [2] [1]) (rx_t 10 2 [2] [1]) rx_mem) = Some [-28126; -25529].
Proof.
  split; [vm_compute; reflexivity|]. split.
  { repeat (apply Forall_cons); try apply Forall_nil; (split; [fits32_tac|split; [fits32_tac|split; [apply rx_backed; vm_compute; congruence|split; [apply list_backed_esz; vm_compute; congruence|]]]]);
      (split; [apply list_bits; vm_compute; reflexivity|]); (split; [discriminate|]); (split; [unfold apart; cbn; lia|vm_compute; congruence]). }
  split; [|vm_compute; reflexivity]. intros i k E Hk. injection E as <-. assert (Ek : k = 0 \/ k = 1) by lia. destruct Ek as [-> | ->]; vm_compute; congruence.
Qed.
