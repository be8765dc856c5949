(** C81: a run of examples/average in rounded arithmetic (average.cpp:285-350). *)
From Coq Require Import Reals List Arith ZArith Lra Lia Bool.
Import ListNotations.
Require Import Verif.Base Verif.RBase Verif.Spec_Full Verif.Model_Full Verif.Model_Average Verif.Spec_Average Verif.Spec_Dump Verif.Spec_Run Verif.Proof_Dump Verif.Proof_Average5 Verif.Prop_Average2 Verif.Prop_Run
  Verif.Spec_Float Verif.Float_Base Verif.Spec_FloatGeom Verif.Spec_FloatAverage Verif.Model_FloatAverage Verif.Proof_FloatAverage Verif.Proof_FloatAverage3 Verif.Prop_FloatAverage Verif.Spec_FloatRun Verif.Proof_FloatRun Verif.Proof_FloatRun2.
Local Open Scope nat_scope.

(** whatever the clock shows, every final time and cycle limit determine the number of cycles; with the exact
    clock it is the number of C66 *)
Theorem C81_length : forall T tfinal stop, (exists K, run_length_at T tfinal stop K /\ forall K', run_length_at T tfinal stop K' -> K' = K) /\
  forall K, run_length_at time_after tfinal stop K <-> run_length tfinal stop K.
Proof.
  intros T tf stop. split; [|intros K; reflexivity]. destruct (run_length_ex T tf stop) as (K & HK). exists K. split; [exact HK|]. intros K' HK'. exact (run_length_unique T tf stop K K' HK HK').
Qed.
Print Assumptions C81_length.

(** the clock: 1/1000 is rounded, then every sum *)
Theorem C81_clock : forall u rnd k, (0 <= u < 1)%R -> rounds u rnd -> (INR (k + 1) * u < 1)%R -> (Rabs (clock rnd k - INR k / 1000) <= gamma u (k + 1) * (INR k / 1000))%R.
Proof. intros u rnd k Hu Hr Hk. exact (clock_err u rnd Hu Hr k Hk). Qed.
Print Assumptions C81_clock.

(** a run of K cycles, K counted with the rounded clock: the fields are those of K cycles in rounded arithmetic;
    one dump at the start, one after every v-th cycle that ends before the final time, one at the end; dump i
    shows the cell field of its cycle and lists the rounded times of the dumps so far.  The time interval for
    dumps has no influence *)
Theorem C81_run : forall u rnd fmt inp sv N X EC EN L Q node mat K, let m := sv_mesh sv in let nn := cm_nodes m in let nc := cm_cells m in
  let n3 := sv_ns sv * sv_ns sv * sv_ns sv in let M := marks_at (clock rnd) (in_tfinal inp) (in_cyc_ival inp) K in
  (0 <= u < 1)%R -> rounds u rnd -> monotone rnd -> rnd (10 ^ 8)%R = (10 ^ 8)%R ->
  sound sv N X EC EN L Q -> length node = nn -> length mat = nc -> sv_elems sv * n3 = nc ->
  0 < in_cyc_ival inp -> (0 <= in_dt_ival inp)%R -> (in_tfinal inp <= 10 ^ 8)%R -> run_length_at (clock rnd) (in_tfinal inp) (in_stop inp) K -> length M <= 250 ->
  exists run_ s, (forall k, loop k (fun _ => advancef rnd sv) (Run node mat [] 0 (repeat 0%R 250) (10 ^ 8)%R 0%R) = Ok (run_ k)) /\
    simulatef rnd fmt inp sv node mat = Ok s /\ ru_node s = ru_node (run_ K) /\ ru_mat s = ru_mat (run_ K) /\ ru_now s = clock rnd K /\
    ru_dumps s = map (fun i => dumps fmt nn nc n3 N X (val (ru_mat (run_ (nth i M 0)))) i (map (clock rnd) (firstn (i + 1) M))) (seq 0 (length M)).
Proof.
  intros u rnd fmt inp sv N X EC EN L Q node mat K m nn nc n3 M Hu Hr Hmo H8 HS Hn Hm HE Hv Hdt Htf HK HL. destruct (C80_lists sv N X (so_mesh _ _ _ _ _ _ _ HS)) as (A & HA & _).
  assert (R1 : forall x, (x < 0)%R -> (rnd x < 0)%R) by (intros x Hx; destruct (Hr x) as (d & Hd & ->); apply Rabs_in in Hd; nra).
  assert (R2 : forall x, (10 ^ 8 <= x)%R -> (10 ^ 8 <= rnd x)%R) by (intros x Hx; rewrite <- H8; apply Hmo; exact Hx).
  destruct (simulate_ok rnd fmt inp sv N X EC EN L A Q node mat HS HA Hn Hm HE R1 R2 Hv Hdt Htf K HK HL) as (s & E & B). destruct B as [A1 A2 A3 _ _ _ _ A8].
  exists (plain rnd sv node mat), s. split; [intros k; apply (plain_ok rnd sv N X EC EN L A Q node mat HS HA Hn Hm k)|]. auto.
Qed.
Print Assumptions C81_run.

(** more than 250 dumps: out of bounds *)
Theorem C81_too_many_dumps : forall u rnd fmt inp sv N X EC EN L Q node mat K, let m := sv_mesh sv in
  (0 <= u < 1)%R -> rounds u rnd -> monotone rnd -> rnd (10 ^ 8)%R = (10 ^ 8)%R ->
  sound sv N X EC EN L Q -> length node = cm_nodes m -> length mat = cm_cells m -> sv_elems sv * (sv_ns sv * sv_ns sv * sv_ns sv) = cm_cells m ->
  0 < in_cyc_ival inp -> (0 <= in_dt_ival inp)%R -> (in_tfinal inp <= 10 ^ 8)%R -> run_length_at (clock rnd) (in_tfinal inp) (in_stop inp) K ->
  250 < length (marks_at (clock rnd) (in_tfinal inp) (in_cyc_ival inp) K) -> simulatef rnd fmt inp sv node mat = Err OOB.
Proof.
  intros u rnd fmt inp sv N X EC EN L Q node mat K m Hu Hr Hmo H8 HS Hn Hm HE Hv Hdt Htf HK HL. destruct (C80_lists sv N X (so_mesh _ _ _ _ _ _ _ HS)) as (A & HA & _).
  assert (R1 : forall x, (x < 0)%R -> (rnd x < 0)%R) by (intros x Hx; destruct (Hr x) as (d & Hd & ->); apply Rabs_in in Hd; nra).
  assert (R2 : forall x, (10 ^ 8 <= x)%R -> (10 ^ 8 <= rnd x)%R) by (intros x Hx; rewrite <- H8; apply Hmo; exact Hx).
  exact (simulate_full rnd fmt inp sv N X EC EN L A Q node mat HS HA Hn Hm HE R1 R2 Hv Hdt Htf K HK HL).
Qed.
Print Assumptions C81_too_many_dumps.

(** dump interval 0: division by zero, unless the run ends with or before its first cycle *)
Theorem C81_interval_0 : forall rnd fmt inp sv N X EC EN L Q node mat, let m := sv_mesh sv in
  sound sv N X EC EN L Q -> length node = cm_nodes m -> length mat = cm_cells m -> sv_elems sv * (sv_ns sv * sv_ns sv * sv_ns sv) = cm_cells m ->
  in_cyc_ival inp = 0 -> 0 < in_stop inp -> (clock rnd 1 < in_tfinal inp)%R -> simulatef rnd fmt inp sv node mat = Err DivZero.
Proof.
  intros rnd fmt inp sv N X EC EN L Q node mat m HS. destruct (C80_lists sv N X (so_mesh _ _ _ _ _ _ _ HS)) as (A & HA & _).
  exact (simulate_interval_0 rnd fmt inp sv N X EC EN L A Q node mat HS HA).
Qed.
Print Assumptions C81_interval_0.

(** the number of cycles in binary64 differs by at most one from the exact one (up to 90 million cycles) *)
Theorem C81_cycles : forall tfinal stop K K', (Z.of_nat stop <= 90000000)%Z -> run_length tfinal stop K -> run_length_at (clock binary64) tfinal stop K' -> K <= K' + 1 /\ K' <= K + 1.
Proof.
  intros tf stop K K' Hst (A1 & A2 & A3) (B1 & B2 & B3).
  assert (St : forall k, time_after (k + 1) = (time_after k + 1 / 1000)%R) by (intros k; unfold time_after; rewrite plus_INR; cbn [INR]; lra).
  assert (Near : forall k, k <= stop -> (Rabs (clock binary64 k - time_after k) <= 9 / 10 / 1000)%R) by (intros k Hk; apply clock_near; lia).
  split; apply Nat.nlt_ge; intros Hlt.
  - destruct B3 as [B3|(B3 & B4)]; [lia|]. specialize (A2 (K' + 1) ltac:(lia)). rewrite St in A2. assert (Z := Near K' ltac:(lia)). apply Rabs_in in Z. lra.
  - destruct A3 as [A3|(A3 & A4)]; [lia|]. specialize (B2 (K + 1) ltac:(lia)). assert (Z := Near (K + 1) ltac:(lia)). rewrite St in Z. apply Rabs_in in Z. lra.
Qed.
Print Assumptions C81_cycles.

(** a final time of n milliseconds, stored in binary64: n or n + 1 cycles.  0.5: 500 cycles; 1.008: 1009 *)
Theorem C81_milliseconds : forall n stop K, 0 < n -> (Z.of_nat n < 90000000)%Z -> n < stop -> run_length_at (clock binary64) (binary64 (INR n / 1000)) stop K -> K = n \/ K = n + 1.
Proof.
  intros n stop K Hn Hn' Hst (B1 & B2 & B3).
  assert (St : forall k, time_after (k + 1) = (time_after k + 1 / 1000)%R) by (intros k; unfold time_after; rewrite plus_INR; cbn [INR]; lra).
  assert (Pn : (0 <= INR n / 1000 <= 90000)%R).
  { assert (Z := pos_INR n). assert (INR n <= 90000000)%R by (rewrite INR_IZR_INZ; apply IZR_le; lia). lra. }
  assert (D := b64_near (INR n / 1000) (proj1 Pn)). apply Rabs_in in D. assert (Eu : (u64 * (INR n / 1000) <= 1 / 100000)%R).
  { assert (U : (u64 <= / 2 ^ 34)%R). { unfold u64. apply Rinv_le_contravar; [apply pow_lt; lra|]. apply Rle_pow; [lra|lia]. } assert (2 ^ 34 = 17179869184)%R by (rewrite pow_IZR; reflexivity). assert (W := u64_range).
    apply Rle_trans with (/ 17179869184 * 90000)%R; [apply Rmult_le_compat; lra|lra]. }
  fold (time_after n) in *.
  assert (Lo : n <= K).
  { apply Nat.nlt_ge. intros Hlt. destruct B3 as [B3|(B3 & B4)]; [lia|]. assert (Z := clock_near K ltac:(lia)). apply Rabs_in in Z.
    assert (time_after (K + 1) <= time_after n)%R by (unfold time_after; apply Rmult_le_compat_r; [lra|]; apply le_INR; lia). rewrite St in H. lra. }
  assert (Hi : K <= n + 1).
  { apply Nat.nlt_ge. intros Hlt. specialize (B2 (n + 1) ltac:(lia)). assert (Z := clock_near (n + 1) ltac:(lia)). rewrite St in Z. apply Rabs_in in Z. lra. }
  lia.
Qed.
Print Assumptions C81_milliseconds.
Lemma clock_up k : (clock binary64 k <= clock binary64 (S k))%R.
Proof.
  cbn [clock]. assert (P : (0 <= binary64 (1 / 1000))%R) by (rewrite <- b64_0; apply b64_mono; lra).
  assert (I : binary64 (clock binary64 k) = clock binary64 k) by (destruct k as [|k]; [exact b64_0|apply b64_idem]). rewrite <- I at 1. apply b64_mono. lra.
Qed.
Lemma clock_up_to j k : j <= k -> (clock binary64 j <= clock binary64 k)%R.
Proof. induction 1 as [|k H IH]; [lra|]. assert (Z := clock_up k). lra. Qed.
Theorem C81_late : forall stop, 1009 <= stop -> run_length_at (clock binary64) (binary64 (1008 / 1000)) stop 1009 /\ run_length (1008 / 1000)%R stop 1008 /\
  run_length_at (clock binary64) (1 / 2)%R stop 500.
Proof.
  intros stop Hst. split; [|split].
  - split; [exact Hst|]. split.
    + intros k Hk. eapply Rle_lt_trans; [apply (clock_up_to k 1008); lia|exact clock_1008].
    + right. split; [lia|]. assert (Z := clock_near 1009 ltac:(lia)). apply Rabs_in in Z. unfold time_after in Z.
      assert (D := b64_near (1008 / 1000) ltac:(lra)). apply Rabs_in in D. assert (E : INR 1009 = 1009%R) by (rewrite INR_IZR_INZ; reflexivity).
      assert (U : (u64 <= / 2 ^ 34)%R). { unfold u64. apply Rinv_le_contravar; [apply pow_lt; lra|]. apply Rle_pow; [lra|lia]. } assert (2 ^ 34 = 17179869184)%R by (rewrite pow_IZR; reflexivity). lra.
  - split; [lia|]. split.
    + intros k Hk. unfold time_after. assert (INR k < INR 1008)%R by (apply lt_INR; lia). assert (E : INR 1008 = 1008%R) by (rewrite INR_IZR_INZ; reflexivity). lra.
    + right. split; [lia|]. unfold time_after. assert (E : INR 1008 = 1008%R) by (rewrite INR_IZR_INZ; reflexivity). lra.
  - split; [lia|]. split.
    + intros k Hk. assert (Z := clock_near k ltac:(lia)). apply Rabs_in in Z. unfold time_after in Z. assert (INR (k + 1) <= INR 500)%R by (apply le_INR; lia). rewrite plus_INR in H. cbn [INR] in H. assert (E : INR 500 = 500%R) by (rewrite INR_IZR_INZ; reflexivity). lra.
    + right. split; [lia|exact clock_500].
Qed.
Print Assumptions C81_late.

(** the shipped input in binary64: 500 cycles and 51 dumps, every tenth cycle, as in exact arithmetic; the time
    listed for dump j is off by less than 3 * 10^-14 *)
Lemma shipped_marks_at : marks_at (clock binary64) (1 / 2) 10 500 = map (fun i => 10 * i) (seq 0 51).
Proof.
  unfold marks_at. change 500 with (499 + 1) at 1. rewrite due_S. destruct (Rlt_dec (clock binary64 (499 + 1)) (1 / 2)) as [Lt|_].
  { exfalso. assert (Z := clock_500). change (499 + 1) with 500 in Lt. lra. }
  rewrite andb_false_r, app_nil_r.
  assert (E : due_at (clock binary64) (1 / 2) 10 499 = filter (fun k => k mod 10 =? 0) (seq 1 499)).
  { unfold due_at. apply filter_ext_in. intros k Hk. apply in_seq in Hk. destruct (Rlt_dec (clock binary64 k) (1 / 2)) as [_|N]; [apply andb_true_r|]. exfalso. apply N.
    apply (proj1 (proj2 (proj2 (proj2 (C81_late 1009 (le_n _)))))). lia. }
  rewrite E. reflexivity.
Qed.
Lemma shipped_limit u : 1009 <= in_stop (shipped_input u).
Proof. unfold shipped_input. cbn [in_stop]. change 1009 with (Z.to_nat 1009). apply Z2Nat.inj_le; lia. Qed.
Theorem C81_shipped : forall fmt u sv N X EC EN L Q node mat, let m := sv_mesh sv in let nn := cm_nodes m in let nc := cm_cells m in let n3 := sv_ns sv * sv_ns sv * sv_ns sv in
  sound sv N X EC EN L Q -> length node = nn -> length mat = nc -> sv_elems sv * n3 = nc ->
  exists run_ s t, (forall k, loop k (fun _ => advancef binary64 sv) (Run node mat [] 0 (repeat 0%R 250) (10 ^ 8)%R 0%R) = Ok (run_ k)) /\
    simulatef binary64 fmt (shipped_input u) sv node mat = Ok s /\ ru_node s = ru_node (run_ 500) /\ ru_mat s = ru_mat (run_ 500) /\ ru_now s = t 50 /\
    ru_dumps s = map (fun i => dumps fmt nn nc n3 N X (val (ru_mat (run_ (10 * i)))) i (map t (seq 0 (i + 1)))) (seq 0 51) /\
    forall j, j <= 50 -> (Rabs (t j - INR j / 100) <= 3 / 10 ^ 14)%R.
Proof.
  intros fmt u sv N X EC EN L Q node mat m nn nc n3 HS Hn Hm HE.
  assert (EM : marks_at (clock binary64) (in_tfinal (shipped_input u)) (in_cyc_ival (shipped_input u)) 500 = map (fun i => 10 * i) (seq 0 51)) by exact shipped_marks_at.
  destruct (C81_run u64 binary64 fmt (shipped_input u) sv N X EC EN L Q node mat 500) as (run_ & s & R1 & E & R2 & R3 & R4 & R5); try assumption.
  - assert (Z := u64_range). lra.
  - exact binary64_rounds.
  - exact b64_mono.
  - exact b64_e8.
  - cbn [in_cyc_ival shipped_input]. lia.
  - cbn [in_dt_ival shipped_input]. lra.
  - cbn [in_tfinal shipped_input]. lra.
  - exact (proj2 (proj2 (C81_late _ (shipped_limit u)))).
  - rewrite EM, map_length, seq_length. lia.
  - exists run_, s, (fun j => clock binary64 (10 * j)). split; [exact R1|]. split; [exact E|]. split; [exact R2|]. split; [exact R3|]. split; [exact R4|]. split.
    + rewrite R5, EM, map_length, seq_length. apply map_ext_in. intros i Hi. apply in_seq in Hi.
      assert (G : nth i (map (fun i => 10 * i) (seq 0 51)) 0 = 10 * i).
      { assert (G := map_nth (fun i => 10 * i) (seq 0 51) 0 i). rewrite seq_nth in G by lia. exact G. }
      rewrite G. f_equal.
      rewrite firstn_map, map_map. f_equal.
      replace 51 with ((i + 1) + (50 - i)) by lia. rewrite (seq_app (i + 1) (50 - i) 0), firstn_app, seq_length. replace (i + 1 - (i + 1)) with 0 by lia. rewrite firstn_O, app_nil_r, firstn_all2 by (rewrite seq_length; lia). reflexivity.
    + intros j Hj. assert (Et : (INR j / 100)%R = time_after (10 * j)) by (unfold time_after; rewrite mult_INR; replace (INR 10) with 10%R by (rewrite INR_IZR_INZ; reflexivity); lra). rewrite Et.
      assert (U := u64_range). assert (Eu : u64 = (/ 9007199254740992)%R) by (unfold u64; replace (2 ^ 53)%R with 9007199254740992%R by (rewrite pow_IZR; reflexivity); reflexivity).
      assert (Bj : (INR (10 * j) <= 500)%R) by (rewrite INR_IZR_INZ; apply IZR_le; lia). assert (Pj := pos_INR (10 * j)).
      assert (S1 : (0 <= INR (10 * j + 1) * u64 <= 501 / 9007199254740992)%R) by (rewrite plus_INR, Eu; cbn [INR]; lra).
      eapply Rle_trans; [apply (clock_err u64 binary64 ltac:(lra) binary64_rounds); lra|]. unfold gamma. set (t := (INR (10 * j + 1) * u64)%R) in *.
      assert (G : (t / (1 - t) <= 502 / 9007199254740992)%R).
      { apply (Rmult_le_reg_r (1 - t)); [lra|]. replace (t / (1 - t) * (1 - t))%R with t by (field; lra). nra. }
      assert (T : (0 <= time_after (10 * j) <= 1 / 2)%R) by (unfold time_after; lra).
      apply Rle_trans with (502 / 9007199254740992 * (1 / 2))%R; [apply Rmult_le_compat; try lra; apply Rmult_le_pos; [lra|apply Rlt_le, Rinv_0_lt_compat; lra]|lra].
Qed.
Print Assumptions C81_shipped.

(** meshes that meet the hypotheses *)
Example C81_run_nonvacuous : exists sv N X EC EN L Q node mat, let m := sv_mesh sv in
  sound sv N X EC EN L Q /\ length node = cm_nodes m /\ length mat = cm_cells m /\ sv_elems sv * (sv_ns sv * sv_ns sv * sv_ns sv) = cm_cells m /\ cm_cells m = 16 /\
  forall fmt u, exists s, simulatef binary64 fmt (shipped_input u) sv node mat = Ok s /\ length (ru_dumps s) = 51.
Proof.
  destruct C66_run_nonvacuous as (sv & N & X & EC & EN & L & Q & node & mat & HS & Hn & Hm & He & E16 & _).
  exists sv, N, X, EC, EN, L, Q, node, mat. cbv zeta. repeat (split; [assumption|]).
  intros fmt u. destruct (C81_shipped fmt u sv N X EC EN L Q node mat HS Hn Hm He) as (run_ & s & t & _ & E & _ & _ & _ & Ed & _).
  exists s. split; [exact E|]. rewrite Ed, map_length, seq_length. reflexivity.
Qed.
Example C81_late_nonvacuous : exists stop K K', run_length (1008 / 1000)%R stop K /\ run_length_at (clock binary64) (binary64 (1008 / 1000)) stop K' /\ K' = K + 1.
Proof. exists 2000, 1008, 1009. destruct (C81_late 2000 ltac:(lia)) as (A & B & _). split; [exact B|]. split; [exact A|reflexivity]. Qed.
Lemma often_before k : k <= 300 -> (clock binary64 k < 1)%R.
Proof.
  intros Hk. assert (Z := clock_near k ltac:(lia)). apply Rabs_in in Z. unfold time_after in Z. assert (H : (INR k <= INR 300)%R) by (apply le_INR; lia). assert (E : INR 300 = 300%R) by (rewrite INR_IZR_INZ; reflexivity). lra.
Qed.
Example C81_too_many_dumps_nonvacuous : forall fmt, exists sv node mat, simulatef binary64 fmt (often [] 1) sv node mat = Err OOB.
Proof.
  intros fmt. destruct C66_run_nonvacuous as (sv & N & X & EC & EN & L & Q & node & mat & HS & Hn & Hm & He & _). exists sv, node, mat. assert (U := u64_range).
  apply (C81_too_many_dumps u64 binary64 fmt (often [] 1) sv N X EC EN L Q node mat 300 ltac:(lra) binary64_rounds b64_mono b64_e8 HS Hn Hm He); cbn [often in_cyc_ival in_dt_ival in_tfinal in_stop]; [lia|lra|lra| |].
  - split; [lia|]. split; [|left; reflexivity]. intros k Hk. apply often_before. lia.
  - unfold marks_at, due_at. rewrite (filter_ext_in _ (fun _ => true)).
    + apply Nat.ltb_lt. reflexivity.
    + intros k Hk. apply in_seq in Hk. destruct (Rlt_dec (clock binary64 k) 1) as [_|F]; [rewrite Nat.mod_1_r; reflexivity|]. exfalso. apply F, often_before. lia.
Qed.
Example C81_interval_0_nonvacuous : forall fmt, exists sv node mat, simulatef binary64 fmt (often [] 0) sv node mat = Err DivZero.
Proof.
  intros fmt. destruct C66_run_nonvacuous as (sv & N & X & EC & EN & L & Q & node & mat & HS & Hn & Hm & He & _). exists sv, node, mat.
  apply (C81_interval_0 binary64 fmt (often [] 0) sv N X EC EN L Q node mat HS Hn Hm He); cbn [often in_cyc_ival in_stop in_tfinal]; [reflexivity|lia|apply often_before; lia].
Qed.
