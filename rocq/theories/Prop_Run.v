(** C66: a run of examples/average (average.cpp:295-350). *)
From Coq Require Import Reals List Arith ZArith Lra Lia Bool.
Import ListNotations.
Require Import Verif.Base Verif.RBase Verif.Spec_Full Verif.Model_Full Verif.Model_Average Verif.Spec_Average Verif.Spec_Dump Verif.Spec_Run Verif.Proof_File Verif.Proof_Dump Verif.Proof_Run Verif.Prop_Average2.
Local Open Scope nat_scope.

(** every final time and cycle limit determine the number of cycles *)
Theorem C66_length : forall tfinal stop, exists K, run_length tfinal stop K /\ forall K', run_length tfinal stop K' -> K' = K.
Proof.
  intros tf stop.
  assert (Ex : exists K, run_length tf stop K).
  { induction stop as [|n (K & H1 & H2 & H3)]; [exists 0; split; [lia|split; [intros; lia|left; reflexivity]]|].
    destruct H3 as [->|H3].
    - destruct (Rle_dec tf (time_after n)) as [Le|Gt].
      + destruct n as [|n]; [|exists (S n); split; [lia|split; [exact H2|right; split; [lia|exact Le]]]].
        exists 1. split; [lia|]. split; [intros; lia|left; reflexivity].
      + exists (S n). split; [lia|]. split; [|left; reflexivity]. intros k Hk. destruct (Nat.eq_dec k n) as [->|]; [lra|apply H2; lia].
    - exists K. split; [lia|]. split; [exact H2|right; exact H3]. }
  destruct Ex as (K & HK). exists K. split; [exact HK|]. intros K' HK'. destruct HK as (A1 & A2 & A3), HK' as (B1 & B2 & B3).
  destruct (Nat.lt_trichotomy K K') as [Lt|[Eq|Lt]]; [|congruence|].
  - destruct A3 as [A3|(A3 & A4)]; [lia|]. specialize (B2 K ltac:(lia)). lra.
  - destruct B3 as [B3|(B3 & B4)]; [lia|]. specialize (A2 K' ltac:(lia)). lra.
Qed.
Print Assumptions C66_length.

(** a run of K cycles: the fields are those of K cycles; one dump at the start, one after every v-th cycle that
    ends before the final time, one at the end; dump i shows the cell field of its cycle and lists the times of
    the dumps so far.  The time interval for dumps (graphics_dt_ival) has no influence *)
Theorem C66_run : forall fmt inp sv N X EC EN L Q node mat K, let m := sv_mesh sv in let nn := cm_nodes m in let nc := cm_cells m in
  let n3 := sv_ns sv * sv_ns sv * sv_ns sv in let M := marks (in_tfinal inp) (in_cyc_ival inp) K in
  sound sv N X EC EN L Q -> length node = nn -> length mat = nc -> sv_elems sv * n3 = nc ->
  0 < in_cyc_ival inp -> (0 <= in_dt_ival inp)%R -> (in_tfinal inp <= 10 ^ 8)%R -> run_length (in_tfinal inp) (in_stop inp) K -> length M <= 250 ->
  exists run_ s, (forall k, loop k (fun _ => advance sv) (Run node mat [] 0 (repeat 0%R 250) (10 ^ 8)%R 0%R) = Ok (run_ k)) /\
    simulate fmt inp sv node mat = Ok s /\ ru_node s = ru_node (run_ K) /\ ru_mat s = ru_mat (run_ K) /\ ru_now s = time_after K /\
    ru_dumps s = map (fun i => dumps fmt nn nc n3 N X (val (ru_mat (run_ (nth i M 0)))) i (map time_after (firstn (i + 1) M))) (seq 0 (length M)).
Proof.
  intros fmt inp sv N X EC EN L Q node mat K m nn nc n3 M HS Hn Hm HE Hv Hdt Htf HK HL.
  destruct (simulate_ok fmt inp sv N X EC EN L Q node mat HS Hn Hm HE Hv Hdt Htf K HK HL) as (s & E & A). destruct A as [A1 A2 A3 _ _ _ _ A8].
  exists (plain sv node mat), s. split; [intros k; apply (plain_ok sv N X EC EN L Q node mat HS Hn Hm k)|]. auto.
Qed.
Print Assumptions C66_run.

(** more than 250 dumps: out of bounds *)
Theorem C66_too_many_dumps : forall fmt inp sv N X EC EN L Q node mat K, let m := sv_mesh sv in
  sound sv N X EC EN L Q -> length node = cm_nodes m -> length mat = cm_cells m -> sv_elems sv * (sv_ns sv * sv_ns sv * sv_ns sv) = cm_cells m ->
  0 < in_cyc_ival inp -> (0 <= in_dt_ival inp)%R -> (in_tfinal inp <= 10 ^ 8)%R -> run_length (in_tfinal inp) (in_stop inp) K ->
  250 < length (marks (in_tfinal inp) (in_cyc_ival inp) K) -> simulate fmt inp sv node mat = Err OOB.
Proof. intros fmt inp sv N X EC EN L Q node mat K m HS Hn Hm HE Hv Hdt Htf HK HL. exact (simulate_full fmt inp sv N X EC EN L Q node mat HS Hn Hm HE Hv Hdt Htf K HK HL). Qed.
Print Assumptions C66_too_many_dumps.

(** dump interval 0: division by zero, unless the run ends with or before its first cycle *)
Theorem C66_interval_0 : forall fmt inp sv N X EC EN L Q node mat, let m := sv_mesh sv in
  sound sv N X EC EN L Q -> length node = cm_nodes m -> length mat = cm_cells m -> sv_elems sv * (sv_ns sv * sv_ns sv * sv_ns sv) = cm_cells m ->
  in_cyc_ival inp = 0 -> 0 < in_stop inp -> (1 / 1000 < in_tfinal inp)%R -> simulate fmt inp sv node mat = Err DivZero.
Proof. intros fmt inp sv N X EC EN L Q node mat m. exact (simulate_interval_0 fmt inp sv N X EC EN L Q node mat). Qed.
Print Assumptions C66_interval_0.

(** the shipped input: 500 cycles and 51 dumps, every tenth cycle *)
Lemma shipped_length u : run_length (in_tfinal (shipped_input u)) (in_stop (shipped_input u)) 500.
Proof.
  unfold shipped_input. cbn [in_tfinal in_stop]. split; [change 500 with (Z.to_nat 500); apply Z2Nat.inj_le; lia|]. assert (E : INR 500 = 500%R) by (rewrite INR_IZR_INZ; reflexivity). split.
  - intros k Hk. unfold time_after. assert (INR k < INR 500)%R by (apply lt_INR; lia). lra.
  - right. split; [lia|]. unfold time_after. lra.
Qed.
Lemma shipped_marks : marks (1 / 2) 10 500 = map (fun i => 10 * i) (seq 0 51).
Proof.
  unfold marks. change 500 with (499 + 1) at 1. rewrite due_S. destruct (Rlt_dec (time_after (499 + 1)) (1 / 2)) as [Lt|_].
  { exfalso. unfold time_after in Lt. rewrite INR_IZR_INZ in Lt. change (Z.of_nat (499 + 1)) with 500%Z in Lt. lra. }
  rewrite andb_false_r, app_nil_r.
  assert (E : due (1 / 2) 10 499 = filter (fun k => k mod 10 =? 0) (seq 1 499)).
  { unfold due. apply filter_ext_in. intros k Hk. apply in_seq in Hk. destruct (Rlt_dec (time_after k) (1 / 2)) as [_|N]; [apply andb_true_r|]. exfalso. apply N. unfold time_after.
    assert (INR k < INR 500)%R by (apply lt_INR; lia). assert (INR 500 = 500%R) by (rewrite INR_IZR_INZ; reflexivity). lra. }
  rewrite E. reflexivity.
Qed.
Theorem C66_shipped : forall fmt u sv N X EC EN L Q node mat, let m := sv_mesh sv in let nn := cm_nodes m in let nc := cm_cells m in let n3 := sv_ns sv * sv_ns sv * sv_ns sv in
  sound sv N X EC EN L Q -> length node = nn -> length mat = nc -> sv_elems sv * n3 = nc ->
  exists run_ s, (forall k, loop k (fun _ => advance sv) (Run node mat [] 0 (repeat 0%R 250) (10 ^ 8)%R 0%R) = Ok (run_ k)) /\
    simulate fmt (shipped_input u) sv node mat = Ok s /\ ru_node s = ru_node (run_ 500) /\ ru_mat s = ru_mat (run_ 500) /\ ru_now s = (1 / 2)%R /\
    ru_dumps s = map (fun i => dumps fmt nn nc n3 N X (val (ru_mat (run_ (10 * i)))) i (map (fun j => INR j / 100)%R (seq 0 (i + 1)))) (seq 0 51).
Proof.
  intros fmt u sv N X EC EN L Q node mat m nn nc n3 HS Hn Hm HE.
  assert (EM : marks (in_tfinal (shipped_input u)) (in_cyc_ival (shipped_input u)) 500 = map (fun i => 10 * i) (seq 0 51)) by exact shipped_marks.
  destruct (C66_run fmt (shipped_input u) sv N X EC EN L Q node mat 500 HS Hn Hm HE) as (run_ & s & R1 & E & R2 & R3 & R4 & R5).
  - cbn [in_cyc_ival shipped_input]. lia.
  - cbn [in_dt_ival shipped_input]. lra.
  - cbn [in_tfinal shipped_input]. lra.
  - apply shipped_length.
  - rewrite EM, map_length, seq_length. lia.
  - exists run_, s. split; [exact R1|]. split; [exact E|]. split; [exact R2|]. split; [exact R3|]. split; [rewrite R4; unfold time_after; rewrite INR_IZR_INZ; change (Z.of_nat 500) with 500%Z; lra|].
    rewrite R5, EM, map_length, seq_length. apply map_ext_in. intros i Hi. apply in_seq in Hi.
    assert (G : nth i (map (fun i => 10 * i) (seq 0 51)) 0 = 10 * i).
    { assert (G := map_nth (fun i => 10 * i) (seq 0 51) 0 i). rewrite seq_nth in G by lia. exact G. }
    rewrite G.
    assert (F : map time_after (firstn (i + 1) (map (fun i => 10 * i) (seq 0 51))) = map (fun j => INR j / 100)%R (seq 0 (i + 1))).
    { rewrite firstn_map, map_map. replace (firstn (i + 1) (seq 0 51)) with (seq 0 (i + 1)).
      - apply map_ext. intros j. unfold time_after. rewrite mult_INR. replace (INR 10) with 10%R by (rewrite INR_IZR_INZ; reflexivity). lra.
      - replace 51 with ((i + 1) + (50 - i)) by lia. rewrite (seq_app (i + 1) (50 - i) 0), firstn_app, seq_length. replace (i + 1 - (i + 1)) with 0 by lia. rewrite firstn_O, app_nil_r, firstn_all2 by (rewrite seq_length; lia). reflexivity. }
    rewrite F. reflexivity.
Qed.
Print Assumptions C66_shipped.

(** two boxes refined at order 1 meet the hypotheses of the theorems above: every final time and cycle limit
    with at most 250 dumps, more than 250 dumps, interval 0 *)
Example C66_run_nonvacuous : exists sv N X EC EN L Q node mat, let m := sv_mesh sv in
  sound sv N X EC EN L Q /\ length node = cm_nodes m /\ length mat = cm_cells m /\ sv_elems sv * (sv_ns sv * sv_ns sv * sv_ns sv) = cm_cells m /\ cm_cells m = 16 /\
  forall fmt u, exists s, simulate fmt (shipped_input u) sv node mat = Ok s /\ length (ru_dumps s) = 51.
Proof.
  destruct C62_sound_nonvacuous as (sv & N & X & EC & EN & L & Q & HS & E1 & E2 & E3).
  exists sv, N, X, EC, EN, L, Q, (repeat 0%R (cm_nodes (sv_mesh sv))), (repeat 0%R (cm_cells (sv_mesh sv))). cbv zeta.
  split; [exact HS|]. split; [apply repeat_length|]. split; [apply repeat_length|]. split; [rewrite E1, E2, E3; reflexivity|]. split; [rewrite E3; reflexivity|].
  intros fmt u. destruct (C66_shipped fmt u sv N X EC EN L Q (repeat 0%R (cm_nodes (sv_mesh sv))) (repeat 0%R (cm_cells (sv_mesh sv))) HS (repeat_length _ _) (repeat_length _ _)) as (run_ & s & _ & E & _ & _ & _ & Ed).
  - rewrite E1, E2, E3. reflexivity.
  - exists s. split; [exact E|]. rewrite Ed, map_length, seq_length. reflexivity.
Qed.
Definition often (fills : list fill) (v : nat) : input := Input 1 300 1 v 0 fills [].
Example C66_too_many_dumps_nonvacuous : forall fmt, exists sv node mat, simulate fmt (often [] 1) sv node mat = Err OOB.
Proof.
  intros fmt. destruct C66_run_nonvacuous as (sv & N & X & EC & EN & L & Q & node & mat & HS & Hn & Hm & He & _). exists sv, node, mat.
  apply (C66_too_many_dumps fmt (often [] 1) sv N X EC EN L Q node mat 300 HS Hn Hm He); cbn [often in_cyc_ival in_dt_ival in_tfinal in_stop]; [lia|lra|lra| |].
  - split; [lia|]. split; [|left; reflexivity]. intros k Hk. unfold time_after. assert (INR k < INR 300)%R by (apply lt_INR; lia). assert (INR 300 = 300%R) by (rewrite INR_IZR_INZ; reflexivity). lra.
  - unfold marks, due. rewrite (filter_ext_in _ (fun _ => true)).
    + apply Nat.ltb_lt. reflexivity.
    + intros k Hk. apply in_seq in Hk. destruct (Rlt_dec (time_after k) 1) as [_|F]; [rewrite Nat.mod_1_r; reflexivity|]. exfalso. apply F. unfold time_after.
      assert (INR k < INR 301)%R by (apply lt_INR; lia). assert (INR 301 = 301%R) by (rewrite INR_IZR_INZ; reflexivity). lra.
Qed.
Example C66_interval_0_nonvacuous : forall fmt, exists sv node mat, simulate fmt (often [] 0) sv node mat = Err DivZero.
Proof.
  intros fmt. destruct C66_run_nonvacuous as (sv & N & X & EC & EN & L & Q & node & mat & HS & Hn & Hm & He & _). exists sv, node, mat.
  apply (C66_interval_0 fmt (often [] 0) sv N X EC EN L Q node mat HS Hn Hm He); cbn [often in_cyc_ival in_stop in_tfinal]; [reflexivity|lia|lra].
Qed.
