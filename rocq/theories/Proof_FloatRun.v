(** The cycle loop of examples/average in rounded arithmetic (C81). *)
From Coq Require Import Reals List Arith ZArith Lra Lia Bool.
Import ListNotations.
Require Import Verif.Base Verif.RBase Verif.Spec_Full Verif.Model_Full Verif.Model_Average Verif.Spec_Average Verif.Spec_Dump Verif.Proof_File Verif.Proof_Dump Verif.Proof_Average5
  Verif.Spec_Float Verif.Spec_FloatGeom Verif.Spec_FloatAverage Verif.Model_FloatAverage Verif.Proof_FloatAverage Verif.Spec_FloatRun.
Local Open Scope nat_scope.

Lemma due_S T tfinal v k : due_at T tfinal v (k + 1) = due_at T tfinal v k ++ (if ((k + 1) mod v =? 0) && (if Rlt_dec (T (k + 1)) tfinal then true else false) then [k + 1] else []).
Proof.
  unfold due_at. rewrite Nat.add_1_r at 1. rewrite seq_S, filter_app. cbn [filter Nat.add]. rewrite Nat.add_1_r. reflexivity.
Qed.
Lemma due_mono T tfinal v k w : length (due_at T tfinal v k) <= length (due_at T tfinal v (k + w)).
Proof. induction w as [|w IH]; [rewrite Nat.add_0_r; lia|]. replace (k + S w) with (k + w + 1) by lia. rewrite due_S, app_length. lia. Qed.

Section Run.
  Variables (rnd : R -> R) (fmt : R -> R) (inp : input) (sv : solver) (N : nat -> nat -> nat) (X : nat -> nat -> R) (EC EN : nat -> nat -> nat) (L : nat -> list nat) (Ar : nat -> list nat) (Q : nat -> nat -> nat).
  Variables (node mat : list R).
  Let m := sv_mesh sv.
  Let nn := cm_nodes m.
  Let nc := cm_cells m.
  Let K3 := sv_ns sv * sv_ns sv * sv_ns sv.
  Let v := in_cyc_ival inp.
  Let tf := in_tfinal inp.
  Hypotheses (HS : sound sv N X EC EN L Q) (HAr : lists_around sv Ar) (Hn : length node = nn) (Hm : length mat = nc) (HE : sv_elems sv * K3 = nc).

  Let HM : cdescribes m N X := ms_cells _ _ _ (so_mesh _ _ _ _ _ _ _ HS).
  Definition start : run := Run node mat [] 0 (repeat 0%R 250) (10 ^ 8)%R 0%R.
  (** the fields after k cycles, without dumps *)
  Definition plain (k : nat) : run := match loop k (fun _ => advancef rnd sv) start with Ok s => s | Err _ => start end.
  Lemma plain_ok k : loop k (fun _ => advancef rnd sv) start = Ok (plain k) /\ length (ru_node (plain k)) = nn /\ length (ru_mat (plain k)) = nc.
  Proof. destruct (advancesf_ok rnd sv N X EC EN L Q Ar HS HAr k start Hn Hm) as (s & E & A1 & A2 & _). unfold plain. rewrite E. auto. Qed.
  Lemma plain_S k : advancef rnd sv (plain k) = Ok (plain (S k)).
  Proof.
    destruct (plain_ok k) as (E & _). destruct (plain_ok (S k)) as (E' & _). rewrite loop_succ, E in E'. exact E'.
  Qed.
  (** advance only looks at the fields *)
  Lemma advance_fields s s' : ru_node s = ru_node s' -> ru_mat s = ru_mat s' -> advancef rnd sv s =
    do s2 <- advancef rnd sv s'; Ok (Run (ru_node s2) (ru_mat s2) (ru_dumps s) (ru_id s) (ru_times s) (ru_next s) (rnd (ru_now s + rnd (1 / 1000)))%R).
  Proof.
    intros E1 E2. unfold advancef. rewrite E1, E2. destruct (smooth_elementf rnd sv (ru_node s', ru_mat s')) as [[a b]|e]; [|reflexivity]. cbn [bind].
    destruct (apply_boundary sv a) as [a'|e]; reflexivity.
  Qed.

  (** after k cycles, with the dumps of the marks M *)
  Definition dumped (M : list nat) : list dump :=
    map (fun i => dumps fmt nn nc K3 N X (val (ru_mat (plain (nth i M 0)))) i (map (clock rnd) (firstn (i + 1) M))) (seq 0 (length M)).
  Record at_ (k : nat) (M : list nat) (s : run) : Prop := {
    at_node : ru_node s = ru_node (plain k); at_mat : ru_mat s = ru_mat (plain k); at_dumps : ru_dumps s = dumped M; at_id : ru_id s = length M;
    at_len : length (ru_times s) = 250; at_times : firstn (length M) (ru_times s) = map (clock rnd) M; at_next : (10 ^ 8 <= ru_next s)%R; at_now : ru_now s = (clock rnd) k }.
  Lemma dumped_app M k : dumped (M ++ [k]) = dumped M ++ [dumps fmt nn nc K3 N X (val (ru_mat (plain k))) (length M) (map (clock rnd) (M ++ [k]))].
  Proof.
    unfold dumped. rewrite app_length. cbn [length]. rewrite Nat.add_1_r, seq_S, map_app. cbn [map Nat.add]. f_equal.
    - apply map_ext_in. intros i Hi. apply in_seq in Hi. rewrite app_nth1 by lia. rewrite firstn_app. replace (i + 1 - length M) with 0 by lia. rewrite firstn_O, app_nil_r. reflexivity.
    - f_equal. rewrite app_nth2, Nat.sub_diag by lia. cbn [nth]. rewrite firstn_all2 by (rewrite app_length; cbn; lia). reflexivity.
  Qed.
  Lemma write_ok k M s : at_ k M s -> length M < 250 -> exists s', write_dump fmt sv s = Ok s' /\ at_ k (M ++ [k]) s'.
  Proof.
    intros [A1 A2 A3 A4 A5 A6 A7 A8] HL. destruct (plain_ok k) as (_ & _ & B). unfold write_dump.
    rewrite (ensight_ok fmt sv N X (ru_mat s) HM) by (rewrite ?A2, ?A4, ?A5; assumption). cbn [bind].
    eexists. split; [reflexivity|]. rewrite A4, A6, A8. split; cbn [ru_node ru_mat ru_dumps ru_id ru_times ru_next ru_now]; try assumption.
    - rewrite A2, A3, dumped_app, map_app. reflexivity.
    - rewrite app_length. reflexivity.
    - rewrite app_length, map_length. cbn [length]. rewrite skipn_length. lia.
    - rewrite app_length, map_app. cbn [length map]. rewrite firstn_app, map_length. replace (length M + 1 - length M) with 1 by lia. rewrite firstn_cons, firstn_O, firstn_all2 by (rewrite map_length; lia). reflexivity.
    - exact eq_refl.
  Qed.
  Lemma write_full k M s : at_ k M s -> 250 <= length M -> write_dump fmt sv s = Err OOB.
  Proof.
    intros [A1 A2 A3 A4 A5 A6 A7 A8] HL. destruct (plain_ok k) as (_ & _ & B). unfold write_dump.
    rewrite (ensight_full fmt sv N X (ru_mat s) HM) by (rewrite ?A2, ?A4, ?A5; assumption). reflexivity.
  Qed.
  Lemma at_start : at_ 0 [] start.
  Proof. split; try reflexivity; cbn [ru_times ru_next ru_now start]; first [lra|reflexivity]. Qed.
  Lemma advance_at k M s : at_ k M s -> exists s', advancef rnd sv s = Ok s' /\ at_ (k + 1) M s'.
  Proof.
    intros [A1 A2 A3 A4 A5 A6 A7 A8]. rewrite (advance_fields s (plain k) A1 A2), plain_S. cbn [bind]. eexists. split; [reflexivity|].
    rewrite Nat.add_1_r. split; cbn [ru_node ru_mat ru_dumps ru_id ru_times ru_next ru_now]; try assumption; try reflexivity. rewrite A8. reflexivity.
  Qed.

  Hypotheses (Hrn : forall x, (x < 0)%R -> (rnd x < 0)%R) (Hrb : forall x, (10 ^ 8 <= x)%R -> (10 ^ 8 <= rnd x)%R).
  Hypotheses (Hv : 0 < v) (Hdt : (0 <= in_dt_ival inp)%R) (Htf : (tf <= 10 ^ 8)%R).
  (** from cycle k + 1 on, with enough room for the dumps *)
  Lemma cycles_ok K : run_length_at (clock rnd) tf (in_stop inp) K -> forall todo k s, k + todo = in_stop inp -> k <= K -> (forall j, 1 <= j <= k -> ((clock rnd) j < tf)%R) ->
    at_ k (0 :: due_at (clock rnd) tf v k) s -> S (length (due_at (clock rnd) tf v K)) <= 250 ->
    exists s', cyclesf rnd fmt inp sv (k + 1) todo s = Ok s' /\ at_ K (0 :: due_at (clock rnd) tf v K) s'.
  Proof.
    intros (K1 & K2 & K3'). induction todo as [|todo IH]; intros k s Hk HkK Ht A Hroom.
    - cbn [cyclesf]. assert (k = K) by lia. subst k. exists s. auto.
    - cbn [cyclesf]. destruct (advance_at k _ s A) as (s1 & -> & A1). cbn [bind].
      assert (HkS : k < K).
      { destruct (Nat.eq_dec k K) as [E|]; [|lia]. exfalso. subst k. destruct K3' as [Z|(Z1 & Z2)]; [lia|]. specialize (Ht K ltac:(lia)). lra. }
      rewrite (at_now _ _ _ A1). fold tf. destruct (Rle_dec tf ((clock rnd) (k + 1))) as [Le|Gt].
      + assert (K = k + 1). { destruct (Nat.eq_dec K (k + 1)) as [|Ne]; [assumption|]. specialize (K2 (k + 1) ltac:(lia)). lra. } subst K.
        exists s1. split; [reflexivity|]. rewrite due_S. destruct (Rlt_dec ((clock rnd) (k + 1)) tf); [lra|]. rewrite andb_false_r, app_nil_r. exact A1.
      + fold v. destruct (Nat.eqb_spec v 0) as [|_]; [lia|]. assert (N8 := at_next _ _ _ A1).
        destruct (Rle_dec 0 (rnd ((clock rnd) (k + 1) - ru_next s1))) as [Le|_]; [exfalso; specialize (Hrn ((clock rnd) (k + 1) - ru_next s1)%R ltac:(lra)); lra|]. rewrite orb_false_r.
        assert (Ht' : forall j, 1 <= j <= k + 1 -> ((clock rnd) j < tf)%R) by (intros j Hj; destruct (Nat.eq_dec j (k + 1)) as [->|]; [lra|apply Ht; lia]).
        assert (Du := due_S (clock rnd) tf v k). destruct (Rlt_dec ((clock rnd) (k + 1)) tf) as [Lt|]; [|lra]. rewrite andb_true_r in Du.
        destruct ((k + 1) mod v =? 0).
        * assert (Room : length (0 :: due_at (clock rnd) tf v k) < 250).
          { assert (Q1 : exists w, K = k + 1 + w) by (exists (K - (k + 1)); lia). destruct Q1 as (w & ->). clear -Hroom Du.
            assert (Q2 := due_mono (clock rnd) tf v (k + 1) w).
            rewrite Du, app_length in Q2. cbn [length] in *. lia. }
          destruct (write_ok _ _ s1 A1 Room) as (s2 & -> & A2). cbn [bind]. replace (k + 1 + 1) with ((k + 1) + 1) by lia.
          apply IH; try assumption; try lia. rewrite Du. destruct A2 as [B1 B2 B3 B4 B5 B6 B7 B8]. split; cbn [ru_node ru_mat ru_dumps ru_id ru_times ru_next ru_now]; try assumption. first [apply Hrb; lra|lra].
        * cbn [bind]. apply IH; try assumption; try lia. rewrite Du, app_nil_r. exact A1.
  Qed.
  Lemma cycles_full K : run_length_at (clock rnd) tf (in_stop inp) K -> forall todo k s, k + todo = in_stop inp -> k <= K -> (forall j, 1 <= j <= k -> ((clock rnd) j < tf)%R) ->
    at_ k (0 :: due_at (clock rnd) tf v k) s -> 250 < S (length (due_at (clock rnd) tf v K)) -> S (length (due_at (clock rnd) tf v k)) <= 250 -> cyclesf rnd fmt inp sv (k + 1) todo s = Err OOB.
  Proof.
    intros (K1 & K2 & K3'). induction todo as [|todo IH]; intros k s Hk HkK Ht A Hroom Hk250.
    - cbn [cyclesf]. assert (k = K) by lia. subst k. lia.
    - cbn [cyclesf]. destruct (advance_at k _ s A) as (s1 & -> & A1). cbn [bind].
      assert (HkS : k < K).
      { destruct (Nat.eq_dec k K) as [E|]; [|lia]. exfalso. subst k. destruct K3' as [Z|(Z1 & Z2)]; [lia|]. specialize (Ht K ltac:(lia)). lra. }
      assert (Du := due_S (clock rnd) tf v k).
      rewrite (at_now _ _ _ A1). fold tf. destruct (Rle_dec tf ((clock rnd) (k + 1))) as [Le|Gt].
      + assert (K = k + 1). { destruct (Nat.eq_dec K (k + 1)) as [|Ne]; [assumption|]. specialize (K2 (k + 1) ltac:(lia)). lra. } subst K.
        exfalso. destruct (Rlt_dec ((clock rnd) (k + 1)) tf); [lra|]. rewrite andb_false_r, app_nil_r in Du. rewrite Du in Hroom. lia.
      + fold v. destruct (Nat.eqb_spec v 0) as [|_]; [lia|]. assert (N8 := at_next _ _ _ A1).
        destruct (Rle_dec 0 (rnd ((clock rnd) (k + 1) - ru_next s1))) as [Le|_]; [exfalso; specialize (Hrn ((clock rnd) (k + 1) - ru_next s1)%R ltac:(lra)); lra|]. rewrite orb_false_r.
        assert (Ht' : forall j, 1 <= j <= k + 1 -> ((clock rnd) j < tf)%R) by (intros j Hj; destruct (Nat.eq_dec j (k + 1)) as [->|]; [lra|apply Ht; lia]).
        destruct (Rlt_dec ((clock rnd) (k + 1)) tf) as [Lt|]; [|lra]. rewrite andb_true_r in Du.
        destruct ((k + 1) mod v =? 0).
        * destruct (Nat.eq_dec (S (length (due_at (clock rnd) tf v k))) 250) as [Full|NF].
          -- rewrite (write_full _ _ s1 A1) by (cbn [length]; lia). reflexivity.
          -- destruct (write_ok _ _ s1 A1) as (s2 & -> & A2); [cbn [length]; lia|]. cbn [bind]. replace (k + 1 + 1) with ((k + 1) + 1) by lia.
             apply IH; try assumption; try lia; [|rewrite Du, app_length; cbn [length]; lia]. rewrite Du. destruct A2 as [B1 B2 B3 B4 B5 B6 B7 B8]. split; cbn [ru_node ru_mat ru_dumps ru_id ru_times ru_next ru_now]; try assumption. first [apply Hrb; lra|lra].
        * cbn [bind]. apply IH; try assumption; try lia; rewrite Du, app_nil_r; assumption.
  Qed.

  Lemma simulate_ok K : run_length_at (clock rnd) tf (in_stop inp) K -> length (marks_at (clock rnd) tf v K) <= 250 -> exists s, simulatef rnd fmt inp sv node mat = Ok s /\ at_ K (marks_at (clock rnd) tf v K) s.
  Proof.
    intros HK Hl. unfold marks_at in Hl. cbn [length] in Hl. rewrite app_length in Hl. cbn [length] in Hl. unfold simulatef. fold start.
    destruct (write_ok 0 [] start at_start ltac:(cbn; lia)) as (s1 & -> & A1). cbn [bind app] in *.
    destruct (cycles_ok K HK (in_stop inp) 0 s1) as (s2 & E2 & A2); [lia|lia|intros; lia|exact A1|lia|]. cbn [Nat.add] in E2. rewrite E2. cbn [bind].
    destruct (write_ok _ _ s2 A2) as (s3 & -> & A3); [cbn [length]; lia|]. exists s3. split; [reflexivity|exact A3].
  Qed.
  Lemma simulate_full K : run_length_at (clock rnd) tf (in_stop inp) K -> 250 < length (marks_at (clock rnd) tf v K) -> simulatef rnd fmt inp sv node mat = Err OOB.
  Proof.
    intros HK Hl. unfold marks_at in Hl. cbn [length] in Hl. rewrite app_length in Hl. cbn [length] in Hl. unfold simulatef. fold start.
    destruct (write_ok 0 [] start at_start ltac:(cbn; lia)) as (s1 & -> & A1). cbn [bind app] in *.
    destruct (Nat.eq_dec (length (due_at (clock rnd) tf v K)) 249) as [E|Ne].
    - destruct (cycles_ok K HK (in_stop inp) 0 s1) as (s2 & E2 & A2); [lia|lia|intros; lia|exact A1|lia|]. cbn [Nat.add] in E2. rewrite E2. cbn [bind].
      apply (write_full _ _ s2 A2). cbn [length]. lia.
    - assert (E2 := cycles_full K HK (in_stop inp) 0 s1). cbn [Nat.add] in E2. rewrite E2; [reflexivity|lia|lia|intros; lia|exact A1|lia|cbn; lia].
  Qed.
End Run.

Lemma simulate_interval_0 rnd fmt inp sv N X EC EN L Ar Q node mat : sound sv N X EC EN L Q -> lists_around sv Ar -> length node = cm_nodes (sv_mesh sv) -> length mat = cm_cells (sv_mesh sv) ->
  sv_elems sv * (sv_ns sv * sv_ns sv * sv_ns sv) = cm_cells (sv_mesh sv) -> in_cyc_ival inp = 0 -> 0 < in_stop inp -> (clock rnd 1 < in_tfinal inp)%R -> simulatef rnd fmt inp sv node mat = Err DivZero.
Proof.
  intros HS HAr Hn Hm HE Hv Hs Ht. unfold simulatef. fold (start node mat).
  destruct (write_ok rnd fmt inp sv N X EC EN L Ar Q node mat HS HAr Hn Hm HE 0 [] _ (at_start rnd fmt sv N X node mat) ltac:(cbn; lia)) as (s1 & -> & A1). cbn [bind].
  destruct (in_stop inp) as [|todo]; [lia|]. cbn [cyclesf]. destruct (advance_at rnd fmt sv N X EC EN L Ar Q node mat HS HAr Hn Hm 0 _ s1 A1) as (s2 & -> & A2). cbn [bind].
  rewrite (at_now _ _ _ _ _ _ _ _ _ _ A2). destruct (Rle_dec (in_tfinal inp) (clock rnd (0 + 1))) as [Le|_]; [cbn [Nat.add] in Le; lra|]. rewrite Hv. reflexivity.
Qed.
