(** Sizes and counters of a run that did not overflow. *)
From Coq Require Import Reals List Arith ZArith Lra Lia Bool.
Import ListNotations.
Require Import Verif.Base Verif.NatSum Verif.RBase Verif.RSum Verif.Model_Geom Verif.Proof_Geom Verif.Model_Vtk Verif.Model_Refine Verif.Model_Conn Verif.Proof_Conn Verif.Spec_Conn Verif.Proof_Neigh Verif.Proof_Elem Verif.Proof_Patch Verif.Proof_Bdy Verif.Model_Ref
  Verif.Model_Full Verif.Model_Int Verif.Spec_Patch Verif.Spec_High Verif.Spec_Full Verif.Spec_Int Verif.Proof_Full Verif.Proof_Full2 Verif.Proof_Int Verif.Proof_Int4 Verif.Model_Patch.
Local Open Scope nat_scope.

Lemma filter_map_len {A B} (f : A -> B) (P : B -> bool) l : length (filter P (map f l)) = length (filter (fun x => P (f x)) l).
Proof. induction l as [|x l IH]; [reflexivity|]. cbn [map filter]. destruct (P (f x)); cbn [length]; lia. Qed.
Lemma filter_and {A} (P Q : A -> bool) l : filter Q (filter P l) = filter (fun x => P x && Q x) l.
Proof. induction l as [|x l IH]; [reflexivity|]. cbn [filter]. destruct (P x); cbn [filter andb]; rewrite IH; reflexivity. Qed.
Lemma others_concat c (f : nat -> list nat) k : others c (concat (map f (seq 0 k))) = nsum k (fun l => others c (f l)).
Proof.
  unfold others. induction k as [|k IH]; [reflexivity|]. rewrite seq_S, map_app, concat_app, filter_app, app_length, IH. cbn [map concat nsum]. rewrite Nat.add_0_l, app_nil_r. reflexivity.
Qed.

Lemma pairs_exact K nc nn F a : (forall c l, c < nc -> l < K -> F c l < nn) -> build_node_cell K nc nn (flatten K nc F) = Ok a ->
  exists cnt, count_pairs K nc (flatten K nc F) a = Ok (cnt, pair_count K nc F).
Proof.
  intros HF Ea. assert (M : mesh_ok K nc nn (flatten K nc F)) by (apply flatten_mesh; exact HF).
  assert (G := node_cell_good _ _ _ _ _ M Ea). destruct (count_pairs_ok _ _ _ _ _ M G) as (cnt & E & _). exists cnt. rewrite E. f_equal. f_equal.
  unfold pair_count. apply nsum_ext. intros c Hc. unfold cand. rewrite others_concat. apply nsum_ext. intros l Hl.
  unfold others, cellsOf. rewrite filter_map_len. unfold inc, poss. rewrite filter_and. f_equal. apply filter_ext_in. intros q I. apply in_seq in I. f_equal.
  rewrite (nth_error_nth _ _ _ (flatten_at K nc F c l Hc Hl)). f_equal. destruct K as [|K]; [lia|]. assert (D := Nat.div_mod q (S K) ltac:(lia)). rewrite (Nat.mul_comm (S K)) in D.
  rewrite D at 1. apply nth_error_nth. apply flatten_at; [apply Nat.div_lt_upper_bound; lia|apply Nat.mod_upper_bound; lia].
Qed.

Theorem conn32_sizes m N X G ne gauss GN C : cdescribes m N X -> (forall e l, e < ne -> l < G -> getu gauss (e * G + l) = Ok (GN e l) /\ GN e l < cm_nodes m) ->
  build_connectivity32 G ne gauss m = Ok C ->
  (Z.of_nat (cm_cells m * 8) <= INT_MAX /\ Z.of_nat (pair_count 8 (cm_cells m) N) <= INT_MAX /\ Z.of_nat (pt_num (cn_patches C) * 4) <= INT_MAX /\
   Z.of_nat (ne * G) <= INT_MAX /\ Z.of_nat (pair_count G ne GN) <= INT_MAX)%Z.
Proof.
  intros HM HG Q. assert (HN := proj1 HM). set (nc := cm_cells m) in *. unfold build_connectivity32 in Q. cbv zeta in Q. fold nc in Q.
  assert (BN : forall c l, c < nc -> l < 8 -> N c l < cm_nodes m) by (intros c l Hc Hl; apply (HN c l); assumption).
  rewrite (read_flat 8 nc (cm_conn m) N) in Q by (intros c l Hc Hl; apply (HN c l); assumption). cbn [bind] in Q.
  apply bind_ok in Q. destruct Q as (a & Ea & Q). apply bind_ok in Q. destruct Q as (z1 & F1 & Q). apply bind_ok in Q. destruct Q as (b & _ & Q).
  destruct (pairs_exact 8 nc (cm_nodes m) N a BN Ea) as (cnt & Et). rewrite Et in Q. cbn [bind] in Q. apply bind_ok in Q. destruct Q as (z2 & F2 & Q).
  apply bind_ok in Q. destruct Q as (cc & _ & Q). apply bind_ok in Q. destruct Q as (ks & _ & Q). apply bind_ok in Q. destruct Q as (P & _ & Q). apply bind_ok in Q. destruct Q as (z3 & F3 & Q).
  rewrite (read_flat G ne gauss GN) in Q by (intros e l He Hl; apply (HG e l He Hl)). cbn [bind] in Q.
  assert (BG : forall e l, e < ne -> l < G -> GN e l < cm_nodes m) by (intros e l He Hl; apply (HG e l He Hl)).
  assert (Gok : mesh_ok G ne (cm_nodes m) (flatten G ne GN)) by (apply flatten_mesh; exact BG).
  destruct (elem_node_ok _ _ _ _ Gok) as (en & Een & Een'). rewrite Een in Q. cbn [bind] in Q. apply bind_ok in Q. destruct Q as (z4 & F4 & Q).
  destruct (pairs_exact G ne (cm_nodes m) GN en BG Een') as (cnt' & Et'). rewrite Et' in Q. cbn [bind] in Q. apply bind_ok in Q. destruct Q as (z5 & F5 & Q).
  apply bind_ok in Q. destruct Q as (ee & _ & Q). injection Q as <-. cbn [cn_patches].
  apply fits_inv in F1, F2, F3, F4, F5. change INT_MAX with 2147483647%Z. auto.
Qed.
Theorem cells32_sizes p m r : refine_cells32 p m = Ok r -> (Z.of_nat (cm_cells m * pts1 p ^ 3) <= INT_MAX)%Z /\ cm_cells (rf_mesh r) = cm_cells m * Spec_Full.sub1 p ^ 3.
Proof.
  intros Q. unfold refine_cells32 in Q. cbv zeta in Q. rewrite pts1_model, sub1_model in Q.
  apply bind_ok in Q. destruct Q as (z1 & F1 & Q). apply bind_ok in Q. destruct Q as (z2 & F2 & Q). apply fits_inv in F2. split; [exact F2|].
  repeat (apply bind_ok in Q; destruct Q as (? & _ & Q)). injection Q as <-. cbn [rf_mesh cm_cells]. cbn [Nat.pow]. ring.
Qed.
