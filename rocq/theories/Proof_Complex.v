(** Proofs about the Complex instances of the templates of Model_Complex.v. *)
From Coq Require Import List Reals NArith Arith Lia Lra.
From Coquelicot Require Import Complex.
Import ListNotations.
Require Import Verif.Base Verif.RBase Verif.RSum Verif.RDer Verif.CSum Verif.CPoly Verif.Spec_Lagrange Verif.Spec_Complex
  Verif.CLagrange_Math Verif.CStep Verif.Model_Common Verif.Spec_Common Verif.Proof_Common
  Verif.Model_Lagrange Verif.Proof_Lagrange Verif.Proof_LagElem Verif.Model_Poly Verif.Model_Complex.
Local Close Scope N_scope.
Open Scope R_scope.
Open Scope C_scope.
Open Scope res_scope.

Ltac uc := cbn [nadd nsub nmul nopp ndiv ofR nabs car Cnum].
Ltac uci H := cbn [nadd nsub nmul nopp ndiv ofR nabs car Cnum] in H.
Lemma cdiv_ok (a b : C) : b <> 0 -> cdiv a b = Ok (a / b).
Proof. intros H. unfold cdiv. destruct (Ceq_dec b 0); [contradiction|reflexivity]. Qed.

(** the coincidence search looks at real parts only *)
Lemma cfind_re N (Z : nat -> C) (X : C) :
  t_find Cnum N Z X = find_coincident_vertex N (fun j => Re (Z j)) (Re X).
Proof. reflexivity. Qed.

Lemma cseparated_distinct N Z : cseparated N Z -> cdistinct N Z.
Proof.
  intros H i j Hi Hj E Q. specialize (H i j Hi Hj E). rewrite Q in H.
  replace (Re (Z j) - Re (Z j))%R with 0%R in H by ring. rewrite Rabs_R0 in H. generalize tol_pos. lra.
Qed.

Lemma c_weights_ok N z w0 : cdistinct N z ->
  exists w, t_weights Cnum N z w0 = Ok w /\
    (forall i, (i < N)%nat -> w i = cbw N z i) /\ (forall i, (N <= i)%nat -> w i = w0 i).
Proof.
  intros D. unfold t_weights. uc.
  destruct (loop_inv (fun n w => (forall i, (i < n)%nat -> w i = cbw N z i) /\
              (forall i, (n <= i)%nat -> w i = w0 i)) N
    (fun j w => do wj <- loop N (fun k acc => if Nat.eqb j k then Ok acc
               else do q <- cdiv 1 (z j - z k); Ok (acc * q)) 1; Ok (fset w j wj)) w0)
    as (w & E & H1 & H2).
  - split; [intros; lia|auto].
  - intros j w Hj (H1 & H2).
    rewrite (loop_closed (fun n => cprod n (fun k => if Nat.eqb k j then RtoC 1 else / (z j - z k)))).
    + cbn [bind]. eexists. split; [reflexivity|]. split.
      * intros i Hi. destruct (Nat.eq_dec i j) as [->|E].
        -- rewrite fset_eq. reflexivity.
        -- rewrite fset_neq by exact E. apply H1. lia.
      * intros i Hi. rewrite fset_neq by lia. apply H2. lia.
    + intros k Hk. cbn [cprod]. rewrite (Nat.eqb_sym k j).
      destruct (Nat.eqb_spec j k) as [E|E]; [f_equal; ring|].
      rewrite cdiv_ok by (apply Cminus_neq_0; apply D; assumption). cbn [bind]. f_equal. unfold Cdiv. ring.
  - exists w. rewrite E. split; [reflexivity|]. split; [exact H1|exact H2].
Qed.

Lemma c_weights_ok_spec N z w0 : cdistinct N z ->
  exists w, t_weights Cnum N z w0 = Ok w /\ cweights_of N z w /\
    (forall i, (N <= i)%nat -> w i = w0 i).
Proof.
  intros D. destruct (c_weights_ok N z w0 D) as (w & E & H & H'). exists w. split; [exact E|].
  split; [|exact H'].
  intros i Hi. rewrite (H i Hi). apply cbw_weights; assumption.
Qed.

Lemma c_fold_npoly N Z X : fold_up N (fun j L => L * (X - Z j)) 1 = cnpoly N Z X.
Proof. unfold cnpoly. induction N as [|n IH]; [reflexivity|]. cbn [fold_up cprod]. rewrite IH. reflexivity. Qed.

(** either kind of evaluation point, given its coincidence index *)
Definition cpoint_ok (n : nat) (Z : nat -> C) (X : C) (ic : N) : Prop :=
  (exists k, (k < n)%nat /\ X = Z k /\ ic = N.of_nat k) \/
  ((N.of_nat n <= ic)%N /\ forall i, (i < n)%nat -> X - Z i <> 0).

Lemma cfind_point_ok N Z X : (N.of_nat N < 2 ^ 64)%N -> cseparated N Z -> cclean N Z X ->
  cpoint_ok N Z X (t_find Cnum N Z X).
Proof.
  intros H1 H2 H3. rewrite cfind_re.
  assert (S' : separated N (fun j => Re (Z j))) by exact H2.
  destruct H3 as [(k & Hk & ->)|Hx].
  - destruct (find_clean N (fun j => Re (Z j)) (Re (Z k)) H1 S') as [(k' & Hk' & E & F)|(Hic & Hx)].
    + left. exists k. auto.
    + left. exists k'. split; [exact Hk'|]. split; [|exact F].
      destruct (Nat.eq_dec k k') as [->|Ne]; [reflexivity|]. exfalso. apply (separated_distinct _ _ S' k k'); auto.
    + exfalso. apply (Hx k Hk). ring.
  - destruct (find_clean N (fun j => Re (Z j)) (Re X) H1 S') as [(k' & Hk' & E & F)|(Hic & Hx')].
    + right. exact Hx.
    + exfalso. specialize (Hx k' Hk'). rewrite E in Hx.
      replace (Re (Z k') - Re (Z k'))%R with 0%R in Hx by ring. rewrite Rabs_R0 in Hx. generalize tol_pos. lra.
    + right. split; [exact Hic|]. intros i Hi Q. apply (Hx' i Hi).
      apply (f_equal Re) in Q. exact Q.
Qed.


Lemma c_eval_correct N Z w X ic i : cdistinct N Z -> cweights_of N Z w -> (i < N)%nat ->
  cpoint_ok N Z X ic -> t_eval Cnum N i ic Z w X = Ok (cell N Z i X).
Proof.
  intros D W Hi P. unfold t_eval. uc.
  destruct P as [(k & Hk & -> & ->)|(Hic & Hx)].
  - rewrite (proj2 (N.ltb_lt _ _)) by lia. rewrite cell_delta by assumption. f_equal.
    destruct (N.eqb_spec (N.of_nat i) (N.of_nat k)) as [E|E];
    destruct (Nat.eqb_spec k i) as [E'|E']; try reflexivity; lia.
  - rewrite (proj2 (N.ltb_ge _ _)) by lia.
    rewrite cdiv_ok by (apply Hx; exact Hi). rewrite c_fold_npoly.
    rewrite (cweights_bw N Z w i D W Hi), cell_bary by (auto; apply Hx; exact Hi). reflexivity.
Qed.

Lemma c_interp_sum_ok N Z w X c c' : cdistinct N Z -> cweights_of N Z w ->
  (forall i, (i < N)%nat -> X - Z i <> 0) -> (forall i, (i < N)%nat -> c i = Ok (c' i)) ->
  t_interp_sum Cnum N Z w X c = Ok (csum N (fun j => cbw N Z j * c' j / (X - Z j)), cnpoly N Z X).
Proof.
  intros D W Hx Hc. unfold t_interp_sum, cnpoly. uc.
  apply (loop_closed (fun n => (csum n (fun j => cbw N Z j * c' j / (X - Z j)), cprod n (fun j => X - Z j)))).
  intros j Hj. rewrite Hc by exact Hj. cbn [bind]. rewrite cdiv_ok by (apply Hx; exact Hj). cbn [bind].
  rewrite (cweights_bw N Z w j D W Hj). reflexivity.
Qed.

Lemma c_eval_interp_correct N Z w X ic c c' : cdistinct N Z -> cweights_of N Z w ->
  cpoint_ok N Z X ic -> (forall i, (i < N)%nat -> c i = Ok (c' i)) ->
  t_eval_interp Cnum N ic Z w X c = Ok (cinterp N Z c' X).
Proof.
  intros D W P Hc. unfold t_eval_interp. uc.
  destruct P as [(k & Hk & -> & ->)|(Hic & Hx)].
  - rewrite (proj2 (N.ltb_lt _ _)) by lia. rewrite Nnat.Nat2N.id, Hc by exact Hk.
    rewrite cinterp_node by assumption. reflexivity.
  - rewrite (proj2 (N.ltb_ge _ _)) by lia.
    rewrite (c_interp_sum_ok N Z w X c c' D W Hx Hc). cbn [bind]. rewrite cinterp_bary by exact Hx. reflexivity.
Qed.

Lemma c_der_step_free_ok N Z w X L k dkp dnp0 M c c' :
  cdistinct N Z -> cweights_of N Z w ->
  (forall i, (i < N)%nat -> X - Z i <> 0) -> (forall i, (i < N)%nat -> c i = Ok (c' i)) ->
  exists c2, t_der_step_free Cnum N Z w X L k (dkp, dnp0, M, c) =
    Ok (csum N (fun j => cbw N Z j * (/ (X - Z j) * (dkp - c' j)) / (X - Z j)) * (L * (M * RtoC (INR k))),
        csum N (fun j => cbw N Z j * (/ (X - Z j) * (dkp - c' j)) / (X - Z j)) * (L * (M * RtoC (INR k))),
        M * RtoC (INR k), c2) /\
    (forall i, (i < N)%nat -> c2 i = Ok (/ (X - Z i) * (dkp - c' i))) /\
    (forall i, (N <= i)%nat -> c2 i = c i).
Proof.
  intros D W Hx Hc. unfold t_der_step_free. uc.
  set (v := fun j => / (X - Z j) * (dkp - c' j)).
  edestruct (loop_inv (fun n st => fst st = csum n (fun j => cbw N Z j * v j / (X - Z j)) /\
      (forall i, (i < n)%nat -> snd st i = Ok (v i)) /\ (forall i, (n <= i)%nat -> snd st i = c i)) N)
    as ((dnp & c2) & E & H1 & H2 & H3).
  3: { rewrite E. cbn [bind]. cbn [fst snd] in *. exists c2. rewrite H1. auto. }
  - cbn [fst snd]. split; [reflexivity|]. split; [intros; lia|auto].
  - intros j (dnp & cc) Hj (H1 & H2 & H3). cbn [fst snd] in *.
    rewrite cdiv_ok by (apply Hx; exact Hj). cbn [bind].
    rewrite H3, Hc by lia. cbn [bind].
    rewrite cdiv_ok by (apply Hx; exact Hj). cbn [bind].
    eexists. split; [reflexivity|]. cbn [fst snd]. split; [|split].
    + cbn [csum]. rewrite H1, (cweights_bw N Z w j D W Hj). unfold v, Cdiv. ring.
    + intros i Hi. destruct (Nat.eq_dec i j) as [->|E].
      * rewrite fset_eq. unfold v, Cdiv. f_equal. ring.
      * rewrite fset_neq by exact E. apply H2. lia.
    + intros i Hi. rewrite fset_neq by lia. apply H3. lia.
Qed.

Lemma c_der_step_coin_ok N Z w i k dkp dnp0 M c c' :
  cdistinct N Z -> cweights_of N Z w -> (i < N)%nat ->
  (forall j, (j < N)%nat -> j <> i -> c j = Ok (c' j)) ->
  exists c2, t_der_step_coincident Cnum N i Z w k (dkp, dnp0, M, c) =
    Ok (csum N (fun j => if Nat.eqb j i then RtoC 0 else cbw N Z j * (/ (Z i - Z j) * (dkp - c' j))) * (- (M * RtoC (INR k)) / cbw N Z i),
        csum N (fun j => if Nat.eqb j i then RtoC 0 else cbw N Z j * (/ (Z i - Z j) * (dkp - c' j))) * (- (M * RtoC (INR k)) / cbw N Z i),
        M * RtoC (INR k), c2) /\
    (forall j, (j < N)%nat -> j <> i -> c2 j = Ok (/ (Z i - Z j) * (dkp - c' j))) /\
    (forall j, (N <= j)%nat -> c2 j = c j).
Proof.
  intros D W Hi Hc. unfold t_der_step_coincident. uc.
  set (v := fun j => / (Z i - Z j) * (dkp - c' j)).
  edestruct (loop_inv (fun n st => fst st = csum n (fun j => if Nat.eqb j i then RtoC 0 else cbw N Z j * v j) /\
      (forall j, (j < n)%nat -> j <> i -> snd st j = Ok (v j)) /\ (forall j, (n <= j)%nat -> snd st j = c j)) N)
    as ((dnp & c2) & E & H1 & H2 & H3).
  3: { rewrite E. cbn [bind]. cbn [fst snd] in *.
       rewrite (cweights_bw N Z w i D W Hi).
       rewrite cdiv_ok by (apply cbw_neq0; assumption). cbn [bind]. exists c2. rewrite H1. auto. }
  - cbn [fst snd]. split; [reflexivity|]. split; [intros; lia|auto].
  - intros j (dnp & cc) Hj (H1 & H2 & H3). cbn [fst snd] in *. cbn [csum].
    destruct (Nat.eqb_spec j i) as [E|E].
    + eexists. split; [reflexivity|]. cbn [fst snd]. split; [rewrite H1; ring|]. split.
      * intros j' Hj' E'. rewrite fset_neq by congruence. apply H2; [lia|exact E'].
      * intros j' Hj'. rewrite fset_neq by lia. apply H3. lia.
    + rewrite cdiv_ok by (apply Cminus_neq_0; apply D; [assumption|assumption|congruence]). cbn [bind].
      rewrite H3, Hc by (auto; lia). cbn [bind].
      eexists. split; [reflexivity|]. cbn [fst snd]. split; [|split].
      * rewrite H1, (cweights_bw N Z w j D W Hj). unfold v, Cdiv. ring.
      * intros j' Hj' E'. destruct (Nat.eq_dec j' j) as [->|E2].
        -- rewrite fset_eq. unfold v, Cdiv. f_equal. ring.
        -- rewrite fset_neq by exact E2. apply H2; [lia|exact E'].
      * intros j' Hj'. rewrite fset_neq by lia. apply H3. lia.
Qed.

Section COrders.
  Variables (N : nat) (Z w : nat -> C) (X : C) (c : nat -> res C) (c' : nat -> C).
  Hypotheses (D : cdistinct N Z) (W : cweights_of N Z w)
             (Hc : forall i, (i < N)%nat -> c i = Ok (c' i)).
  Let p := cinterp N Z c'.
  Lemma c_factors : (0 < N)%nat -> exists g,
    cpoly_lt (pred N) g /\ (forall y, p y = p X + (y - X) * g y).
  Proof.
    intros HN. destruct (cpoly_factor (pred N) p X) as (g & Hg & Eg).
    { replace (S (pred N)) with N by lia. apply cinterp_poly. }
    exists g. auto.
  Qed.
  Lemma cder_g g : cpoly_lt (pred N) g -> (forall y, p y = p X + (y - X) * g y) -> is_cder p X (g X).
  Proof.
    intros Hg Eg. apply (cder_factor p g (pred N) X); [|exact Eg]. apply (cpoly_mono (pred N)); [lia|exact Hg].
  Qed.
  Lemma c_dd_value (f g : C -> C) j : (forall y, f y = f X + (y - X) * g y) ->
    X - Z j <> 0 -> / (X - Z j) * (f X - f (Z j)) = g (Z j).
  Proof.
    intros E Hx. rewrite (E (Z j)). field. exact Hx.
  Qed.
  Lemma c_free_sum (g : C -> C) (v : nat -> C) : cpoly_lt (pred N) g ->
    (forall i, (i < N)%nat -> X - Z i <> 0) -> (forall j, (j < N)%nat -> v j = g (Z j)) ->
    csum N (fun j => cbw N Z j * v j / (X - Z j)) * cnpoly N Z X = g X.
  Proof.
    intros Hg Hx Hv. rewrite (cinterp_bary N Z v X Hx).
    rewrite (cinterp_ext N Z v (fun j => g (Z j)) X Hv).
    apply cinterp_repro; [exact D|]. apply (cpoly_mono (pred N)); [lia|exact Hg].
  Qed.
  Lemma c_order1 ic : (0 < N)%nat -> cpoint_ok N Z X ic ->
    exists d c2, t_eval_der_interp Cnum N 1 ic Z w X c = Ok (d, c2) /\ is_cder p X d /\
      (forall i, (N <= i)%nat -> c2 i = c i).
  Proof.
    intros HN P. destruct (c_factors HN) as (g & Hg & Eg).
    unfold t_eval_der_interp. uc. destruct P as [(i & Hi & EX & ->)|(Hic & Hx)].
    - rewrite (proj2 (N.ltb_lt _ _)) by lia. rewrite Nnat.Nat2N.id, Hc by exact Hi. cbn [bind loop_from].
      destruct (c_der_step_coin_ok N Z w i 1 (c' i) (RtoC 0) (RtoC 1) c c' D W Hi) as (c2 & E & _ & H3); [auto|].
      uci E. uc. rewrite E. cbn [bind]. eexists. exists c2. split; [reflexivity|]. split; [|exact H3].
      match goal with |- is_cder _ _ ?d => replace d with (g X); [apply (cder_g g Hg Eg)|symmetry] end.
      rewrite EX, <- (cbw_at_vertex N Z g i D Hi Hg).
      replace (- (RtoC 1 * RtoC (INR 1)) / cbw N Z i) with (- / cbw N Z i) by (cbn [INR]; unfold Cdiv; ring).
      f_equal. apply csum_ext. intros j Hj. destruct (Nat.eqb_spec j i) as [Q|Q]; [reflexivity|].
      f_equal. rewrite <- EX. 
      replace (c' i) with (p X) by (unfold p; rewrite EX; apply cinterp_node; assumption).
      replace (c' j) with (p (Z j)) by (unfold p; apply cinterp_node; assumption).
      apply (c_dd_value p g j Eg). rewrite EX. apply Cminus_neq_0; apply D; [assumption|assumption|congruence].
    - rewrite (proj2 (N.ltb_ge _ _)) by lia.
      rewrite (c_interp_sum_ok N Z w X c c' D W Hx Hc). cbn [bind loop_from].
      rewrite (cinterp_bary N Z c' X Hx). fold p.
      destruct (c_der_step_free_ok N Z w X (cnpoly N Z X) 1 (p X) (RtoC 0) (RtoC 1) c c' D W Hx Hc) as (c2 & E & _ & H3).
      uci E. uc. rewrite E. cbn [bind]. eexists. exists c2. split; [reflexivity|]. split; [|exact H3].
      match goal with |- is_cder _ _ ?d => replace d with (g X); [apply (cder_g g Hg Eg)|symmetry] end.
      rewrite <- (c_free_sum g (fun j => / (X - Z j) * (p X - c' j)) Hg Hx).
      + cbn [INR]. ring.
      + intros j Hj. replace (c' j) with (p (Z j)) by (unfold p; apply cinterp_node; assumption).
        apply (c_dd_value p g j Eg). apply Hx; exact Hj.
  Qed.
End COrders.

Lemma c_delta_init N i (c : nat -> res C) j :
  fold_up N (fun j c => fset c j (Ok (if Nat.eqb j i then RtoC 1 else RtoC 0))) c j =
  if Nat.ltb j N then Ok (if Nat.eqb j i then RtoC 1 else RtoC 0) else c j.
Proof.
  induction N as [|n IH]; [reflexivity|]. cbn [fold_up].
  destruct (Nat.eq_dec j n) as [->|E].
  - rewrite fset_eq. rewrite (proj2 (Nat.ltb_lt _ _)) by lia. reflexivity.
  - rewrite fset_neq, IH by exact E.
    destruct (Nat.ltb_spec j n); destruct (Nat.ltb_spec j (S n)); try reflexivity; lia.
Qed.

Lemma cinterp_delta N Z i x : (i < N)%nat ->
  cinterp N Z (fun j => if Nat.eqb j i then RtoC 1 else RtoC 0) x = cell N Z i x.
Proof.
  intros Hi. unfold cinterp. rewrite (csum_single N i); [|exact Hi|].
  - rewrite Nat.eqb_refl. ring.
  - intros j _ E. destruct (Nat.eqb_spec j i); [contradiction|ring].
Qed.

Lemma c_eval_der1_correct N Z w X ic i c : cdistinct N Z -> cweights_of N Z w -> (i < N)%nat ->
  cpoint_ok N Z X ic ->
  exists d c2, t_eval_der Cnum N 1 i ic Z w X c = Ok (d, c2) /\ is_cder (cell N Z i) X d /\
    (forall j, (N <= j)%nat -> c2 j = c j).
Proof.
  intros D W Hi P. unfold t_eval_der. uc.
  destruct (c_order1 N Z w X (fold_up N (fun j c => fset c j (Ok (if Nat.eqb j i then RtoC 1 else RtoC 0))) c)
    (fun j => if Nat.eqb j i then RtoC 1 else RtoC 0) D W) with (ic := ic) as (d & c2 & E & Hd & Hc2); try assumption; try lia.
  - intros j Hj. rewrite c_delta_init. rewrite (proj2 (Nat.ltb_lt _ _)) by exact Hj. reflexivity.
  - exists d, c2. split; [exact E|]. split.
    + apply (cder_ext _ _ _ _ (fun t => cinterp_delta N Z i t Hi) Hd).
    + intros j Hj. rewrite (Hc2 j Hj), c_delta_init. destruct (Nat.ltb_spec j N); [lia|reflexivity].
Qed.
