From Coq Require Import List Reals NArith Arith Lia Lra.
Import ListNotations.
Require Import Verif.Base Verif.RBase Verif.RSum Verif.Poly Verif.RDer Verif.Spec_Lagrange
  Verif.Lagrange_Math Verif.Model_Common Verif.Spec_Common Verif.Proof_Common Verif.Model_Lagrange.
Open Scope R_scope.

(** closed-form rule for loops whose state is known at every step *)
Lemma loop_closed {S} (st : nat -> S) n body :
  (forall i, (i < n)%nat -> body i (st i) = Ok (st (Datatypes.S i))) -> loop n body (st 0%nat) = Ok (st n).
Proof.
  intros H. destruct (loop_inv (fun i s => s = st i) n body (st 0%nat) eq_refl) as (s & E & ->).
  - intros i s Hi ->. exists (st (Datatypes.S i)). auto.
  - exact E.
Qed.

Lemma tol_eps : 2 * num_eps = tol.
Proof. unfold num_eps, tol, Rdiv. reflexivity. Qed.

Lemma almost_equal_true a b : almost_equal a b = true <-> Rabs (a - b) < tol.
Proof. unfold almost_equal. rewrite tol_eps. destruct (Rlt_dec (Rabs (a - b)) tol); split; intros; auto; discriminate. Qed.
Lemma almost_equal_false a b : almost_equal a b = false <-> tol <= Rabs (a - b).
Proof.
  unfold almost_equal. rewrite tol_eps. destruct (Rlt_dec (Rabs (a - b)) tol) as [H|H]; split; intros Q;
  auto; try discriminate; lra.
Qed.
Lemma tol_pos : 0 < tol.
Proof. unfold tol. apply Rdiv_lt_0_compat; [lra|]. apply pow_lt. lra. Qed.
Lemma almost_equal_refl a : almost_equal a a = true.
Proof. apply almost_equal_true. replace (a - a) with 0 by ring. rewrite Rabs_R0. apply tol_pos. Qed.

(** ---- find_coincident_vertex ---- *)
Definition hitsum (n : nat) (z : nat -> R) (x : R) : N :=
  fold_up n (fun j s => s + (if almost_equal (z j) x then N.of_nat j + 1 else 0))%N 0%N.

Lemma find_general n z x :
  find_coincident_vertex n z x = ((2 ^ 64 - 1 + hitsum n z x) mod 2 ^ 64)%N.
Proof.
  unfold find_coincident_vertex, hitsum. induction n as [|n IH]; [reflexivity|].
  cbn [fold_up]. rewrite IH. unfold w64, two64.
  destruct (almost_equal (z n) x).
  - rewrite N.mul_1_r, N.add_mod_idemp_l by discriminate. f_equal. lia.
  - rewrite N.mul_0_r, !N.add_0_r, N.mod_mod by discriminate. reflexivity.
Qed.

Lemma hitsum_none n z x : (forall j, (j < n)%nat -> tol <= Rabs (z j - x)) -> hitsum n z x = 0%N.
Proof.
  intros H. unfold hitsum. induction n as [|n IH]; [reflexivity|]. cbn [fold_up].
  rewrite IH by (intros; apply H; lia).
  rewrite (proj2 (almost_equal_false (z n) x)) by (apply H; lia). reflexivity.
Qed.

Lemma hitsum_one n z x i : (i < n)%nat -> Rabs (z i - x) < tol ->
  (forall j, (j < n)%nat -> j <> i -> tol <= Rabs (z j - x)) -> hitsum n z x = (N.of_nat i + 1)%N.
Proof.
  intros Hi Hc H. induction n as [|n IH]; [lia|]. unfold hitsum. cbn [fold_up]. fold (hitsum n z x).
  destruct (Nat.eq_dec i n) as [->|E].
  - rewrite hitsum_none by (intros; apply H; lia).
    rewrite (proj2 (almost_equal_true (z n) x) Hc). lia.
  - rewrite IH by (try lia; intros; apply H; lia).
    rewrite (proj2 (almost_equal_false (z n) x)) by (apply H; lia). lia.
Qed.

Lemma find_none n z x : (forall j, (j < n)%nat -> tol <= Rabs (z j - x)) ->
  find_coincident_vertex n z x = (2 ^ 64 - 1)%N.
Proof. intros H. rewrite find_general, hitsum_none by exact H. reflexivity. Qed.

Lemma find_one n z x i : (N.of_nat n < 2 ^ 64)%N -> (i < n)%nat -> Rabs (z i - x) < tol ->
  (forall j, (j < n)%nat -> j <> i -> tol <= Rabs (z j - x)) ->
  find_coincident_vertex n z x = N.of_nat i.
Proof.
  intros Hn Hi Hc H. rewrite find_general, (hitsum_one n z x i) by assumption.
  replace (2 ^ 64 - 1 + (N.of_nat i + 1))%N with (N.of_nat i + 1 * 2 ^ 64)%N by lia.
  rewrite N.mod_add by discriminate. apply N.mod_small. lia.
Qed.

(** combined: what [ic] is at a clean coordinate *)
Lemma find_clean n z x : (N.of_nat n < 2 ^ 64)%N -> separated n z -> clean n z x ->
  (exists i, (i < n)%nat /\ x = z i /\ find_coincident_vertex n z x = N.of_nat i) \/
  ((N.of_nat n <= find_coincident_vertex n z x)%N /\ forall i, (i < n)%nat -> x - z i <> 0).
Proof.
  intros Hn Hs [(i & Hi & ->)|Hf].
  - left. exists i. split; [exact Hi|]. split; [reflexivity|].
    apply find_one; try assumption.
    + replace (z i - z i) with 0 by ring. rewrite Rabs_R0. apply tol_pos.
    + intros j Hj E. apply Hs; assumption.
  - right. split.
    + rewrite find_none by exact Hf. lia.
    + intros i Hi Q. specialize (Hf i Hi). replace (z i - x) with 0 in Hf by lra.
      rewrite Rabs_R0 in Hf. generalize tol_pos. lra.
Qed.

Lemma separated_distinct n z : separated n z -> distinct n z.
Proof.
  intros H i j Hi Hj E Q. specialize (H i j Hi Hj E). rewrite Q in H.
  replace (z j - z j) with 0 in H by ring. rewrite Rabs_R0 in H. generalize tol_pos. lra.
Qed.

(** ---- weights ---- *)
Lemma weights_ok N z w0 : distinct N z ->
  exists w, compute_barycentric_weights N z w0 = Ok w /\
    (forall i, (i < N)%nat -> w i = bw N z i) /\ (forall i, (N <= i)%nat -> w i = w0 i).
Proof.
  intros D. unfold compute_barycentric_weights.
  destruct (loop_inv (fun n w => (forall i, (i < n)%nat -> w i = bw N z i) /\
              (forall i, (n <= i)%nat -> w i = w0 i)) N
    (fun j w => do wj <- loop N (fun k acc => if Nat.eqb j k then Ok acc
               else do q <- rdiv 1 (z j - z k); Ok (acc * q)) 1; Ok (fset w j wj)) w0)
    as (w & E & H1 & H2).
  - split; [intros; lia|auto].
  - intros j w Hj (H1 & H2).
    rewrite (loop_closed (fun n => rprod n (fun k => if Nat.eqb k j then 1 else / (z j - z k)))).
    + cbn [bind]. eexists. split; [reflexivity|]. split.
      * intros i Hi. destruct (Nat.eq_dec i j) as [->|E].
        -- rewrite fset_eq. reflexivity.
        -- rewrite fset_neq by exact E. apply H1. lia.
      * intros i Hi. rewrite fset_neq by lia. apply H2. lia.
    + intros k Hk. cbn [rprod]. rewrite (Nat.eqb_sym k j).
      destruct (Nat.eqb_spec j k) as [E|E]; [f_equal; ring|].
      rewrite rdiv_ok by (specialize (D j k Hj Hk E); lra). cbn [bind]. f_equal. unfold Rdiv. ring.
  - exists w. rewrite E. split; [reflexivity|]. split; [exact H1|exact H2].
Qed.

Lemma weights_ok_spec N z w0 : distinct N z ->
  exists w, compute_barycentric_weights N z w0 = Ok w /\ weights_of N z w /\
    (forall i, (N <= i)%nat -> w i = w0 i).
Proof.
  intros D. destruct (weights_ok N z w0 D) as (w & E & H & H'). exists w. split; [exact E|].
  split; [|exact H'].
  intros i Hi. rewrite (H i Hi). apply bw_weights; assumption.
Qed.

Lemma loop_err {S} e (P : nat -> S -> Prop) n body s0 j :
  P 0%nat s0 -> (j < n)%nat ->
  (forall i s, (i < j)%nat -> P i s -> (exists s', body i s = Ok s' /\ P (Datatypes.S i) s') \/ body i s = Err e) ->
  (forall s, P j s -> body j s = Err e) -> loop n body s0 = Err e.
Proof.
  intros H0 Hj Hs He. unfold loop.
  assert (G : forall m lo s, (lo + m = j)%nat -> P lo s -> forall r, (r >= Datatypes.S m)%nat ->
              loop_from lo r body s = Err e).
  { induction m as [|m IH]; intros lo s El Hp r Hr.
    - destruct r as [|r]; [lia|]. cbn [loop_from]. replace lo with j in * by lia.
      rewrite (He s Hp). reflexivity.
    - destruct r as [|r]; [lia|]. cbn [loop_from].
      destruct (Hs lo s ltac:(lia) Hp) as [(s' & E & P')|E]; rewrite E; cbn [bind]; [|reflexivity].
      apply (IH (Datatypes.S lo) s'); [lia|exact P'|lia]. }
  apply (G j 0%nat s0); [lia|exact H0|lia].
Qed.

Lemma weights_coincident N z w0 i j : (i < N)%nat -> (j < N)%nat -> i <> j -> z i = z j ->
  compute_barycentric_weights N z w0 = Err DivZero.
Proof.
  intros Hi Hj Ne Ez. unfold compute_barycentric_weights.
  set (inner := fun jj => loop N (fun k acc => if Nat.eqb jj k then Ok acc
               else do q <- rdiv 1 (z jj - z k); Ok (acc * q)) 1).
  assert (Hin : forall jj, (exists v, inner jj = Ok v) \/ inner jj = Err DivZero).
  { intros jj. unfold inner, loop. clear.
    assert (G : forall n lo acc, (exists v, loop_from lo n (fun k acc => if Nat.eqb jj k then Ok acc
               else do q <- rdiv 1 (z jj - z k); Ok (acc * q)) acc = Ok v) \/
       loop_from lo n (fun k acc => if Nat.eqb jj k then Ok acc
               else do q <- rdiv 1 (z jj - z k); Ok (acc * q)) acc = Err DivZero).
    { induction n as [|n IH]; intros lo acc.
      - left. eexists. reflexivity.
      - cbn [loop_from]. destruct (Nat.eqb jj lo); [apply IH|]. unfold rdiv at 1 3.
        destruct (Req_EM_T (z jj - z lo) 0); cbn [bind]; [right; reflexivity|apply IH]. }
    apply G. }
  apply (loop_err DivZero (fun _ _ => True) N _ w0 i); [exact I|exact Hi| |].
  - intros k s Hk _. fold (inner k). destruct (Hin k) as [(v & E)|E]; rewrite E; cbn [bind]; [left|right; reflexivity].
    eexists. split; [reflexivity|exact I].
  - intros s _. fold (inner i). enough (E : inner i = Err DivZero) by (rewrite E; reflexivity).
    unfold inner. apply (loop_err DivZero (fun _ _ => True) N _ 1 j); [exact I|exact Hj| |].
    + intros k acc Hk _. destruct (Nat.eqb i k); [left; eexists; split; [reflexivity|exact I]|].
      unfold rdiv. destruct (Req_EM_T (z i - z k) 0); cbn [bind]; [right; reflexivity|left].
      eexists. split; [reflexivity|exact I].
    + intros acc _. destruct (Nat.eqb_spec i j); [contradiction|].
      rewrite Ez. replace (z j - z j) with 0 by ring. rewrite rdiv_zero. reflexivity.
Qed.

(** ---- eval ---- *)
Lemma fold_npoly N Z X : fold_up N (fun j L => L * (X - Z j)) 1 = npoly N Z X.
Proof. unfold npoly. induction N as [|n IH]; [reflexivity|]. cbn [fold_up rprod]. rewrite IH. reflexivity. Qed.

(** either kind of evaluation point, given its coincidence index *)
Definition point_ok (n : nat) (Z : nat -> R) (X : R) (ic : N) : Prop :=
  (exists k, (k < n)%nat /\ X = Z k /\ ic = N.of_nat k) \/
  ((N.of_nat n <= ic)%N /\ forall i, (i < n)%nat -> X - Z i <> 0).

Lemma find_point_ok N Z X : (N.of_nat N < 2 ^ 64)%N -> separated N Z -> clean N Z X ->
  point_ok N Z X (find_coincident_vertex N Z X).
Proof. intros H1 H2 H3. exact (find_clean N Z X H1 H2 H3). Qed.

Lemma eval_correct N Z w X ic i : distinct N Z -> weights_of N Z w -> (i < N)%nat ->
  point_ok N Z X ic -> eval N i ic Z w X = Ok (ell N Z i X).
Proof.
  intros D W Hi P. unfold eval.
  destruct P as [(k & Hk & -> & ->)|(Hic & Hx)].
  - rewrite (proj2 (N.ltb_lt _ _)) by lia. rewrite ell_delta by assumption. f_equal.
    destruct (N.eqb_spec (N.of_nat i) (N.of_nat k)) as [E|E];
    destruct (Nat.eqb_spec k i) as [E'|E']; try reflexivity; lia.
  - rewrite (proj2 (N.ltb_ge _ _)) by lia.
    rewrite rdiv_ok by (apply Hx; exact Hi). rewrite fold_npoly.
    rewrite (weights_bw N Z w i D W Hi), ell_bary by (auto; apply Hx; exact Hi). reflexivity.
Qed.

(** ---- eval_interp ---- *)
Lemma interp_sum_ok N Z w X c c' : distinct N Z -> weights_of N Z w ->
  (forall i, (i < N)%nat -> X - Z i <> 0) -> (forall i, (i < N)%nat -> c i = Ok (c' i)) ->
  interp_sum N Z w X c = Ok (rsum N (fun j => bw N Z j * c' j / (X - Z j)), npoly N Z X).
Proof.
  intros D W Hx Hc. unfold interp_sum, npoly.
  apply (loop_closed (fun n => (rsum n (fun j => bw N Z j * c' j / (X - Z j)), rprod n (fun j => X - Z j)))).
  intros j Hj. rewrite Hc by exact Hj. cbn [bind]. rewrite rdiv_ok by (apply Hx; exact Hj). cbn [bind].
  rewrite (weights_bw N Z w j D W Hj). reflexivity.
Qed.

Lemma eval_interp_correct N Z w X ic c c' : distinct N Z -> weights_of N Z w ->
  point_ok N Z X ic -> (forall i, (i < N)%nat -> c i = Ok (c' i)) ->
  eval_interp N ic Z w X c = Ok (interp N Z c' X).
Proof.
  intros D W P Hc. unfold eval_interp.
  destruct P as [(k & Hk & -> & ->)|(Hic & Hx)].
  - rewrite (proj2 (N.ltb_lt _ _)) by lia. rewrite Nnat.Nat2N.id, Hc by exact Hk.
    rewrite interp_node by assumption. reflexivity.
  - rewrite (proj2 (N.ltb_ge _ _)) by lia.
    rewrite (interp_sum_ok N Z w X c c' D W Hx Hc). cbn [bind]. rewrite interp_bary by exact Hx. reflexivity.
Qed.

(** ---- one derivative step ---- *)
(** free point: values v_j = sx (dkp - c_j) *)
Lemma der_step_free_ok N Z w X L k dkp dnp0 M c c' :
  distinct N Z -> weights_of N Z w ->
  (forall i, (i < N)%nat -> X - Z i <> 0) -> (forall i, (i < N)%nat -> c i = Ok (c' i)) ->
  exists c2, der_step_free N Z w X L k (dkp, dnp0, M, c) =
    Ok (rsum N (fun j => bw N Z j * (/ (X - Z j) * (dkp - c' j)) / (X - Z j)) * (L * (M * INR k)),
        rsum N (fun j => bw N Z j * (/ (X - Z j) * (dkp - c' j)) / (X - Z j)) * (L * (M * INR k)),
        M * INR k, c2) /\
    (forall i, (i < N)%nat -> c2 i = Ok (/ (X - Z i) * (dkp - c' i))) /\
    (forall i, (N <= i)%nat -> c2 i = c i).
Proof.
  intros D W Hx Hc. unfold der_step_free.
  set (v := fun j => / (X - Z j) * (dkp - c' j)).
  edestruct (loop_inv (fun n st => fst st = rsum n (fun j => bw N Z j * v j / (X - Z j)) /\
      (forall i, (i < n)%nat -> snd st i = Ok (v i)) /\ (forall i, (n <= i)%nat -> snd st i = c i)) N)
    as ((dnp & c2) & E & H1 & H2 & H3).
  3: { rewrite E. cbn [bind]. cbn [fst snd] in *. exists c2. rewrite H1. auto. }
  - cbn [fst snd]. split; [reflexivity|]. split; [intros; lia|auto].
  - intros j (dnp & cc) Hj (H1 & H2 & H3). cbn [fst snd] in *.
    rewrite rdiv_ok by (apply Hx; exact Hj). cbn [bind].
    rewrite H3, Hc by lia. cbn [bind].
    rewrite rdiv_ok by (apply Hx; exact Hj). cbn [bind].
    eexists. split; [reflexivity|]. cbn [fst snd]. split; [|split].
    + cbn [rsum]. rewrite H1, (weights_bw N Z w j D W Hj). unfold v, Rdiv. ring.
    + intros i Hi. destruct (Nat.eq_dec i j) as [->|E].
      * rewrite fset_eq. unfold v, Rdiv. f_equal. ring.
      * rewrite fset_neq by exact E. apply H2. lia.
    + intros i Hi. rewrite fset_neq by lia. apply H3. lia.
Qed.

Lemma der_step_coin_ok N Z w i k dkp dnp0 M c c' :
  distinct N Z -> weights_of N Z w -> (i < N)%nat ->
  (forall j, (j < N)%nat -> j <> i -> c j = Ok (c' j)) ->
  exists c2, der_step_coincident N i Z w k (dkp, dnp0, M, c) =
    Ok (rsum N (fun j => if Nat.eqb j i then 0 else bw N Z j * (/ (Z i - Z j) * (dkp - c' j))) * (- (M * INR k) / bw N Z i),
        rsum N (fun j => if Nat.eqb j i then 0 else bw N Z j * (/ (Z i - Z j) * (dkp - c' j))) * (- (M * INR k) / bw N Z i),
        M * INR k, c2) /\
    (forall j, (j < N)%nat -> j <> i -> c2 j = Ok (/ (Z i - Z j) * (dkp - c' j))) /\
    (forall j, (N <= j)%nat -> c2 j = c j).
Proof.
  intros D W Hi Hc. unfold der_step_coincident.
  set (v := fun j => / (Z i - Z j) * (dkp - c' j)).
  edestruct (loop_inv (fun n st => fst st = rsum n (fun j => if Nat.eqb j i then 0 else bw N Z j * v j) /\
      (forall j, (j < n)%nat -> j <> i -> snd st j = Ok (v j)) /\ (forall j, (n <= j)%nat -> snd st j = c j)) N)
    as ((dnp & c2) & E & H1 & H2 & H3).
  3: { rewrite E. cbn [bind]. cbn [fst snd] in *.
       rewrite (weights_bw N Z w i D W Hi).
       rewrite rdiv_ok by (apply bw_neq0; assumption). cbn [bind]. exists c2. rewrite H1. auto. }
  - cbn [fst snd]. split; [reflexivity|]. split; [intros; lia|auto].
  - intros j (dnp & cc) Hj (H1 & H2 & H3). cbn [fst snd] in *. cbn [rsum].
    destruct (Nat.eqb_spec j i) as [E|E].
    + eexists. split; [reflexivity|]. cbn [fst snd]. split; [rewrite H1; ring|]. split.
      * intros j' Hj' E'. rewrite fset_neq by congruence. apply H2; [lia|exact E'].
      * intros j' Hj'. rewrite fset_neq by lia. apply H3. lia.
    + rewrite rdiv_ok by (specialize (D i j Hi Hj ltac:(congruence)); lra). cbn [bind].
      rewrite H3, Hc by (auto; lia). cbn [bind].
      eexists. split; [reflexivity|]. cbn [fst snd]. split; [|split].
      * rewrite H1, (weights_bw N Z w j D W Hj). unfold v, Rdiv. ring.
      * intros j' Hj' E'. destruct (Nat.eq_dec j' j) as [->|E2].
        -- rewrite fset_eq. unfold v, Rdiv. f_equal. ring.
        -- rewrite fset_neq by exact E2. apply H2; [lia|exact E'].
      * intros j' Hj'. rewrite fset_neq by lia. apply H3. lia.
Qed.

(** ---- orders 1 and 2 at both kinds of points ---- *)
Section Orders.
  Variables (N : nat) (Z w : nat -> R) (X : R) (c : nat -> res R) (c' : nat -> R).
  Hypotheses (D : distinct N Z) (W : weights_of N Z w)
             (Hc : forall i, (i < N)%nat -> c i = Ok (c' i)).
  Let p := interp N Z c'.

  Lemma factors : (0 < N)%nat -> exists g h k,
    poly_lt (pred N) g /\ poly_lt (pred N) h /\ poly_lt (pred N) k /\
    (forall y, p y = p X + (y - X) * g y) /\ (forall y, g y = g X + (y - X) * h y) /\
    (forall y, h y = h X + (y - X) * k y).
  Proof.
    intros HN.
    assert (Fg : forall f, poly_lt (pred N) f -> exists g, poly_lt (pred N) g /\ forall x, f x = f X + (x - X) * g x).
    { intros f Hf. destruct (poly_factor (pred N) f X) as (g & Hg & E); [apply (poly_mono (pred N)); [lia|exact Hf]|].
      exists g. split; [|exact E]. exact Hg. }
    destruct (poly_factor (pred N) p X) as (g & Hg & Eg).
    { replace (S (pred N)) with N by lia. apply interp_poly. }
    destruct (Fg g Hg) as (h & Hh & Eh). destruct (Fg h Hh) as (k & Hk & Ek).
    exists g, h, k. auto 10.
  Qed.

  (** divided difference identity at a vertex different from X *)
  Lemma dd_value (f g : R -> R) j : (forall y, f y = f X + (y - X) * g y) ->
    X - Z j <> 0 -> / (X - Z j) * (f X - f (Z j)) = g (Z j).
  Proof.
    intros E Hx. rewrite (E (Z j)). field. exact Hx.
  Qed.

  Lemma free_sum (g : R -> R) (v : nat -> R) : poly_lt (pred N) g ->
    (forall i, (i < N)%nat -> X - Z i <> 0) -> (forall j, (j < N)%nat -> v j = g (Z j)) ->
    rsum N (fun j => bw N Z j * v j / (X - Z j)) * npoly N Z X = g X.
  Proof.
    intros Hg Hx Hv. rewrite (interp_bary N Z v X Hx).
    rewrite (interp_ext N Z v (fun j => g (Z j)) X Hv).
    apply interp_repro; [exact D|]. apply (poly_mono (pred N)); [lia|exact Hg].
  Qed.

  Lemma order1 ic : (0 < N)%nat -> point_ok N Z X ic ->
    exists d c2, eval_der_interp N 1 ic Z w X c = Ok (d, c2) /\ derivable_pt_lim p X d /\
      (forall i, (N <= i)%nat -> c2 i = c i).
  Proof.
    intros HN P. destruct (factors HN) as (g & h & k & Hg & _ & _ & Eg & _).
    unfold eval_der_interp. destruct P as [(i & Hi & EX & ->)|(Hic & Hx)].
    - rewrite (proj2 (N.ltb_lt _ _)) by lia. rewrite Nnat.Nat2N.id, Hc by exact Hi. cbn [bind loop_from].
      destruct (der_step_coin_ok N Z w i 1 (c' i) 0 1 c c' D W Hi) as (c2 & E & _ & H3); [auto|].
      rewrite E. cbn [bind]. eexists. exists c2. split; [reflexivity|]. split; [|exact H3].
      apply (der_value _ _ (g X)); [|apply (derivable_pt_lim_factor p g _ X Hg Eg)].
      rewrite EX, <- (bw_at_vertex N Z g i D Hi Hg).
      replace (- (1 * INR 1) / bw N Z i) with (- / bw N Z i) by (simpl; unfold Rdiv; ring).
      f_equal. apply rsum_ext. intros j Hj. destruct (Nat.eqb_spec j i) as [Q|Q]; [reflexivity|].
      f_equal. symmetry. rewrite <- EX. 
      replace (c' i) with (p X) by (unfold p; rewrite EX; apply interp_node; assumption).
      replace (c' j) with (p (Z j)) by (unfold p; apply interp_node; assumption).
      apply (dd_value p g j Eg). rewrite EX. specialize (D i j Hi Hj ltac:(congruence)). lra.
    - rewrite (proj2 (N.ltb_ge _ _)) by lia.
      rewrite (interp_sum_ok N Z w X c c' D W Hx Hc). cbn [bind loop_from].
      rewrite (interp_bary N Z c' X Hx). fold p.
      destruct (der_step_free_ok N Z w X (npoly N Z X) 1 (p X) 0 1 c c' D W Hx Hc) as (c2 & E & _ & H3).
      rewrite E. cbn [bind]. eexists. exists c2. split; [reflexivity|]. split; [|exact H3].
      apply (der_value _ _ (g X)); [|apply (derivable_pt_lim_factor p g _ X Hg Eg)].
      rewrite <- (free_sum g (fun j => / (X - Z j) * (p X - c' j)) Hg Hx).
      + simpl. ring.
      + intros j Hj. replace (c' j) with (p (Z j)) by (unfold p; apply interp_node; assumption).
        apply (dd_value p g j Eg). apply Hx; exact Hj.
  Qed.

  Lemma order2 ic : (0 < N)%nat -> point_ok N Z X ic ->
    exists d c2, eval_der_interp N 2 ic Z w X c = Ok (d, c2) /\ is_der2 p X d.
  Proof.
    intros HN P. destruct (factors HN) as (g & h & k & Hg & Hh & _ & Eg & Eh & _).
    unfold eval_der_interp. destruct P as [(i & Hi & EX & ->)|(Hic & Hx)].
    - rewrite (proj2 (N.ltb_lt _ _)) by lia. rewrite Nnat.Nat2N.id, Hc by exact Hi. cbn [bind loop_from].
      assert (Nz : forall j, (j < N)%nat -> j <> i -> X - Z j <> 0).
      { intros j Hj Q. rewrite EX. specialize (D i j Hi Hj ltac:(congruence)). lra. }
      destruct (der_step_coin_ok N Z w i 1 (c' i) 0 1 c c' D W Hi) as (c2 & E & H2 & _); [auto|].
      rewrite E. cbn [bind]. clear E.
      assert (V1 : rsum N (fun j => if Nat.eqb j i then 0 else bw N Z j * (/ (Z i - Z j) * (c' i - c' j))) *
                (- (1 * INR 1) / bw N Z i) = g X).
      { rewrite EX, <- (bw_at_vertex N Z g i D Hi Hg).
        replace (- (1 * INR 1) / bw N Z i) with (- / bw N Z i) by (simpl; unfold Rdiv; ring).
        f_equal. apply rsum_ext. intros j Hj. destruct (Nat.eqb_spec j i) as [Q|Q]; [reflexivity|].
        f_equal. rewrite <- EX.
        replace (c' i) with (p X) by (unfold p; rewrite EX; apply interp_node; assumption).
        replace (c' j) with (p (Z j)) by (unfold p; apply interp_node; assumption).
        apply (dd_value p g j Eg). apply Nz; assumption. }
      rewrite V1.
      destruct (der_step_coin_ok N Z w i 2 (g X) (g X) (1 * INR 1) c2 (fun j => g (Z j)) D W Hi)
        as (c3 & E & _ & _).
      { intros j Hj Q. rewrite (H2 j Hj Q). f_equal. rewrite <- EX.
        replace (c' i) with (p X) by (unfold p; rewrite EX; apply interp_node; assumption).
        replace (c' j) with (p (Z j)) by (unfold p; apply interp_node; assumption).
        apply (dd_value p g j Eg). apply Nz; assumption. }
      rewrite E. cbn [bind]. eexists. exists c3. split; [reflexivity|].
      replace (_ * _) with (2 * h X); [apply (der2_of_factors _ p g h X Hh Eg Eh)|].
      assert (B := bw_at_vertex N Z h i D Hi Hh). rewrite <- EX in B. rewrite <- B.
      rewrite Rmult_comm, Rmult_assoc. f_equal; [|simpl; unfold Rdiv; ring].
      apply rsum_ext. intros j Hj. destruct (Nat.eqb_spec j i) as [Q|Q]; [reflexivity|].
      f_equal. symmetry. rewrite <- EX. apply (dd_value g h j Eh). apply Nz; assumption.
    - rewrite (proj2 (N.ltb_ge _ _)) by lia.
      rewrite (interp_sum_ok N Z w X c c' D W Hx Hc). cbn [bind loop_from].
      rewrite (interp_bary N Z c' X Hx). fold p.
      destruct (der_step_free_ok N Z w X (npoly N Z X) 1 (p X) 0 1 c c' D W Hx Hc) as (c2 & E & H2 & _).
      rewrite E. cbn [bind]. clear E.
      assert (Pv : forall j, (j < N)%nat -> / (X - Z j) * (p X - c' j) = g (Z j)).
      { intros j Hj. replace (c' j) with (p (Z j)) by (unfold p; apply interp_node; assumption).
        apply (dd_value p g j Eg). apply Hx; exact Hj. }
      assert (V1 : rsum N (fun j => bw N Z j * (/ (X - Z j) * (p X - c' j)) / (X - Z j)) *
                   (npoly N Z X * (1 * INR 1)) = g X).
      { rewrite <- (free_sum g _ Hg Hx Pv). simpl. ring. }
      rewrite V1.
      destruct (der_step_free_ok N Z w X (npoly N Z X) 2 (g X) (g X) (1 * INR 1) c2 (fun j => g (Z j)) D W Hx)
        as (c3 & E & _ & _).
      { intros j Hj. rewrite (H2 j Hj). f_equal. apply Pv; exact Hj. }
      rewrite E. cbn [bind]. eexists. exists c3. split; [reflexivity|].
      replace (_ * _) with (2 * h X); [apply (der2_of_factors _ p g h X Hh Eg Eh)|].
      rewrite <- (free_sum h (fun j => / (X - Z j) * (g X - g (Z j))) Hh Hx).
      + simpl. ring.
      + intros j Hj. apply (dd_value g h j Eh). apply Hx; exact Hj.
  Qed.

  (** order 3 away from the vertices: what the code really returns *)
  Lemma order3_free ic : (0 < N)%nat -> (N.of_nat N <= ic)%N -> (forall i, (i < N)%nat -> X - Z i <> 0) ->
    exists d2 d3 c2, is_der2 p X d2 /\ is_der3 p X d3 /\
      eval_der_interp N 3 ic Z w X c = Ok (d3 + 3 * d2 * rsum N (fun k => / (X - Z k)), c2).
  Proof.
    intros HN Hic Hx. destruct (factors HN) as (g & h & k & Hg & Hh & Hk & Eg & Eh & Ek).
    unfold eval_der_interp. rewrite (proj2 (N.ltb_ge _ _)) by lia.
    rewrite (interp_sum_ok N Z w X c c' D W Hx Hc). cbn [bind loop_from].
    rewrite (interp_bary N Z c' X Hx). fold p.
    destruct (der_step_free_ok N Z w X (npoly N Z X) 1 (p X) 0 1 c c' D W Hx Hc) as (c2 & E & H2 & _).
    rewrite E. cbn [bind]. clear E.
    assert (Pv : forall j, (j < N)%nat -> / (X - Z j) * (p X - c' j) = g (Z j)).
    { intros j Hj. replace (c' j) with (p (Z j)) by (unfold p; apply interp_node; assumption).
      apply (dd_value p g j Eg). apply Hx; exact Hj. }
    replace (rsum N (fun j => bw N Z j * (/ (X - Z j) * (p X - c' j)) / (X - Z j)) *
                 (npoly N Z X * (1 * INR 1))) with (g X)
      by (rewrite <- (free_sum g _ Hg Hx Pv); simpl; ring).
    destruct (der_step_free_ok N Z w X (npoly N Z X) 2 (g X) (g X) (1 * INR 1) c2 (fun j => g (Z j)) D W Hx)
      as (c3 & E & H3 & _).
    { intros j Hj. rewrite (H2 j Hj). f_equal. apply Pv; exact Hj. }
    rewrite E. cbn [bind]. clear E.
    assert (Ph : forall j, (j < N)%nat -> / (X - Z j) * (g X - g (Z j)) = h (Z j)).
    { intros j Hj. apply (dd_value g h j Eh). apply Hx; exact Hj. }
    replace (rsum N (fun j => bw N Z j * (/ (X - Z j) * (g X - g (Z j))) / (X - Z j)) *
                 (npoly N Z X * (1 * INR 1 * INR 2))) with (2 * h X)
      by (rewrite <- (free_sum h _ Hh Hx Ph); simpl; ring).
    destruct (der_step_free_ok N Z w X (npoly N Z X) 3 (2 * h X) (2 * h X) (1 * INR 1 * INR 2) c3 (fun j => h (Z j)) D W Hx)
      as (c4 & E & _ & _).
    { intros j Hj. rewrite (H3 j Hj). f_equal. apply Ph; exact Hj. }
    rewrite E. cbn [bind]. clear E.
    exists (2 * h X), (6 * k X), c4.
    split; [apply (der2_of_factors _ p g h X Hh Eg Eh)|].
    split; [apply (der3_of_factors _ p g h k X Hk Eg Eh Ek)|].
    f_equal. f_equal.
    rewrite (rsum_ext N _ (fun j => bw N Z j * k (Z j) / (X - Z j) + h X * (bw N Z j / (X - Z j) / (X - Z j)))).
    2: { intros j Hj. rewrite <- (dd_value h k j Ek (Hx j Hj)). unfold Rdiv. ring. }
    rewrite rsum_plus, rsum_scal_l.
    rewrite <- (ell_over N Z X D Hx).
    rewrite (rsum_ext N (fun j => ell N Z j X / (X - Z j)) (fun j => npoly N Z X * (bw N Z j / (X - Z j) / (X - Z j)))).
    2: { intros j Hj. rewrite (ell_bary N Z j X Hj (Hx j Hj)). unfold Rdiv. ring. }
    rewrite rsum_scal_l.
    rewrite <- (free_sum k (fun j => k (Z j)) Hk Hx (fun j _ => eq_refl)).
    simpl. ring.
  Qed.
End Orders.

Lemma order0 N ic Z w X c c' : (forall i, (i < N)%nat -> c i = Ok (c' i)) -> distinct N Z -> weights_of N Z w ->
  point_ok N Z X ic -> eval_der_interp N 0 ic Z w X c = Ok (0, c).
Proof.
  intros Hc D W P. unfold eval_der_interp. destruct P as [(k & Hk & -> & ->)|(Hic & Hx)].
  - rewrite (proj2 (N.ltb_lt _ _)) by lia. rewrite Nnat.Nat2N.id, Hc by exact Hk. reflexivity.
  - rewrite (proj2 (N.ltb_ge _ _)) by lia.
    rewrite (interp_sum_ok N Z w X c c' D W Hx Hc). reflexivity.
Qed.

Lemma delta_init N i (c : nat -> res R) j :
  fold_up N (fun j c => fset c j (Ok (if Nat.eqb j i then 1 else 0))) c j =
  if Nat.ltb j N then Ok (if Nat.eqb j i then 1 else 0) else c j.
Proof.
  induction N as [|n IH]; [reflexivity|]. cbn [fold_up].
  destruct (Nat.eq_dec j n) as [->|E].
  - rewrite fset_eq. rewrite (proj2 (Nat.ltb_lt _ _)) by lia. reflexivity.
  - rewrite fset_neq, IH by exact E.
    destruct (Nat.ltb_spec j n); destruct (Nat.ltb_spec j (S n)); try reflexivity; lia.
Qed.

Lemma interp_delta N Z i x : (i < N)%nat ->
  interp N Z (fun j => if Nat.eqb j i then 1 else 0) x = ell N Z i x.
Proof.
  intros Hi. unfold interp. rewrite (rsum_single N i); [|exact Hi|].
  - rewrite Nat.eqb_refl. ring.
  - intros j _ E. destruct (Nat.eqb_spec j i); [contradiction|ring].
Qed.

Lemma eval_der1_correct N Z w X ic i c : distinct N Z -> weights_of N Z w -> (i < N)%nat ->
  point_ok N Z X ic ->
  exists d c2, eval_der N 1 i ic Z w X c = Ok (d, c2) /\ derivable_pt_lim (ell N Z i) X d /\
    (forall j, (N <= j)%nat -> c2 j = c j).
Proof.
  intros D W Hi P. unfold eval_der.
  destruct (order1 N Z w X (fold_up N (fun j c => fset c j (Ok (if Nat.eqb j i then 1 else 0))) c)
    (fun j => if Nat.eqb j i then 1 else 0) D W) with (ic := ic) as (d & c2 & E & Hd & Hc2); try assumption; try lia.
  - intros j Hj. rewrite delta_init. rewrite (proj2 (Nat.ltb_lt _ _)) by exact Hj. reflexivity.
  - exists d, c2. split; [exact E|]. split.
    + apply (der_ext _ _ _ _ (fun t => interp_delta N Z i t Hi) Hd).
    + intros j Hj. rewrite (Hc2 j Hj), delta_init. destruct (Nat.ltb_spec j N); [lia|reflexivity].
Qed.

Lemma eval_der2_correct N Z w X ic i c : distinct N Z -> weights_of N Z w -> (i < N)%nat ->
  point_ok N Z X ic ->
  exists d c2, eval_der N 2 i ic Z w X c = Ok (d, c2) /\ is_der2 (ell N Z i) X d.
Proof.
  intros D W Hi P. unfold eval_der.
  destruct (order2 N Z w X (fold_up N (fun j c => fset c j (Ok (if Nat.eqb j i then 1 else 0))) c)
    (fun j => if Nat.eqb j i then 1 else 0) D W) with (ic := ic) as (d & c2 & E & Hd); try assumption; try lia.
  - intros j Hj. rewrite delta_init. rewrite (proj2 (Nat.ltb_lt _ _)) by exact Hj. reflexivity.
  - exists d, c2. split; [exact E|]. destruct Hd as (f' & D1 & D2). exists f'. split; [|exact D2].
    intros t. apply (der_ext _ _ _ _ (fun t => interp_delta N Z i t Hi) (D1 t)).
Qed.
