(** Roundings of the Lagrange routines. *)
From Coq Require Import List Reals NArith Arith Lia Lra.
Import ListNotations.
Require Import Verif.Base Verif.RBase Verif.RSum Verif.Poly Verif.RDer Verif.Spec_Lagrange Verif.Rolle
  Verif.Lagrange_Math Verif.Model_Common Verif.Model_Lagrange Verif.Proof_Lagrange Verif.Proof_LagElem Verif.Spec_Float Verif.Float_Base Verif.Model_FloatLagrange.
Open Scope R_scope.

Section FL.
Context (u : R) (rnd : R -> R).
Hypothesis Hu : 0 <= u < 1.
Hypothesis Hr : rounds u rnd.
Notation within := (within u).
Let rw := rnd_w u Hu rnd Hr.

Lemma rnd_neq0 x : x <> 0 -> rnd x <> 0.
Proof. intros H E. apply H. apply (rnd_eq0 u Hu rnd Hr). exact E. Qed.
Lemma rdivf_ok a b : b <> 0 -> exists t, within 1 t /\ rdivf rnd a b = Ok (a / b * t).
Proof. intros H. unfold rdivf. destruct (Req_EM_T b 0); [contradiction|]. destruct (rw (a / b)) as (t & W & E). exists t. split; [exact W|]. rewrite E. reflexivity. Qed.
(** a quotient by a rounded difference *)
Lemma rdivf_sub a b : b <> 0 -> exists t, within 2 t /\ rdivf rnd a (rnd b) = Ok (a / b * t).
Proof.
  intros H. destruct (rw b) as (t & W & E). destruct (rdivf_ok a (rnd b) (rnd_neq0 b H)) as (s & W' & E'). assert (P := within_pos u Hu _ _ W).
  exists (/ t * s). split; [apply (within_mul u Hu 1 1); [apply within_inv; assumption|exact W']|]. rewrite E', E. f_equal. field. split; [lra|exact H].
Qed.

(** ---- weights ---- *)
Definition near_weights (N : nat) (Z w : nat -> R) : Prop :=
  forall i, (i < N)%nat -> exists t, within (3 * (N - 1)) t /\ w i = bw N Z i * t.
Lemma weightsf_ok N z w0 : distinct N z ->
  exists w, compute_barycentric_weightsf rnd N z w0 = Ok w /\ near_weights N z w /\ (forall i, (N <= i)%nat -> w i = w0 i).
Proof.
  intros D. unfold compute_barycentric_weightsf.
  edestruct (loop_inv (fun n w => (forall i, (i < n)%nat -> exists t, within (3 * (N - 1)) t /\ w i = bw N z i * t) /\
              (forall i, (n <= i)%nat -> w i = w0 i)) N) as (w & E & H1 & H2).
  3: { exists w. split; [exact E|]. split; [exact H1|exact H2]. }
  - split; [intros; lia|auto].
  - intros j w Hj (H1 & H2).
    edestruct (loop_inv (fun n acc => exists t, within (3 * (if Nat.leb n j then n else n - 1)) t /\ acc = rprod n (fun k => if Nat.eqb k j then 1 else / (z j - z k)) * t) N)
      as (wj & E & t & Wt & Et).
    3: { rewrite E. cbn [bind]. eexists. split; [reflexivity|]. split.
      - intros i Hi. destruct (Nat.eq_dec i j) as [->|Ne].
        + rewrite fset_eq. exists t. split; [|rewrite Et; reflexivity]. destruct (Nat.leb_spec N j); [lia|exact Wt].
        + rewrite fset_neq by exact Ne. apply H1. lia.
      - intros i Hi. rewrite fset_neq by lia. apply H2. lia. }
    + exists 1. split; [apply (within_1 u Hu)|]. cbn [rprod]. ring.
    + intros k acc Hk (t & Wt & ->). cbn [rprod]. rewrite (Nat.eqb_sym k j). destruct (Nat.eqb_spec j k) as [<-|Ne].
      * eexists. split; [reflexivity|]. exists t. split; [|ring]. rewrite Nat.leb_refl in Wt. destruct (Nat.leb_spec (S j) j); [lia|]. replace (S j - 1)%nat with j by lia. exact Wt.
      * assert (Nz : z j - z k <> 0) by (specialize (D j k Hj Hk Ne); lra).
        destruct (rdivf_sub 1 (z j - z k) Nz) as (s & Ws & Es). rewrite Es. cbn [bind].
        destruct (rw (rprod k (fun k0 => if Nat.eqb k0 j then 1 else / (z j - z k0)) * t * (1 / (z j - z k) * s))) as (r & Wr & Er). rewrite Er.
        eexists. split; [reflexivity|]. exists (t * (s * r)). split; [|unfold Rdiv; ring].
        replace (3 * (if Nat.leb (S k) j then S k else S k - 1))%nat with (3 * (if Nat.leb k j then k else k - 1) + (2 + 1))%nat
          by (destruct (Nat.leb_spec (S k) j), (Nat.leb_spec k j); lia).
        apply (within_mul u Hu); [exact Wt|]. apply (within_mul u Hu); assumption.
Qed.

(** ---- nodal polynomial ---- *)
Lemma npolyf N Z X : exists t, within (2 * N) t /\ fold_up N (fun j L => rnd (L * rnd (X - Z j))) 1 = npoly N Z X * t.
Proof.
  unfold npoly. induction N as [|n (t & W & E)]; cbn [fold_up rprod]; [exists 1; split; [apply (within_1 u Hu)|ring]|].
  rewrite E. destruct (rw (X - Z n)) as (s & Ws & ->). destruct (rw (rprod n (fun j => X - Z j) * t * ((X - Z n) * s))) as (r & Wr & ->).
  exists (t * (s * r)). split; [|ring]. replace (2 * S n)%nat with (2 * n + (1 + 1))%nat by lia. apply (within_mul u Hu); [exact W|]. apply (within_mul u Hu); assumption.
Qed.

(** ---- eval ---- *)
Lemma evalf_ok N Z w X ic i : distinct N Z -> near_weights N Z w -> (i < N)%nat -> point_ok N Z X ic ->
  exists t, within (5 * N) t /\ evalf rnd N i ic Z w X = Ok (ell N Z i X * t).
Proof.
  intros D W Hi P. unfold evalf. destruct P as [(k & Hk & -> & ->)|(Hic & Hx)].
  - rewrite (proj2 (N.ltb_lt _ _)) by lia. exists 1. split; [apply (within_1 u Hu)|]. rewrite ell_delta by assumption. rewrite Rmult_1_r. f_equal.
    destruct (N.eqb_spec (N.of_nat i) (N.of_nat k)), (Nat.eqb_spec k i); try reflexivity; lia.
  - rewrite (proj2 (N.ltb_ge _ _)) by lia. destruct (npolyf N Z X) as (t & Wt & ->). destruct (W i Hi) as (s & Ws & ->).
    destruct (rw (npoly N Z X * t * (bw N Z i * s))) as (r & Wr & ->).
    destruct (rdivf_sub (npoly N Z X * t * (bw N Z i * s) * r) (X - Z i) (Hx i Hi)) as (q & Wq & ->).
    exists (t * (s * (r * q))). split.
    + replace (5 * N)%nat with (2 * N + (3 * (N - 1) + (1 + 2)))%nat by lia. repeat (apply (within_mul u Hu); [assumption|]). assumption.
    + f_equal. rewrite ell_bary by (auto). unfold Rdiv. ring.
Qed.

(** ---- the common sum ---- *)
Lemma interp_sumf_ok N Z w X c c' : distinct N Z -> near_weights N Z w ->
  (forall i, (i < N)%nat -> X - Z i <> 0) -> (forall i, (i < N)%nat -> c i = Ok (c' i)) ->
  exists th tl, (forall j, (j < N)%nat -> within (4 * N) (th j)) /\ within (2 * N) tl /\
  interp_sumf rnd N Z w X c = Ok (rsum N (fun j => bw N Z j * (c' j * th j) / (X - Z j)), npoly N Z X * tl).
Proof.
  intros D W Hx Hc. unfold interp_sumf, npoly.
  edestruct (loop_inv (fun n (st : R * R) => exists th tl, (forall j, (j < n)%nat -> within (3 * (N - 1) + (3 + n)) (th j)) /\ within (2 * n) tl /\
      st = (rsum n (fun j => bw N Z j * (c' j * th j) / (X - Z j)), rprod n (fun j => X - Z j) * tl)) N) as (st & E & th & tl & Wt & Wl & ->).
  3: { exists th, tl. split; [|split; [exact Wl|exact E]]. intros j Hj. apply (within_le u Hu (3 * (N - 1) + (3 + N))); [lia|apply Wt, Hj]. }
  - exists (fun _ => 1), 1. split; [intros; lia|]. split; [apply (within_1 u Hu)|]. cbn [rsum rprod]. f_equal. ring.
  - intros n st Hn (th & tl & Wt & Wl & ->). rewrite Hc by exact Hn. cbn [bind].
    destruct (W n Hn) as (a & Wa & ->). destruct (rw (bw N Z n * a * c' n)) as (b & Wb & ->).
    destruct (rdivf_sub (bw N Z n * a * c' n * b) (X - Z n) (Hx n Hn)) as (q & Wq & ->). cbn [bind].
    destruct (rw (rsum n (fun j => bw N Z j * (c' j * th j) / (X - Z j)) + bw N Z n * a * c' n * b / (X - Z n) * q)) as (r & Wr & ->).
    destruct (rw (X - Z n)) as (s & Ws & ->). destruct (rw (rprod n (fun j => X - Z j) * tl * ((X - Z n) * s))) as (v & Wv & ->).
    eexists. split; [reflexivity|].
    exists (fun j => if Nat.eqb j n then a * (b * (q * r)) else th j * r), (tl * (s * v)). split; [|split].
    + intros j Hj. destruct (Nat.eqb_spec j n) as [->|Ne].
      * apply (within_le u Hu (3 * (N - 1) + (1 + (2 + 1)))); [lia|]. repeat (apply (within_mul u Hu); [assumption|]). assumption.
      * replace (3 * (N - 1) + (3 + S n))%nat with (3 * (N - 1) + (3 + n) + 1)%nat by lia. apply (within_mul u Hu); [apply Wt; lia|exact Wr].
    + replace (2 * S n)%nat with (2 * n + (1 + 1))%nat by lia. repeat (apply (within_mul u Hu); [assumption|]). assumption.
    + cbn [rsum rprod]. rewrite Nat.eqb_refl. f_equal; [|ring].
      rewrite (rsum_ext n (fun j => bw N Z j * (c' j * (if Nat.eqb j n then a * (b * (q * r)) else th j * r)) / (X - Z j)) (fun j => bw N Z j * (c' j * th j) / (X - Z j) * r)).
      * rewrite rsum_scal_r. unfold Rdiv. ring.
      * intros j Hj. destruct (Nat.eqb_spec j n); [lia|]. unfold Rdiv. ring.
Qed.

Lemma eval_interpf_ok N Z w X ic c c' : distinct N Z -> near_weights N Z w ->
  point_ok N Z X ic -> (forall i, (i < N)%nat -> c i = Ok (c' i)) ->
  exists th, (forall j, (j < N)%nat -> within (6 * N + 1) (th j)) /\ eval_interpf rnd N ic Z w X c = Ok (interp N Z (fun j => c' j * th j) X).
Proof.
  intros D W P Hc. unfold eval_interpf. destruct P as [(k & Hk & -> & ->)|(Hic & Hx)].
  - rewrite (proj2 (N.ltb_lt _ _)) by lia. rewrite Nnat.Nat2N.id, Hc by exact Hk. exists (fun _ => 1). split; [intros; apply (within_1 u Hu)|].
    rewrite interp_node by assumption. f_equal. ring.
  - rewrite (proj2 (N.ltb_ge _ _)) by lia. destruct (interp_sumf_ok N Z w X c c' D W Hx Hc) as (th & tl & Wt & Wl & ->). cbn [bind].
    destruct (rw (rsum N (fun j => bw N Z j * (c' j * th j) / (X - Z j)) * (npoly N Z X * tl))) as (r & Wr & ->).
    exists (fun j => th j * (tl * r)). split.
    + intros j Hj. replace (6 * N + 1)%nat with (4 * N + (2 * N + 1))%nat by lia. apply (within_mul u Hu); [apply Wt, Hj|]. apply (within_mul u Hu); assumption.
    + f_equal. rewrite <- (interp_bary N Z (fun j => c' j * (th j * (tl * r))) X Hx).
      rewrite (rsum_ext N (fun j => bw N Z j * (c' j * (th j * (tl * r))) / (X - Z j)) (fun j => bw N Z j * (c' j * th j) / (X - Z j) * (tl * r))) by (intros; unfold Rdiv; ring).
      rewrite rsum_scal_r. ring.
Qed.

(** ---- one derivative ---- *)
Lemma der_freef N Z w X ic c c' : distinct N Z -> near_weights N Z w ->
  (N.of_nat N <= ic)%N -> (forall i, (i < N)%nat -> X - Z i <> 0) -> (forall i, (i < N)%nat -> c i = Ok (c' i)) ->
  exists th ph c2, (forall j, (j < N)%nat -> within (6 * N + 1) (th j)) /\ (forall j, (j < N)%nat -> within (6 * N + 7) (ph j)) /\
    eval_der_interpf rnd N 1 ic Z w X c = Ok (rsum N (fun j => ell N Z j X * (interp N Z (fun i => c' i * th i) X - c' j) / (X - Z j) * ph j), c2) /\
    (forall i, (N <= i)%nat -> c2 i = c i).
Proof.
  intros D W Hic Hx Hc. unfold eval_der_interpf. rewrite (proj2 (N.ltb_ge _ _)) by lia.
  destruct (interp_sumf_ok N Z w X c c' D W Hx Hc) as (th & tl & Wt & Wl & ->). cbn [bind loop_from].
  destruct (rw (rsum N (fun j => bw N Z j * (c' j * th j) / (X - Z j)) * (npoly N Z X * tl))) as (r & Wr & ->).
  set (q := rsum N _ * (npoly N Z X * tl) * r).
  assert (Eq : q = interp N Z (fun j => c' j * (th j * (tl * r))) X).
  { unfold q. rewrite <- (interp_bary N Z (fun j => c' j * (th j * (tl * r))) X Hx).
    rewrite (rsum_ext N (fun j => bw N Z j * (c' j * (th j * (tl * r))) / (X - Z j)) (fun j => bw N Z j * (c' j * th j) / (X - Z j) * (tl * r))) by (intros; unfold Rdiv; ring).
    rewrite rsum_scal_r. ring. }
  assert (Wth : forall j, (j < N)%nat -> within (6 * N + 1) (th j * (tl * r))).
  { intros j Hj. replace (6 * N + 1)%nat with (4 * N + (2 * N + 1))%nat by lia. apply (within_mul u Hu); [apply Wt, Hj|]. apply (within_mul u Hu); assumption. }
  clearbody q. unfold der_step_freef.
  edestruct (loop_inv (fun n (st : R * (nat -> res R)) => (exists ph, (forall j, (j < n)%nat -> within (3 * (N - 1) + (7 + n)) (ph j)) /\
      fst st = rsum n (fun j => bw N Z j * (q - c' j) / (X - Z j) / (X - Z j) * ph j)) /\ forall i, (n <= i)%nat -> snd st i = c i) N) as ((s & c2) & E & (ph & Wp & Ep) & H2).
  3: { rewrite E. cbn [bind]. cbn [fst snd] in Ep, H2. destruct (rw (1 * INR 1)) as (m & Wm & ->). destruct (rw (npoly N Z X * tl * (1 * INR 1 * m))) as (a & Wa & ->).
       destruct (rw (s * (npoly N Z X * tl * (1 * INR 1 * m) * a))) as (b & Wb & ->). rewrite Ep.
       exists (fun j => th j * (tl * r)), (fun j => ph j * (tl * (m * (a * b)))), c2. split; [exact Wth|]. split; [|split; [|exact H2]].
       - intros j Hj. apply (within_le u Hu (3 * (N - 1) + (7 + N) + (2 * N + (1 + (1 + 1))))); [lia|].
         apply (within_mul u Hu); [apply Wp, Hj|]. repeat (apply (within_mul u Hu); [assumption|]). assumption.
       - f_equal. f_equal. rewrite <- Eq. change (INR 1) with 1. rewrite (rsum_ext N (fun j => ell N Z j X * (q - c' j) / (X - Z j) * (ph j * (tl * (m * (a * b)))))
           (fun j => bw N Z j * (q - c' j) / (X - Z j) / (X - Z j) * ph j * (npoly N Z X * tl * m * a * b))).
         + rewrite rsum_scal_r. ring.
         + intros j Hj. rewrite ell_bary by auto. unfold Rdiv. ring. }
  - cbn [fst snd]. split; [|auto]. exists (fun _ => 1). split; [intros; lia|reflexivity].
  - intros n (s & cc) Hn ((ph & Wp & Ep) & H2). cbn [fst snd] in Ep, H2.
    destruct (rdivf_sub 1 (X - Z n) (Hx n Hn)) as (a & Wa & ->). cbn [bind]. rewrite H2, Hc by lia. cbn [bind].
    destruct (rw (q - c' n)) as (b & Wb & ->). destruct (rw (1 / (X - Z n) * a * ((q - c' n) * b))) as (d & Wd & Ed). rewrite Ed.
    destruct (W n Hn) as (t & Wt' & ->). destruct (rw (bw N Z n * t * (1 / (X - Z n) * a * ((q - c' n) * b) * d))) as (e & We & Ee). rewrite Ee.
    destruct (rdivf_sub (bw N Z n * t * (1 / (X - Z n) * a * ((q - c' n) * b) * d) * e) (X - Z n) (Hx n Hn)) as (f & Wf & ->). cbn [bind].
    match goal with |- context [rnd (s + ?x)] => destruct (rw (s + x)) as (g & Wg & ->) end.
    eexists. split; [reflexivity|]. cbn [fst snd]. split.
    + exists (fun j => if Nat.eqb j n then t * (a * (b * (d * (e * (f * g))))) else ph j * g). split.
      * intros j Hj. destruct (Nat.eqb_spec j n) as [->|Ne].
        -- apply (within_le u Hu (3 * (N - 1) + (2 + (1 + (1 + (1 + (2 + 1))))))); [lia|]. repeat (apply (within_mul u Hu); [assumption|]). assumption.
        -- replace (3 * (N - 1) + (7 + S n))%nat with (3 * (N - 1) + (7 + n) + 1)%nat by lia. apply (within_mul u Hu); [apply Wp; lia|exact Wg].
      * cbn [rsum]. rewrite Nat.eqb_refl, Ep.
        rewrite (rsum_ext n (fun j => bw N Z j * (q - c' j) / (X - Z j) / (X - Z j) * (if Nat.eqb j n then t * (a * (b * (d * (e * (f * g))))) else ph j * g)) (fun j => bw N Z j * (q - c' j) / (X - Z j) / (X - Z j) * ph j * g)).
        -- rewrite rsum_scal_r. unfold Rdiv. ring.
        -- intros j Hj. destruct (Nat.eqb_spec j n); [lia|]. unfold Rdiv. ring.
    + intros i Hi. rewrite fset_neq by lia. apply H2. lia.
Qed.

(** at a vertex: the exact derivative is the sum over the other vertices of [dell] times the coefficient difference *)
Lemma der_vertexf N Z w i c c' : distinct N Z -> near_weights N Z w -> (i < N)%nat -> (forall j, (j < N)%nat -> c j = Ok (c' j)) ->
  exists ph c2, (forall j, (j < N)%nat -> within (7 * N + 2) (ph j)) /\
    eval_der_interpf rnd N 1 (N.of_nat i) Z w (Z i) c =
      Ok (rsum N (fun j => if Nat.eqb j i then 0 else bw N Z j / bw N Z i * (c' j - c' i) / (Z i - Z j) * ph j), c2) /\
    (forall j, (N <= j)%nat -> c2 j = c j).
Proof.
  intros D W Hi Hc. unfold eval_der_interpf. rewrite (proj2 (N.ltb_lt _ _)) by lia. rewrite Nnat.Nat2N.id, Hc by exact Hi. cbn [bind loop_from].
  unfold der_step_coincidentf.
  edestruct (loop_inv (fun n (st : R * (nat -> res R)) => (exists ph, (forall j, (j < n)%nat -> within (3 * (N - 1) + (5 + n)) (ph j)) /\
      fst st = rsum n (fun j => if Nat.eqb j i then 0 else bw N Z j * (c' i - c' j) / (Z i - Z j) * ph j)) /\ forall j, (n <= j)%nat -> snd st j = c j) N) as ((s & c2) & E & (ph & Wp & Ep) & H2).
  3: { rewrite E. cbn [bind]. cbn [fst snd] in Ep, H2. destruct (rw (1 * INR 1)) as (m & Wm & ->).
       destruct (W i Hi) as (t & Wt & ->). assert (Pt := within_pos u Hu _ _ Wt). assert (B := bw_neq0 N Z i D Hi).
       destruct (rdivf_ok (- (1 * INR 1 * m)) (bw N Z i * t)) as (a & Wa & ->); [apply Rmult_integral_contrapositive_currified; lra|]. cbn [bind].
       destruct (rw (s * (- (1 * INR 1 * m) / (bw N Z i * t) * a))) as (b & Wb & ->). rewrite Ep.
       exists (fun j => ph j * (m * (/ t * (a * b)))), c2. split; [|split; [|exact H2]].
       - intros j Hj. apply (within_le u Hu (3 * (N - 1) + (5 + N) + (1 + (3 * (N - 1) + (1 + 1))))); [lia|].
         apply (within_mul u Hu); [apply Wp, Hj|]. apply (within_mul u Hu); [exact Wm|]. apply (within_mul u Hu); [apply within_inv; assumption|].
         apply (within_mul u Hu); assumption.
       - f_equal. f_equal. change (INR 1) with 1.
         rewrite (rsum_ext N (fun j => if Nat.eqb j i then 0 else bw N Z j / bw N Z i * (c' j - c' i) / (Z i - Z j) * (ph j * (m * (/ t * (a * b)))))
           (fun j => (if Nat.eqb j i then 0 else bw N Z j * (c' i - c' j) / (Z i - Z j) * ph j) * (- m / (bw N Z i * t) * a * b))).
         + rewrite rsum_scal_r. unfold Rdiv. ring.
         + intros j Hj. destruct (Nat.eqb_spec j i) as [|Ne]; [ring|]. field. specialize (D i j Hi Hj ltac:(congruence)). repeat split; lra. }
  - cbn [fst snd]. split; [|auto]. exists (fun _ => 1). split; [intros; lia|reflexivity].
  - intros n (s & cc) Hn ((ph & Wp & Ep) & H2). cbn [fst snd] in Ep, H2. destruct (Nat.eqb_spec n i) as [En|Ne].
    + eexists. split; [reflexivity|]. cbn [fst snd]. split.
      * exists (fun j => if Nat.eqb j n then 1 else ph j). split.
        -- intros j Hj. destruct (Nat.eqb_spec j n); [apply (within_1 u Hu)|]. apply (within_le u Hu (3 * (N - 1) + (5 + n))); [lia|apply Wp; lia].
        -- cbn [rsum]. destruct (Nat.eqb_spec n i); [|lia]. rewrite Rplus_0_r, Ep. apply rsum_ext. intros j Hj. destruct (Nat.eqb_spec j i), (Nat.eqb_spec j n); try lia; reflexivity.
      * intros j Hj. rewrite fset_neq by lia. apply H2. lia.
    + assert (Nz : Z i - Z n <> 0) by (specialize (D i n Hi Hn ltac:(congruence)); lra).
      destruct (rdivf_sub 1 (Z i - Z n) Nz) as (a & Wa & ->). cbn [bind]. rewrite H2, Hc by lia. cbn [bind].
      destruct (rw (c' i - c' n)) as (b & Wb & ->). destruct (rw (1 / (Z i - Z n) * a * ((c' i - c' n) * b))) as (d & Wd & ->).
      destruct (W n Hn) as (t & Wt' & ->). destruct (rw (bw N Z n * t * (1 / (Z i - Z n) * a * ((c' i - c' n) * b) * d))) as (e & We & ->).
      match goal with |- context [rnd (s + ?x)] => destruct (rw (s + x)) as (g & Wg & ->) end.
      eexists. split; [reflexivity|]. cbn [fst snd]. split.
      * exists (fun j => if Nat.eqb j n then t * (a * (b * (d * (e * g)))) else ph j * g). split.
        -- intros j Hj. destruct (Nat.eqb_spec j n) as [->|Ne'].
           ++ apply (within_le u Hu (3 * (N - 1) + (2 + (1 + (1 + (1 + 1)))))); [lia|]. repeat (apply (within_mul u Hu); [assumption|]). assumption.
           ++ replace (3 * (N - 1) + (5 + S n))%nat with (3 * (N - 1) + (5 + n) + 1)%nat by lia. apply (within_mul u Hu); [apply Wp; lia|exact Wg].
        -- cbn [rsum]. destruct (Nat.eqb_spec n i); [lia|]. rewrite Nat.eqb_refl, Ep.
           rewrite (rsum_ext n (fun j => if Nat.eqb j i then 0 else bw N Z j * (c' i - c' j) / (Z i - Z j) * (if Nat.eqb j n then t * (a * (b * (d * (e * g)))) else ph j * g)) (fun j => (if Nat.eqb j i then 0 else bw N Z j * (c' i - c' j) / (Z i - Z j) * ph j) * g)).
           ++ rewrite rsum_scal_r. unfold Rdiv. ring.
           ++ intros j Hj. destruct (Nat.eqb_spec j n); [lia|]. destruct (Nat.eqb j i); unfold Rdiv; ring.
      * intros j Hj. rewrite fset_neq by lia. apply H2. lia.
Qed.

(** ---- coincidence ---- *)
Hypothesis Ht : forall x, tol <= Rabs x -> tol <= Rabs (rnd x).
Lemma almost_equalf_same a b : a = b \/ tol <= Rabs (a - b) -> almost_equalf rnd a b = almost_equal a b.
Proof.
  intros H. unfold almost_equalf, almost_equal. rewrite tol_eps. destruct H as [-> |H].
  - replace (b - b) with 0 by ring. rewrite (rnd_0 u Hu rnd Hr). reflexivity.
  - destruct (Rlt_dec (Rabs (rnd (a - b))) tol) as [L|L], (Rlt_dec (Rabs (a - b)) tol) as [L'|L']; try reflexivity; [apply Ht in H; lra|lra].
Qed.
Lemma findf_same N Z X : separated N Z -> clean N Z X -> find_coincident_vertexf rnd N Z X = find_coincident_vertex N Z X.
Proof.
  intros S C. assert (H : forall j, (j < N)%nat -> almost_equalf rnd (Z j) X = almost_equal (Z j) X).
  { intros j Hj. apply almost_equalf_same. destruct C as [(i & Hi & ->)|F]; [|right; apply F, Hj].
    destruct (Nat.eq_dec j i) as [->|Ne]; [left; reflexivity|right; apply S; assumption]. }
  clear S C. unfold find_coincident_vertexf, find_coincident_vertex. revert H. generalize (two64 - 1)%N. induction N as [|n IH]; intros k H; [reflexivity|].
  cbn [fold_up]. rewrite IH by (intros; apply H; lia). rewrite H by lia. reflexivity.
Qed.
Lemma findf_point_ok N Z X : (N.of_nat N < 2 ^ 64)%N -> separated N Z -> clean N Z X -> point_ok N Z X (find_coincident_vertexf rnd N Z X).
Proof. intros. rewrite findf_same by assumption. apply find_point_ok; assumption. Qed.

(** ---- eval_approx ---- *)
Lemma eval_approxf_ok e c x y z C : let n := le_N e in let Z := le_Z e in
  (N.of_nat n < 2 ^ 64)%N -> separated n Z -> near_weights n Z (le_w e) -> clean n Z x -> clean n Z y -> clean n Z z ->
  exists th C', (forall i j k, (i < n)%nat -> (j < n)%nat -> (k < n)%nat -> within (3 * (6 * n + 1)) (th i j k)) /\
    le_eval_approxf rnd e c x y z C = Ok (rsum n (fun k => rsum n (fun j => rsum n (fun i => c (i + j * n + k * n * n)%nat * th i j k * phi3 n Z i j k x y z))), C').
Proof.
  intros n Z Hn S W Hx Hy Hz. assert (D := separated_distinct _ _ S).
  assert (Px := findf_point_ok n Z x Hn S Hx). assert (Py := findf_point_ok n Z y Hn S Hy). assert (Pz := findf_point_ok n Z z Hn S Hz).
  unfold le_eval_approxf. fold n Z. set (m := (6 * n + 1)%nat).
  edestruct (loop_inv (fun K (C : nat -> res R) => exists t1 t2, (forall i j k, (i < n)%nat -> (j < n)%nat -> (k < K)%nat -> within m (t1 i j k) /\ within m (t2 j k)) /\
     forall k, (k < K)%nat -> C (n + k)%nat = Ok (interp n Z (fun j => interp n Z (fun i => c (j * n + k * n * n + i)%nat * t1 i j k) x * t2 j k) y)) n)
    as (C1 & E & t1 & t2 & Wt & H).
  3: { rewrite E. cbn [bind].
       edestruct (eval_interpf_ok n Z (le_w e) z _ (shift n C1) (fun k => interp n Z (fun j => interp n Z (fun i => c (j * n + k * n * n + i)%nat * t1 i j k) x * t2 j k) y) D W Pz) as (t3 & W3 & E3).
       { intros k Hk. unfold shift. apply H. exact Hk. }
       rewrite E3. cbn [bind]. exists (fun i j k => t1 i j k * (t2 j k * t3 k)). eexists. split.
       - intros i j k Hi Hj Hk. replace (3 * m)%nat with (m + (m + m))%nat by lia. destruct (Wt i j k Hi Hj Hk). repeat (apply (within_mul u Hu); [assumption|]). apply W3. exact Hk.
       - f_equal. f_equal. unfold interp at 1. apply rsum_ext. intros k Hk.
         unfold interp at 1. rewrite <- !rsum_scal_r. apply rsum_ext. intros j Hj.
         unfold interp. rewrite <- !rsum_scal_r. apply rsum_ext. intros i Hi. unfold phi3.
         replace (i + j * n + k * n * n)%nat with (j * n + k * n * n + i)%nat by lia. ring. }
  - exists (fun _ _ _ => 1), (fun _ _ => 1). split; intros; lia.
  - intros k C0 Hk (t1 & t2 & Wt & H).
    edestruct (loop_inv (fun J (C : nat -> res R) => (exists s, (forall i j, (i < n)%nat -> (j < J)%nat -> within m (s i j)) /\ forall j, (j < J)%nat -> C j = Ok (interp n Z (fun i => c (j * n + k * n * n + i)%nat * s i j) x)) /\
         (forall i, (n <= i)%nat -> C i = C0 i)) n) as (C2 & E & (s & Ws & H1) & H2).
    3: { rewrite E. cbn [bind].
         destruct (eval_interpf_ok n Z (le_w e) y _ C2 _ D W Py H1) as (t & W2 & E2). rewrite E2. cbn [bind].
         eexists. split; [reflexivity|]. exists (fun i j k' => if Nat.eqb k' k then s i j else t1 i j k'), (fun j k' => if Nat.eqb k' k then t j else t2 j k'). split.
         - intros i j k' Hi Hj Hk'. destruct (Nat.eqb_spec k' k); [split; [apply Ws; assumption|apply W2; assumption]|apply Wt; lia].
         - intros k' Hk'. destruct (Nat.eq_dec k' k) as [->|Ne].
           + rewrite fset_eq, Nat.eqb_refl. reflexivity.
           + rewrite fset_neq by lia. rewrite H2 by lia. rewrite (proj2 (Nat.eqb_neq k' k) Ne). apply H. lia. }
    + split; [|auto]. exists (fun _ _ => 1). split; intros; lia.
    + intros j C2 Hj ((s & Ws & H1) & H2).
      destruct (eval_interpf_ok n Z (le_w e) x _ (fun i => Ok (c (j * n + k * n * n + i)%nat)) (fun i => c (j * n + k * n * n + i)%nat) D W Px) as (t & W1 & E1); [intros; reflexivity|].
      rewrite E1. cbn [bind]. eexists. split; [reflexivity|]. split.
      * exists (fun i j' => if Nat.eqb j' j then t i else s i j'). split.
        -- intros i j' Hi Hj'. destruct (Nat.eqb_spec j' j); [apply W1, Hi|apply Ws; lia].
        -- intros j' Hj'. destruct (Nat.eq_dec j' j) as [->|Ne]; [rewrite fset_eq, Nat.eqb_refl; reflexivity|].
           rewrite fset_neq by exact Ne. rewrite (proj2 (Nat.eqb_neq j' j) Ne). apply H1. lia.
      * intros i Hi. rewrite fset_neq by lia. apply H2. exact Hi.
Qed.
End FL.
