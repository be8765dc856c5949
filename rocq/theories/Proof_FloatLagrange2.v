(** Rounding of the Lagrange routines: exact derivatives, determinants, and the concrete case of a linear element. *)
From Coq Require Import List Reals NArith ZArith Arith Lia Lra.
Import ListNotations.
From Flocq Require Import Core.
Require Import Verif.Base Verif.RBase Verif.RSum Verif.Poly Verif.RDer Verif.Spec_Lagrange Verif.Spec_Mat
  Verif.Lagrange_Math Verif.Model_Common Verif.Model_Lagrange Verif.Proof_Lagrange Verif.Proof_LagElem Verif.Spec_Float Verif.Float_Base Verif.Float_Eval
  Verif.Model_FloatLagrange Verif.Proof_FloatLagrange.
Open Scope R_scope.

Lemma tol_val : tol = bpow radix2 (-51).
Proof.
  unfold tol. change (-51)%Z with (- (51))%Z. rewrite bpow_opp. rewrite <- IZR_Zpower by lia. rewrite pow_IZR. change (Z.pow radix2 51) with 2251799813685248%Z.
  change (Z.pow 2 (Z.of_nat 52)) with 4503599627370496%Z. field.
Qed.
Lemma b64_tol x : tol <= Rabs x -> tol <= Rabs (binary64 x).
Proof.
  rewrite tol_val. intros H. unfold binary64. apply abs_round_ge_generic; [apply FLX_exp_valid; red; lia|apply valid_rnd_N| |exact H].
  apply generic_format_bpow. unfold FLX_exp. lia.
Qed.

Lemma rounds_id : rounds 0 (fun x => x).
Proof. intros x. exists 0. rewrite Rabs_R0. split; [lra|ring]. Qed.
Lemma within_0 m t : within 0 m t -> t = 1.
Proof. unfold within. rewrite Rminus_0_r, pow1, Rinv_1. lra. Qed.
Lemma weights_near N Z w : distinct N Z -> weights_of N Z w -> near_weights 0 N Z w.
Proof. intros D W i Hi. exists 1. split; [apply within_1; lra|]. rewrite (weights_bw N Z w i D W Hi). ring. Qed.
Lemma interp_ext' N Z c c' x : (forall i, (i < N)%nat -> c i = c' i) -> interp N Z c x = interp N Z c' x.
Proof. apply interp_ext. Qed.

(** the derivative the routine is meant to compute, away from the vertices and at a vertex *)
Lemma der_free_exact N Z c X : distinct N Z -> (0 < N)%nat -> (forall i, (i < N)%nat -> X - Z i <> 0) ->
  derivable_pt_lim (interp N Z c) X (rsum N (fun j => ell N Z j X * (interp N Z c X - c j) / (X - Z j))).
Proof.
  intros D H0 Hx. assert (W := bw_weights N Z D).
  destruct (der_freef 0 (fun x => x) ltac:(lra) rounds_id N Z (bw N Z) X (N.of_nat N) (fun i => Ok (c i)) c D (weights_near _ _ _ D W)) as (th & ph & c2 & T & P & E & _); [lia|exact Hx|reflexivity|].
  destruct (order1 N Z (bw N Z) X (fun i => Ok (c i)) c D W ltac:(reflexivity) (N.of_nat N) H0) as (d & c3 & E' & Dd & _); [right; split; [lia|exact Hx]|].
  change (eval_der_interpf (fun x => x)) with eval_der_interp in E. rewrite E in E'. injection E' as Ed _. rewrite <- Ed in Dd. eapply der_value; [|exact Dd].
  apply rsum_ext. intros j Hj. rewrite (within_0 _ _ (P j Hj)). rewrite (interp_ext' N Z (fun i => c i * th i) c X) by (intros i Hi; rewrite (within_0 _ _ (T i Hi)); ring). ring.
Qed.
Lemma der_vertex_exact N Z c i : distinct N Z -> (i < N)%nat ->
  derivable_pt_lim (interp N Z c) (Z i) (rsum N (fun j => if Nat.eqb j i then 0 else bw N Z j / bw N Z i * (c j - c i) / (Z i - Z j))).
Proof.
  intros D Hi. assert (W := bw_weights N Z D).
  destruct (der_vertexf 0 (fun x => x) ltac:(lra) rounds_id N Z (bw N Z) i (fun i => Ok (c i)) c D (weights_near _ _ _ D W) Hi) as (ph & c2 & P & E & _); [reflexivity|].
  destruct (order1 N Z (bw N Z) (Z i) (fun i => Ok (c i)) c D W ltac:(reflexivity) (N.of_nat i) ltac:(lia)) as (d & c3 & E' & Dd & _); [left; exists i; auto|].
  change (eval_der_interpf (fun x => x)) with eval_der_interp in E. rewrite E in E'. injection E' as Ed _. rewrite <- Ed in Dd. eapply der_value; [|exact Dd].
  apply rsum_ext. intros j Hj. destruct (Nat.eqb j i); [reflexivity|]. rewrite (within_0 _ _ (P j Hj)). ring.
Qed.
Lemma dell_vertex N Z i j : distinct N Z -> (i < N)%nat -> (j < N)%nat -> j <> i -> dell N Z j (Z i) = bw N Z j / bw N Z i / (Z i - Z j).
Proof.
  intros D Hi Hj Ne. assert (H := der_vertex_exact N Z (fun k => if Nat.eqb k j then 1 else 0) i D Hi). apply interp_eq_iff_der in H.
  rewrite (rsum_single N j) in H; [|exact Hj|].
  2: { intros k Hk Nk. destruct (Nat.eqb_spec k i); [reflexivity|]. rewrite (proj2 (Nat.eqb_neq k j) Nk), (proj2 (Nat.eqb_neq i j)) by congruence. unfold Rdiv. ring. }
  rewrite (rsum_single N j) in H; [|exact Hj|].
  2: { intros k Hk Nk. rewrite (proj2 (Nat.eqb_neq k j) Nk). ring. }
  rewrite Nat.eqb_refl, (proj2 (Nat.eqb_neq j i) Ne), (proj2 (Nat.eqb_neq i j)) in H by congruence. lra.
Qed.

Lemma rsum_abs n f : Rabs (rsum n f) <= rsum n (fun i => Rabs (f i)).
Proof. induction n as [|n IH]; cbn [rsum]; [rewrite Rabs_R0; lra|]. eapply Rle_trans; [apply Rabs_triang|]. lra. Qed.

Ltac rr rw x := let tt := fresh "t" in let WW := fresh "W" in let EE := fresh "E" in destruct (rw x) as (tt & WW & EE); rewrite EE; clear EE.
Section Bounds.
Context (u : R) (rnd : R -> R).
Hypothesis Hu : 0 <= u < 1.
Hypothesis Hr : rounds u rnd.
Lemma sum_pert m N (a t : nat -> R) : INR m * u < 1 -> (forall j, (j < N)%nat -> within u m (t j)) ->
  Rabs (rsum N (fun j => a j * t j) - rsum N a) <= gamma u m * rsum N (fun j => Rabs (a j)).
Proof. intros H W. apply (sum_gamma u Hu); assumption. Qed.

Lemma free_bound N Z w X ic c c' p' : distinct N Z -> (0 < N)%nat -> near_weights u N Z w -> (N.of_nat N <= ic)%N -> (forall i, (i < N)%nat -> X - Z i <> 0) ->
  (forall i, (i < N)%nat -> c i = Ok (c' i)) -> INR (6 * N + 7) * u < 1 -> derivable_pt_lim (interp N Z c') X p' ->
  exists v c2, eval_der_interpf rnd N 1 ic Z w X c = Ok (v, c2) /\
  Rabs (v - p') <= gamma u (6 * N + 7) * rsum N (fun j => Rabs (ell N Z j X * (interp N Z c' X - c' j) / (X - Z j)))
    + gamma u (6 * N + 1) * rsum N (fun j => Rabs (c' j * ell N Z j X)) * (Rabs (rsum N (fun k => / (X - Z k))) + gamma u (6 * N + 7) * rsum N (fun j => Rabs (ell N Z j X / (X - Z j)))).
Proof.
  intros D H0 W Hic Hx Hc Hs Dp. destruct (der_freef u rnd Hu Hr N Z w X ic c c' D W Hic Hx Hc) as (th & ph & c2 & T & P & E & _).
  eexists. exists c2. split; [exact E|]. rewrite (der_unique _ _ _ _ Dp (der_free_exact N Z c' X D H0 Hx)).
  set (p := interp N Z c' X). set (q := interp N Z (fun i => c' i * th i) X).
  assert (Hm : INR (6 * N + 1) * u < 1). { eapply Rle_lt_trans; [|exact Hs]. apply Rmult_le_compat_r; [lra|]. apply le_INR. lia. }
  assert (B1 := sum_pert (6 * N + 7) N (fun j => ell N Z j X * (p - c' j) / (X - Z j)) ph Hs P).
  assert (B2 := sum_pert (6 * N + 7) N (fun j => ell N Z j X / (X - Z j)) ph Hs P). rewrite (ell_over N Z X D Hx) in B2.
  assert (B3 : Rabs (q - p) <= gamma u (6 * N + 1) * rsum N (fun j => Rabs (c' j * ell N Z j X))).
  { assert (B := sum_pert (6 * N + 1) N (fun j => c' j * ell N Z j X) th Hm T). unfold q, p, interp. rewrite (rsum_ext N (fun i => c' i * th i * ell N Z i X) (fun j => c' j * ell N Z j X * th j)) by (intros; ring). exact B. }
  set (S1 := rsum N (fun j => ell N Z j X * (p - c' j) / (X - Z j) * ph j)) in *. set (S2 := rsum N (fun j => ell N Z j X / (X - Z j) * ph j)) in *.
  replace (rsum N (fun j => ell N Z j X * (q - c' j) / (X - Z j) * ph j)) with (S1 + (q - p) * S2).
  2: { unfold S1, S2. rewrite <- rsum_scal_l, <- rsum_plus. apply rsum_ext. intros j Hj. unfold Rdiv. ring. }
  set (E1 := rsum N (fun j => ell N Z j X * (p - c' j) / (X - Z j))) in *. set (K := rsum N (fun k => / (X - Z k))) in *.
  replace (S1 + (q - p) * S2 - E1) with ((S1 - E1) + (q - p) * (K + (S2 - K))) by ring.
  eapply Rle_trans; [apply Rabs_triang|]. apply Rplus_le_compat; [exact B1|]. rewrite Rabs_mult. apply Rmult_le_compat; [apply Rabs_pos|apply Rabs_pos|exact B3|].
  eapply Rle_trans; [apply Rabs_triang|]. apply Rplus_le_compat_l. exact B2.
Qed.
Lemma vertex_bound N Z w i c c' p' : distinct N Z -> near_weights u N Z w -> (i < N)%nat ->
  (forall i, (i < N)%nat -> c i = Ok (c' i)) -> INR (7 * N + 2) * u < 1 -> derivable_pt_lim (interp N Z c') (Z i) p' ->
  exists v c2, eval_der_interpf rnd N 1 (N.of_nat i) Z w (Z i) c = Ok (v, c2) /\
  Rabs (v - p') <= gamma u (7 * N + 2) * rsum N (fun j => Rabs (dell N Z j (Z i) * (c' j - c' i))).
Proof.
  intros D W Hi Hc Hs Dp. destruct (der_vertexf u rnd Hu Hr N Z w i c c' D W Hi Hc) as (ph & c2 & P & E & _).
  eexists. exists c2. split; [exact E|]. rewrite (der_unique _ _ _ _ Dp (der_vertex_exact N Z c' i D Hi)).
  set (a := fun j => if Nat.eqb j i then 0 else bw N Z j / bw N Z i * (c' j - c' i) / (Z i - Z j)).
  assert (B := sum_pert (7 * N + 2) N a ph Hs P). rewrite (rsum_ext N (fun j => Rabs (dell N Z j (Z i) * (c' j - c' i))) (fun j => Rabs (a j))).
  - rewrite (rsum_ext N _ (fun j => a j * ph j)); [exact B|]. intros j Hj. unfold a. destruct (Nat.eqb j i); ring.
  - intros j Hj. unfold a. destruct (Nat.eqb_spec j i) as [->|Ne]; [f_equal; ring|]. rewrite dell_vertex by assumption. f_equal. unfold Rdiv. ring.
Qed.

Lemma det_bound J : INR 5 * u < 1 -> Rabs (det_exprf rnd J - det3 (of_row_major 3 J)) <=
  gamma u 5 * (Rabs (J 0%nat) * (Rabs (J 4%nat) * Rabs (J 8%nat) + Rabs (J 5%nat) * Rabs (J 7%nat))
             + Rabs (J 1%nat) * (Rabs (J 3%nat) * Rabs (J 8%nat) + Rabs (J 5%nat) * Rabs (J 6%nat))
             + Rabs (J 2%nat) * (Rabs (J 3%nat) * Rabs (J 7%nat) + Rabs (J 4%nat) * Rabs (J 6%nat))).
Proof.
  intros Hs. assert (rw := rnd_w u Hu rnd Hr). unfold det_exprf, minorf, ent, det3, of_row_major. cbn [Nat.mul Nat.add].
  repeat match goal with |- context [rnd (J ?i1 * J ?i2)] => rr rw (J i1 * J i2) end.
  repeat match goal with |- context [rnd (J ?i1 * J ?i2 * ?s1 - J ?i3 * J ?i4 * ?s2)] => rr rw (J i1 * J i2 * s1 - J i3 * J i4 * s2) end.
  repeat match goal with |- context [rnd (J ?i1 * (?x1 * ?x2))] => rr rw (J i1 * (x1 * x2)) end.
  match goal with |- context [rnd (?x - ?y)] => destruct (rw (x - y)) as (a & Wa & Ea); rewrite Ea; clear Ea end.
  match goal with |- context [rnd (?x + ?y)] => destruct (rw (x + y)) as (b & Wb & Eb); rewrite Eb; clear Eb end.
  assert (G : forall x y z s r q f g, within u 1 s -> within u 1 r -> within u 1 q -> within u 1 f -> within u 1 g ->
    Rabs (x * y * z * (s * r * q * f * g) - x * y * z) <= gamma u 5 * (Rabs x * (Rabs y * Rabs z))).
  { intros x y z s r q f g ? ? ? ? ?. replace (x * y * z * (s * r * q * f * g) - x * y * z) with (x * (y * z) * (s * r * q * f * g - 1)) by ring.
    rewrite !Rabs_mult, Rmult_comm. apply Rmult_le_compat_r; [repeat apply Rmult_le_pos; apply Rabs_pos|]. apply (within_gamma u Hu); [exact Hs|].
    change 5%nat with (1 + 1 + 1 + 1 + 1)%nat. repeat (apply (within_mul u Hu); [|assumption]). assumption. }
  assert (G1 : within u 1 1) by apply (within_1 u Hu).
  match goal with |- Rabs ?l <= _ => match l with context [J 0%nat * ((J 4%nat * J 8%nat * ?t1 - J 5%nat * J 7%nat * ?t2) * ?r1) * ?q1] => match l with context [J 1%nat * ((J 3%nat * J 8%nat * ?t3 - J 5%nat * J 6%nat * ?t4) * ?r2) * ?q2] => match l with context [J 2%nat * ((J 3%nat * J 7%nat * ?t5 - J 4%nat * J 6%nat * ?t6) * ?r3) * ?q3] =>
    assert (B1 := G (J 0%nat) (J 4%nat) (J 8%nat) t1 r1 q1 a b ltac:(assumption) ltac:(assumption) ltac:(assumption) Wa Wb);
    assert (B2 := G (J 0%nat) (J 5%nat) (J 7%nat) t2 r1 q1 a b ltac:(assumption) ltac:(assumption) ltac:(assumption) Wa Wb);
    assert (B3 := G (J 1%nat) (J 3%nat) (J 8%nat) t3 r2 q2 a b ltac:(assumption) ltac:(assumption) ltac:(assumption) Wa Wb);
    assert (B4 := G (J 1%nat) (J 5%nat) (J 6%nat) t4 r2 q2 a b ltac:(assumption) ltac:(assumption) ltac:(assumption) Wa Wb);
    assert (B5 := G (J 2%nat) (J 3%nat) (J 7%nat) t5 r3 q3 1 b ltac:(assumption) ltac:(assumption) ltac:(assumption) G1 Wb);
    assert (B6 := G (J 2%nat) (J 4%nat) (J 6%nat) t6 r3 q3 1 b ltac:(assumption) ltac:(assumption) ltac:(assumption) G1 Wb);
    set (e1 := J 0%nat * J 4%nat * J 8%nat * (t1 * r1 * q1 * a * b) - _) in *; set (e2 := J 0%nat * J 5%nat * J 7%nat * (t2 * r1 * q1 * a * b) - _) in *;
    set (e3 := J 1%nat * J 3%nat * J 8%nat * (t3 * r2 * q2 * a * b) - _) in *; set (e4 := J 1%nat * J 5%nat * J 6%nat * (t4 * r2 * q2 * a * b) - _) in *;
    set (e5 := J 2%nat * J 3%nat * J 7%nat * (t5 * r3 * q3 * 1 * b) - _) in *; set (e6 := J 2%nat * J 4%nat * J 6%nat * (t6 * r3 * q3 * 1 * b) - _) in *;
    replace l with (e1 - e2 - (e3 - e4) + (e5 - e6)) by (unfold e1, e2, e3, e4, e5, e6; ring)
  end end end end.
  clearbody e1 e2 e3 e4 e5 e6. clear G.
  apply Rabs_le_inv in B1, B2, B3, B4, B5, B6. apply Rabs_le. lra.
Qed.
End Bounds.
