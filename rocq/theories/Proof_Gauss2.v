From Coq Require Import List Reals NArith ZArith Arith Lia Lra.
From Coquelicot Require Import Coquelicot.
Require Import Verif.Base Verif.RBase Verif.RSum Verif.RDer Verif.Poly Verif.Jacobi_Math Verif.Jacobi_Int
  Verif.Spec_Mat Verif.Model_Poly Verif.Spec_Poly Verif.Proof_Poly Verif.Proof_Gauss Verif.LinAlg Verif.Model_Gauss Verif.Spec_Gauss.
Open Scope R_scope.

(** ---- coefficient values ---- *)
Lemma nat_pos2 a b n : 0 < INR (S (S n)) + (INR a + INR b) /\ 0 < 2 * INR (S (S n)) + (INR a + INR b) - 2.
Proof. assert (P := sum_pos a b). assert (0 <= INR n) by apply pos_INR. rewrite !S_INR. lra. Qed.
Lemma jac_a_val a b n : jac_a (INR a) (INR b) (S n) = Ok (gA (INR a) (INR b) (S n)).
Proof. destruct n as [|n]; [reflexivity|]. apply jac_a_ok. apply nat_pos2. Qed.
Lemma jac_b_val a b n : jac_b (INR a) (INR b) (S n) = Ok (gB (INR a) (INR b) (S n)).
Proof. destruct n as [|n]; [reflexivity|]. apply jac_b_ok; apply nat_pos2. Qed.
Lemma jac_c_val a b n : jac_c (INR a) (INR b) (S n) = Ok (gC (INR a) (INR b) (S n)).
Proof. destruct n as [|n]; [reflexivity|]. apply jac_c_ok; apply nat_pos2. Qed.
Lemma gA_pos a b n : 0 < gA (INR a) (INR b) (S n).
Proof.
  assert (P := sum_pos a b). destruct n as [|n]; unfold gA; cbn [Nat.eqb]; [lra|].
  destruct (nat_pos2 a b n) as [H1 H2]. unfold cA. assert (0 <= INR n) by apply pos_INR. rewrite !S_INR in *.
  apply Rdiv_lt_0_compat; apply Rmult_lt_0_compat; lra.
Qed.
Lemma gC_pos a b n : 0 < gC (INR a) (INR b) (S (S n)).
Proof.
  assert (P := sum_pos a b). unfold gC; cbn [Nat.eqb].
  destruct (nat_pos2 a b n) as [H1 H2]. unfold cC. assert (0 <= INR n) by apply pos_INR.
  assert (0 <= INR a) by apply pos_INR. assert (0 <= INR b) by apply pos_INR. rewrite !S_INR in *.
  apply Rdiv_lt_0_compat; repeat apply Rmult_lt_0_compat; lra.
Qed.

(** ---- rows of a tridiagonal product ---- *)
Lemma tridiag_row n d e v i : (i < n)%nat ->
  rsum n (fun k => tridiag d e i k * v k) =
    d i * v i + (if Nat.ltb (S i) n then e i * v (S i) else 0) + (match i with O => 0 | S i' => e i' * v i' end).
Proof.
  intros Hi.
  rewrite (rsum_ext n _ (fun k => (if Nat.eqb k i then d i * v i else 0) + (if Nat.eqb k (S i) then e i * v (S i) else 0)
     + (match i with O => 0 | S i' => if Nat.eqb k i' then e i' * v i' else 0 end))).
  2: { intros k Hk. unfold tridiag. destruct i as [|i'].
       - destruct (Nat.eqb_spec 0 k), (Nat.eqb_spec k 0), (Nat.eqb_spec k 1); try lia; subst; try ring.
         destruct k as [|k]; cbn [Nat.eqb]; ring || lia.
       - destruct (Nat.eqb_spec (S i') k), (Nat.eqb_spec k (S i')), (Nat.eqb_spec k (S (S i'))), (Nat.eqb_spec k i'), (Nat.eqb_spec (S i') (S k)); try lia; subst; ring. }
  rewrite !rsum_plus. f_equal; [f_equal|].
  - rewrite (rsum_single n i); [rewrite Nat.eqb_refl; reflexivity|lia|]. intros k _ Ne. destruct (Nat.eqb_spec k i); [lia|reflexivity].
  - destruct (Nat.ltb_spec (S i) n).
    + rewrite (rsum_single n (S i)); [rewrite Nat.eqb_refl; reflexivity|lia|]. intros k _ Ne. destruct (Nat.eqb_spec k (S i)); [lia|reflexivity].
    + apply rsum_zero. intros k Hk. destruct (Nat.eqb_spec k (S i)); [lia|reflexivity].
  - destruct i as [|i']; [apply rsum_0|].
    rewrite (rsum_single n i'); [rewrite Nat.eqb_refl; reflexivity|lia|]. intros k _ Ne. destruct (Nat.eqb_spec k i'); [lia|reflexivity].
Qed.

(** ---- eigenvectors are values of the polynomials ---- *)
Definition gam (a b : nat) (sub : nat -> R) (i : nat) : R := rprod i (fun k => gA (INR a) (INR b) (S k) * sub k).

Definition gw_ok (a b n : nat) (diag sub : nat -> R) : Prop :=
  (forall i, (i < n)%nat -> gA (INR a) (INR b) (S i) * diag i = - gB (INR a) (INR b) (S i)) /\
  (forall i, (S i < n)%nat -> 0 < sub i /\ gA (INR a) (INR b) (S i) * gA (INR a) (INR b) (S (S i)) * (sub i * sub i) = gC (INR a) (INR b) (S (S i))).

Lemma eig_step a b n diag sub q x : gw_ok a b n diag sub ->
  (forall i, (i < n)%nat -> rsum n (fun k => tridiag diag sub i k * q k) = x * q i) ->
  forall i, (i < n)%nat ->
    gam a b sub i * q i = uP a b (S i) x * q O /\
    uP a b (S (S i)) x * q O = gA (INR a) (INR b) (S i) * gam a b sub i * (if Nat.ltb (S i) n then sub i * q (S i) else 0).
Proof.
  intros (Hd & Hs) He.
  assert (Row : forall i, (i < n)%nat -> gam a b sub i * q i = uP a b (S i) x * q O ->
     (match i with O => True | S i' => gam a b sub i' * q i' = uP a b (S i') x * q O end) ->
     uP a b (S (S i)) x * q O = gA (INR a) (INR b) (S i) * gam a b sub i * (if Nat.ltb (S i) n then sub i * q (S i) else 0)).
  { intros i Hi E1 E0. assert (Er := He i Hi). rewrite tridiag_row in Er by exact Hi.
    rewrite uP_rec. set (A := gA (INR a) (INR b) (S i)) in *. set (B := gB (INR a) (INR b) (S i)) in *.
    assert (Ed := Hd i Hi). fold A B in Ed. set (T := if Nat.ltb (S i) n then sub i * q (S i) else 0) in *.
    destruct i as [|i'].
    - unfold gC. cbn [Nat.eqb]. transitivity ((A * x + B) * (uP a b 1 x * q O)); [ring|]. rewrite <- E1.
      replace T with (x * q O - diag O * q O) by lra.
      transitivity ((A * x + B) * gam a b sub 0 * q O); [ring|]. replace B with (- (A * diag O)) by lra. ring.
    - destruct (Hs i' Hi) as (_ & EC).
      transitivity ((A * x + B) * (uP a b (S (S i')) x * q O) - gC (INR a) (INR b) (S (S i')) * (uP a b (S i') x * q O)); [ring|].
      rewrite <- E1, <- E0, <- EC. fold A. replace T with (x * q (S i') - diag (S i') * q (S i') - sub i' * q i') by lra.
      replace B with (- (A * diag (S i'))) by lra. unfold gam. cbn [rprod]. ring. }
  assert (St : forall i, (i < n)%nat -> gam a b sub i * q i = uP a b (S i) x * q O /\
     (match i with O => True | S i' => gam a b sub i' * q i' = uP a b (S i') x * q O end)).
  { induction i as [|i IH]; intros Hi.
    - split; [|exact I]. unfold gam. cbn [rprod uP]. unfold jN. rewrite jP_0. ring.
    - destruct (IH ltac:(lia)) as (E1 & E0). split; [|exact E1].
      rewrite (Row i ltac:(lia) E1 E0). destruct (Nat.ltb_spec (S i) n); [|lia]. unfold gam. cbn [rprod]. ring. }
  intros i Hi. destruct (St i Hi) as (E1 & E0). split; [exact E1|]. apply Row; assumption.
Qed.

Lemma gam_pos a b n diag sub i : gw_ok a b n diag sub -> (i < n)%nat -> 0 < gam a b sub i.
Proof.
  intros (_ & Hs) Hi. apply rprod_pos. intros k Hk. apply Rmult_lt_0_compat; [apply gA_pos|apply Hs; lia].
Qed.
Lemma hN_gam a b n diag sub i : gw_ok a b n diag sub -> (i < n)%nat -> hN a b i = hN a b 0 * (gam a b sub i * gam a b sub i).
Proof.
  intros H. induction i as [|i IH]; intros Hi; [unfold gam; cbn [rprod]; ring|].
  assert (E := hN_rec a b i). rewrite (IH ltac:(lia)) in E. destruct H as (_ & Hs). destruct (Hs i Hi) as (_ & EC). rewrite <- EC in E.
  assert (P := gA_pos a b (S i)). apply (Rmult_eq_reg_l (gA (INR a) (INR b) (S (S i)))); [|lra]. rewrite E.
  unfold gam. cbn [rprod]. ring.
Qed.

(** ---- polynomial products ---- *)
Lemma poly_mulpow n m f : poly_lt n f -> poly_lt (m + n) (fun x => x ^ m * f x).
Proof.
  intros H. induction m as [|m IH]; [apply (poly_ext n f); [intros; cbn; ring|exact H]|].
  apply (poly_ext (S m + n) (fun x => x * (x ^ m * f x))); [intros; cbn; ring|]. apply poly_mulX. exact IH.
Qed.
Lemma poly_mul k i f g : poly_lt (S k) g -> poly_lt i f -> poly_lt (k + i) (fun x => g x * f x).
Proof.
  intros (c & Hg) Hf. apply (poly_ext _ (fun x => rsum (S k) (fun m => c m * (x ^ m * f x)))).
  - intros x. rewrite Hg, <- rsum_scal_r. apply rsum_ext. intros; ring.
  - apply (poly_sum (k + i) (S k) (fun m x => c m * (x ^ m * f x))). intros m Hm. apply poly_scal.
    apply (poly_mono (m + i)); [lia|]. apply poly_mulpow. exact Hf.
Qed.
Lemma degree_split n f : degree_exactly n f -> exists l g, l <> 0 /\ poly_lt n g /\ forall x, f x = l * x ^ n + g x.
Proof.
  intros (c & Hc & Hf). exists (c n), (fun x => rsum n (fun i => c i * x ^ i)). split; [exact Hc|]. split; [exists c; reflexivity|].
  intros x. rewrite Hf. cbn [rsum]. ring.
Qed.
Lemma degree_prod i k f g : degree_exactly i f -> degree_exactly k g ->
  exists l h, l <> 0 /\ poly_lt (i + k) h /\ forall x, f x * g x = l * x ^ (i + k) + h x.
Proof.
  intros Hf Hg. destruct (degree_split i f Hf) as (l & f' & Hl & Pf & Ef). destruct (degree_split k g Hg) as (l' & g' & Hl' & Pg & Eg).
  exists (l * l'), (fun x => l * (x ^ i * g' x) + g x * f' x). split; [apply Rmult_integral_contrapositive_currified; assumption|]. split.
  - apply poly_add; [apply poly_scal; apply poly_mulpow; exact Pg|]. rewrite Nat.add_comm. apply poly_mul; [|exact Pf].
    destruct Hg as (c & _ & H). exists c. exact H.
  - intros x. rewrite (Ef x), pow_add. rewrite (Eg x). ring.
Qed.

(** ---- exactness ---- *)
Definition Qd (n : nat) (x w : nat -> R) (f : R -> R) : R := rsum n (fun j => w j * f (x j)).

Lemma exact_up a b n x w : 
  (forall i k, (i < n)%nat -> (k <= n)%nat -> Qd n x w (fun t => uP a b (S i) t * uP a b (S k) t) = Lw a b (fun t => uP a b (S i) t * uP a b (S k) t)) ->
  forall d, (d <= 2 * n)%nat -> forall f, poly_lt d f -> Qd n x w f = Lw a b f.
Proof.
  intros H d. induction d as [|d IH]; intros Hd f Hf.
  - destruct Hf as (c & Hf). rewrite (Lw_zero a b f) by (intros t; rewrite Hf; reflexivity).
    unfold Qd. apply rsum_zero. intros j _. rewrite Hf. cbn. ring.
  - assert (Hik : exists i k, (i < n)%nat /\ (k <= n)%nat /\ (i + k = d)%nat).
    { destruct (Nat.lt_ge_cases d n); [exists d, 0%nat; lia|exists (d - n)%nat, n; lia]. }
    destruct Hik as (i & k & Hi & Hk & Eik).
    assert (Ps := sum_pos a b).
    destruct (degree_prod i k (uP a b (S i)) (uP a b (S k))) as (l & h & Hl & Ph & Eh); [apply jP_degree; lra|apply jP_degree; lra|].
    rewrite Eik in *. destruct Hf as (c & Hf).
    set (g := fun t => uP a b (S i) t * uP a b (S k) t) in *.
    set (r := fun t => rsum d (fun m => c m * t ^ m) + - (c d / l) * h t).
    assert (Pr : poly_lt d r) by (apply poly_add; [exists c; reflexivity|apply poly_scal; exact Ph]).
    assert (Ef : forall t, f t = c d / l * g t + r t).
    { intros t. unfold r, g. rewrite Hf, Eh. cbn [rsum]. field. exact Hl. }
    assert (Ig : isp g) by (apply isp_mul; apply isp_uP).
    assert (Ir : isp r) by (exists d; exact Pr).
    rewrite (Lw_ext a b f _ Ef), Lw_add, Lw_scal by auto using isp_scal.
    rewrite <- (IH ltac:(lia) r Pr). rewrite <- (H i k Hi Hk : Qd n x w g = Lw a b g). unfold Qd.
    rewrite <- rsum_scal_l, <- rsum_plus. apply rsum_ext. intros j _. rewrite Ef. fold (g (x j)). ring.
Qed.

Lemma wt_is a b n x w f : isp f -> Qd n x w f = Lw a b f -> exact_on a b n x w f.
Proof. intros H E. unfold exact_on. fold (Qd n x w f). rewrite E. apply (Lw_is a b f H). Qed.

Lemma gw_main a b n diag sub out mu0 : gw_ok a b n diag sub -> stev_contract n diag sub out -> (0 < n)%nat -> mu0 = hN a b 0 ->
  let x := snd (fst out) in let w := fun j => snd out (j * n)%nat * snd out (j * n)%nat * mu0 in
  (forall f, poly_lt (2 * n) f -> exact_on a b n x w f) /\
  (forall j, (j < n)%nat -> snd out (j * n)%nat <> 0) /\
  (forall j, (j < n)%nat -> uP a b (S n) (x j) = 0) /\
  (forall j l, (j < n)%nat -> (l < n)%nat -> j <> l -> x j <> x l).
Proof.
  intros Hg. destruct out as [[info ev] z]. intros (_ & He & Ho) Hn Hm. cbn [fst snd].
  set (q := fun j i => z (i + j * n)%nat).
  assert (Cols := rows_cols_orthonormal n q (fun i j Hi Hj => Ho i j Hi Hj)).
  assert (Eig : forall j, (j < n)%nat -> forall i, (i < n)%nat ->
    gam a b sub i * q j i = uP a b (S i) (ev j) * q j O /\
    uP a b (S (S i)) (ev j) * q j O = gA (INR a) (INR b) (S i) * gam a b sub i * (if Nat.ltb (S i) n then sub i * q j (S i) else 0)).
  { intros j Hj. apply (eig_step a b n diag sub (q j) (ev j) Hg). intros i Hi. apply (He j Hj i Hi). }
  assert (Top : forall j, (j < n)%nat -> uP a b (S n) (ev j) * q j O = 0).
  { intros j Hj. destruct n as [|n']; [lia|]. destruct (Eig j Hj n' ltac:(lia)) as (_ & ->). rewrite Nat.ltb_irrefl. ring. }
  assert (Q0 : forall j, (j < n)%nat -> q j O <> 0).
  { intros j Hj Z. assert (N := Ho j j Hj Hj). rewrite Nat.eqb_refl in N. rewrite rsum_zero in N; [lra|].
    intros i Hi. destruct (Eig j Hj i Hi) as (E & _). rewrite Z, Rmult_0_r in E. fold (q j i).
    assert (P := gam_pos a b n diag sub i Hg Hi). apply Rmult_integral in E. destruct E as [E|E]; [lra|]. rewrite E. ring. }
  assert (EQ0 : forall j, z (j * n)%nat = q j O) by reflexivity.
  split; [|split; [exact Q0|split]].
  - intros f Hf. apply wt_is; [exists (2 * n)%nat; exact Hf|].
    apply (exact_up a b n ev (fun j => z (j * n)%nat * z (j * n)%nat * mu0)) with (d := (2 * n)%nat); [|lia|exact Hf].
    intros i k Hi Hk. unfold Qd.
    destruct (Nat.eq_dec k n) as [->|Hkn].
    + rewrite rsum_zero; [symmetry; apply uP_orth; lia|]. intros j Hj. rewrite EQ0. assert (T := Top j Hj).
      transitivity (q j O * mu0 * uP a b (S i) (ev j) * (uP a b (S n) (ev j) * q j O)); [ring|]. rewrite T. ring.
    + rewrite (rsum_ext n _ (fun j => mu0 * gam a b sub i * gam a b sub k * (q j i * q j k))).
      2: { intros j Hj. destruct (Eig j Hj i Hi) as (E1 & _). destruct (Eig j Hj k ltac:(lia)) as (E2 & _).
           transitivity (mu0 * (gam a b sub i * q j i) * (gam a b sub k * q j k)); [rewrite E1, E2, EQ0; ring|ring]. }
      rewrite rsum_scal_l, (Cols i k Hi ltac:(lia)). unfold ident. destruct (Nat.eqb_spec i k) as [->|Ne].
      * fold (hN a b k). rewrite (hN_gam a b n diag sub k Hg Hi), Hm. ring.
      * rewrite uP_orth by lia. ring.
  - intros j Hj. assert (T := Top j Hj). apply Rmult_integral in T. destruct T as [T|T]; [exact T|]. exfalso. exact (Q0 j Hj T).
  - intros j l Hj Hl Ne E. assert (O1 := Ho j l Hj Hl). destruct (Nat.eqb_spec j l); [contradiction|].
    assert (O2 := Ho l l Hl Hl). rewrite Nat.eqb_refl in O2.
    assert (X : forall i, (i < n)%nat -> q j i * q l O = q l i * q j O).
    { intros i Hi. destruct (Eig j Hj i Hi) as (E1 & _). destruct (Eig l Hl i Hi) as (E2 & _). rewrite E in E1.
      assert (P := gam_pos a b n diag sub i Hg Hi). apply (Rmult_eq_reg_l (gam a b sub i)); [|lra].
      rewrite <- !Rmult_assoc, E1, E2. ring. }
    assert (Z : q l O * rsum n (fun i => q j i * q l i) = q j O * rsum n (fun i => q l i * q l i)).
    { rewrite <- !rsum_scal_l. apply rsum_ext. intros i Hi. assert (Xi := X i Hi). 
      transitivity (q j i * q l O * q l i); [ring|]. rewrite Xi. ring. }
    change (rsum n (fun i => q j i * q l i) = 0) in O1. change (rsum n (fun i => q l i * q l i) = 1) in O2.
    rewrite O1, O2 in Z. apply (Q0 j Hj). lra.
Qed.

(** ---- the arrays computed by the code ---- *)
Lemma gj_diag_ok a b n junk : exists d, gj_diag n (INR a) (INR b) junk = Ok d /\
  forall i, (i < n)%nat -> gA (INR a) (INR b) (S i) * d i = - gB (INR a) (INR b) (S i).
Proof.
  unfold gj_diag. apply (loop_inv (fun m (d : nat -> R) => forall i, (i < m)%nat -> gA (INR a) (INR b) (S i) * d i = - gB (INR a) (INR b) (S i))); [intros; lia|].
  intros k d Hk IH. rewrite Nat.add_1_r, jac_a_val, jac_b_val. cbn [bind]. assert (P := gA_pos a b k).
  rewrite rdiv_ok by lra. cbn [bind]. eexists. split; [reflexivity|]. intros i Hi.
  destruct (Nat.eq_dec i k) as [->|Ne]; [rewrite fset_eq; field; lra|]. rewrite fset_neq by exact Ne. apply IH. lia.
Qed.
Lemma gj_subdiag_ok a b n junk : exists e, gj_subdiag n (INR a) (INR b) junk = Ok e /\
  forall i, (i < n - 1)%nat -> 0 < e i /\ gA (INR a) (INR b) (S i) * gA (INR a) (INR b) (S (S i)) * (e i * e i) = gC (INR a) (INR b) (S (S i)).
Proof.
  unfold gj_subdiag. apply (loop_inv (fun m (e : nat -> R) => forall i, (i < m)%nat -> 0 < e i /\
    gA (INR a) (INR b) (S i) * gA (INR a) (INR b) (S (S i)) * (e i * e i) = gC (INR a) (INR b) (S (S i)))); [intros; lia|].
  intros k e Hk IH. rewrite Nat.add_1_r. replace (k + 2)%nat with (S (S k)) by lia. rewrite !jac_a_val, jac_c_val. cbn [bind].
  assert (P := gA_pos a b k). assert (P' := gA_pos a b (S k)). assert (PC := gC_pos a b k).
  assert (PP := Rmult_lt_0_compat _ _ P P'). rewrite rdiv_ok by lra. cbn [bind].
  assert (Pq := Rdiv_lt_0_compat _ _ PC PP). unfold rsqrt. destruct (Rlt_dec _ 0); [lra|]. cbn [bind].
  eexists. split; [reflexivity|]. intros i Hi.
  destruct (Nat.eq_dec i k) as [->|Ne]; [|rewrite fset_neq by exact Ne; apply IH; lia].
  rewrite fset_eq. split; [apply sqrt_lt_R0; exact Pq|]. rewrite sqrt_sqrt by lra. field. lra.
Qed.

Lemma gj_mu0_ok G a b : gamma_like G -> gj_mu0 G (INR a) (INR b) = Ok (hN a b 0).
Proof.
  intros HG. unfold gj_mu0. replace (INR a + INR b + 2) with (INR (a + b + 1) + 1) by (rewrite !plus_INR; cbn; ring).
  rewrite !gamma_fact by exact HG. rewrite rdiv_ok by apply INR_fact_neq_0. f_equal.
  replace (INR a + INR b + 1) with (INR (a + b + 1)) by (rewrite !plus_INR; cbn; ring).
  rewrite Rpower_pow by lra. symmetry. unfold hN, Lw. apply is_RInt_unique.
  eapply is_RInt_ext; [|eapply eq_rect; [exact (wt_moment b a)|rewrite Rmult_assoc; reflexivity]].
  intros x _. cbv beta. unfold uP, jN. rewrite jP_0. change (wt a b x = wt a b x * (1 * 1)). ring.
Qed.

Lemma gj_fill n (ev : nat -> R) (W : nat -> R) p0 w0 :
  let r := fold_up n (fun j st => let '(p, w) := st in (fset p j (ev j), fset w j (W j))) (p0, w0) in
  forall j, fst r j = (if Nat.ltb j n then ev j else p0 j) /\ snd r j = (if Nat.ltb j n then W j else w0 j).
Proof.
  cbv zeta. induction n as [|n IH]; intros j; cbn [fold_up]; [split; reflexivity|].
  specialize (IH j). destruct (fold_up n _ (p0, w0)) as [p w]. cbn [fst snd] in *. destruct IH as [E1 E2]. unfold fset.
  destruct (Nat.eqb_spec j n) as [->|Ne].
  - destruct (Nat.ltb_spec n (S n)); [split; reflexivity|lia].
  - rewrite E1, E2. destruct (Nat.ltb_spec j n), (Nat.ltb_spec j (S n)); try lia; split; reflexivity.
Qed.

(** ---- the points lie inside the interval ---- *)
Lemma uP_reflect a b n x : uP a b n (- x) = (-1) ^ S n * uP b a n x.
Proof.
  revert n. apply two_step.
  - cbn [uP]. ring.
  - cbn [uP]. unfold jN. rewrite !jP_0. cbn. ring.
  - intros n H0 H1. rewrite !uP_rec, H0, H1.
    replace (gA (INR b) (INR a) (S n)) with (gA (INR a) (INR b) (S n)).
    2: { unfold gA, cA. rewrite (Rplus_comm (INR b)). reflexivity. }
    replace (gC (INR b) (INR a) (S n)) with (gC (INR a) (INR b) (S n)).
    2: { unfold gC, cC. rewrite (Rplus_comm (INR b)). destruct (Nat.eqb (S n) 1); [reflexivity|]. unfold Rdiv. ring. }
    replace (gB (INR b) (INR a) (S n)) with (- gB (INR a) (INR b) (S n)).
    2: { unfold gB, cB. rewrite (Rplus_comm (INR b)). destruct (Nat.eqb (S n) 1); [field|]. unfold Rdiv. ring. }
    cbn [pow]. ring.
Qed.
Lemma uP_at1 a b n : 0 < uP a b (S n) 1.
Proof.
  unfold uP, jN. rewrite jP_at1. apply Rdiv_lt_0_compat; [|apply INR_fact_lt_0]. apply rising_pos.
  assert (0 <= INR a) by apply pos_INR. lra.
Qed.
Lemma uP_atm1 a b n : uP a b (S n) (-1) <> 0.
Proof.
  replace (uP a b (S n) (-1)) with (uP a b (S n) (- (1))) by (f_equal; ring). rewrite uP_reflect. apply Rmult_integral_contrapositive_currified; [apply pow_nonzero; lra|]. apply Rgt_not_eq. apply uP_at1.
Qed.
Lemma Lw_nonneg a b f : isp f -> (forall t, -1 <= t <= 1 -> 0 <= f t) -> 0 <= Lw a b f.
Proof.
  intros Hf H. unfold Lw. apply RInt_ge_0; [lra|apply isp_integrable; apply isp_mul; [apply isp_wt|exact Hf]|].
  intros t Ht. apply Rmult_le_pos; [|apply H; lra]. unfold wt. apply Rmult_le_pos; apply pow_le; lra.
Qed.
Lemma points_inside a b n x w : (forall f, poly_lt (2 * n) f -> exact_on a b n x w f) ->
  (forall j, (j < n)%nat -> 0 < w j) -> (forall j, (j < n)%nat -> uP a b (S n) (x j) = 0) ->
  (forall j l, (j < n)%nat -> (l < n)%nat -> j <> l -> x j <> x l) ->
  forall j, (j < n)%nat -> -1 < x j < 1.
Proof.
  intros Hex Hw Hr Hd j Hj.
  set (g := fun t => rprod n (fun i => if Nat.eqb i j then 1 else t - x i)).
  assert (Gj : g (x j) <> 0).
  { apply rprod_neq0. intros i Hi. destruct (Nat.eqb_spec i j); [lra|]. assert (D := Hd j i Hj Hi ltac:(lia)). lra. }
  assert (Gi : forall i, (i < n)%nat -> i <> j -> g (x i) = 0).
  { intros i Hi Ne. apply (rprod_zero n i); [exact Hi|]. destruct (Nat.eqb_spec i j); [contradiction|ring]. }
  assert (Pg : poly_lt n g).
  { unfold g. clear - Hj. 
    assert (X : forall m, poly_lt (if Nat.ltb j m then m else S m) (fun t => rprod m (fun i => if Nat.eqb i j then 1 else t - x i))).
    { induction m as [|m IH]; cbn [rprod].
      - destruct (Nat.ltb_spec j 0); [lia|]. apply (poly_const 1 1). lia.
      - destruct (Nat.ltb_spec j m), (Nat.ltb_spec j (S m)); try lia.
        + destruct (Nat.eqb_spec m j); [lia|]. eapply poly_ext; [|exact (poly_mul_lin m _ 1 (- x m) IH)]. intros t. cbv beta. ring.
        + destruct (Nat.eqb_spec m j) as [->|]; [|lia]. eapply poly_ext; [|exact IH]. intros t. cbv beta. ring.
        + destruct (Nat.eqb_spec m j); [lia|]. eapply poly_ext; [|exact (poly_mul_lin (S m) _ 1 (- x m) IH)]. intros t. cbv beta. ring. }
    specialize (X n). destruct (Nat.ltb_spec j n); [exact X|lia]. }
  destruct n as [|n']; [lia|].
  assert (Pgg : poly_lt (n' + S n') (fun t => g t * g t)) by (apply poly_mul; exact Pg).
  assert (Sgn : forall sg, (sg = 1 \/ sg = -1) -> 0 <= 1 + sg * x j).
  { intros sg Hsg. set (f := fun t => (sg * t + 1) * (g t * g t)).
    assert (Pf : poly_lt (2 * S n') f).
    { replace (2 * S n')%nat with (S (n' + S n')) by lia. unfold f. apply (poly_mul_lin _ (fun t => g t * g t)). exact Pgg. }
    assert (E := Hex f Pf). unfold exact_on in E. assert (E2 := is_RInt_unique _ _ _ _ E). clear E. rename E2 into E.
    assert (N : 0 <= Lw a b f).
    { apply Lw_nonneg; [exists (2 * S n')%nat; exact Pf|]. intros t Ht. unfold f. apply Rmult_le_pos; [destruct Hsg as [-> | ->]; lra|nra]. }
    unfold Lw, wt in N. rewrite E in N.
    rewrite (rsum_single (S n') j) in N; [|lia|intros i Hi Ne; unfold f; rewrite (Gi i Hi Ne); ring].
    unfold f in N. assert (W := Hw j Hj). 
    assert (Q : 0 < w j * (g (x j) * g (x j))) by (apply Rmult_lt_0_compat; [exact W|nra]).
    destruct (Rle_or_lt 0 (1 + sg * x j)) as [L|L]; [exact L|]. exfalso. nra. }
  assert (S1 := Sgn 1 (or_introl eq_refl)). assert (S2 := Sgn (-1) (or_intror eq_refl)).
  assert (N1 : x j <> 1) by (intros E; assert (H := Hr j Hj); rewrite E in H; generalize (uP_at1 a b (S n')); lra).
  assert (N2 : x j <> -1) by (intros E; assert (H := Hr j Hj); rewrite E in H; exact (uP_atm1 a b (S n') H)).
  lra.
Qed.

Lemma fold_up_ext {S} n (f g : nat -> S -> S) s : (forall j s, f j s = g j s) -> fold_up n f s = fold_up n g s.
Proof. intros H. induction n as [|n IH]; [reflexivity|]. cbn [fold_up]. rewrite IH. apply H. Qed.

Theorem gauss_jacobi_exact G stev junk a b n p0 w0 : gamma_like G -> (2 <= n)%nat ->
  (forall d e, gj_diag n (INR a) (INR b) junk = Ok d -> gj_subdiag n (INR a) (INR b) junk = Ok e -> stev_contract n d e (stev n d e)) ->
  exists x w, gauss_jacobi G stev junk n (INR a) (INR b) p0 w0 = Ok (x, w) /\
    (forall f, poly_lt (2 * n) f -> exact_on a b n x w f) /\
    (forall j, (j < n)%nat -> 0 < w j) /\
    (forall j, (j < n)%nat -> -1 < x j < 1 /\ jacobi_eval n (INR a) (INR b) (x j) = Ok 0) /\
    (forall j l, (j < n)%nat -> (l < n)%nat -> j <> l -> x j <> x l) /\
    (forall j, (n <= j)%nat -> x j = p0 j /\ w j = w0 j).
Proof.
  intros HG Hn Hst. unfold gauss_jacobi.
  replace (Nat.eqb n 0) with false by (symmetry; apply Nat.eqb_neq; lia).
  replace (Nat.ltb 1 n) with true by (symmetry; apply Nat.ltb_lt; lia).
  destruct (gj_diag_ok a b n junk) as (d & Ed & Hd). destruct (gj_subdiag_ok a b n junk) as (e & Ee & He).
  rewrite Ed, Ee. cbn [bind]. rewrite (gj_mu0_ok G a b HG).
  assert (Hg : gw_ok a b n d e) by (split; [exact Hd|]; intros i Hi; apply He; lia).
  assert (M := gw_main a b n d e (stev n d e) (hN a b 0) Hg (Hst d e Ed Ee) ltac:(lia) eq_refl).
  unfold eig_sym_tri. destruct (stev n d e) as [[info ev] z]. cbn [bind fst snd] in *.
  destruct M as (M1 & M2 & M3 & M4).
  set (W := fun j => z (j * n)%nat * z (j * n)%nat * hN a b 0) in *.
  assert (F := gj_fill n ev W p0 w0). cbv zeta in F.
  destruct (fold_up n (fun j st => let '(p, w) := st in (fset p j (ev j), fset w j (W j))) (p0, w0)) as [x w] eqn:Ef.
  exists x, w. split.
  { f_equal. rewrite <- Ef. apply fold_up_ext. intros j [p w']. unfold W. rewrite Nat.add_0_r. reflexivity. }
  assert (Fx : forall j, (j < n)%nat -> x j = ev j /\ w j = W j).
  { intros j Hj. destruct (F j) as (F1 & F2). cbn [fst snd] in F1, F2. rewrite F1, F2. apply Nat.ltb_lt in Hj. rewrite Hj. split; reflexivity. }
  assert (Mu : 0 < hN a b 0).
  { assert (P := gj_mu0_ok G a b HG). unfold hN, Lw. 
    rewrite (is_RInt_unique _ (-1) 1 (2 ^ (a + b + 1) * (INR (fact a) * INR (fact b)) / INR (fact (a + b + 1)))).
    - apply Rdiv_lt_0_compat; [|apply INR_fact_lt_0]. apply Rmult_lt_0_compat; [apply pow_lt; lra|]. apply Rmult_lt_0_compat; apply INR_fact_lt_0.
    - eapply is_RInt_ext; [|exact (wt_moment b a)]. intros t _. cbv beta. unfold uP, jN. rewrite jP_0. change (wt a b t = wt a b t * (1 * 1)). ring. }
  assert (R1 : forall f, poly_lt (2 * n) f -> exact_on a b n x w f).
  { intros f Hf. assert (X := M1 f Hf). unfold exact_on in *. eapply eq_rect; [exact X|]. apply rsum_ext. intros j Hj.
    destruct (Fx j Hj) as (-> & ->). reflexivity. }
  assert (R2 : forall j, (j < n)%nat -> 0 < w j).
  { intros j Hj. destruct (Fx j Hj) as (_ & ->). unfold W. assert (N := M2 j Hj). apply Rmult_lt_0_compat; [|exact Mu]. nra. }
  assert (R3 : forall j, (j < n)%nat -> uP a b (S n) (x j) = 0).
  { intros j Hj. destruct (Fx j Hj) as (-> & _). exact (M3 j Hj). }
  assert (R4 : forall j l, (j < n)%nat -> (l < n)%nat -> j <> l -> x j <> x l).
  { intros j l Hj Hl Ne. destruct (Fx j Hj) as (-> & _). destruct (Fx l Hl) as (-> & _). apply M4; assumption. }
  split; [exact R1|]. split; [exact R2|]. split; [|split; [exact R4|]].
  - intros j Hj. split; [exact (points_inside a b n x w R1 R2 R3 R4 j Hj)|].
    rewrite jacobi_eval_ok by (assert (P := sum_pos a b); lra). f_equal. exact (R3 j Hj).
  - intros j Hj. destruct (F j) as (F1 & F2). cbn [fst snd] in F1, F2. rewrite F1, F2. apply Nat.ltb_ge in Hj. rewrite Hj. split; reflexivity.
Qed.
