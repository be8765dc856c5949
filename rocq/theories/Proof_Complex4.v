(** The complex-step method through the interpolation templates and the element classes. *)
From Coq Require Import List Reals ZArith NArith Arith Lia Lra.
From Coquelicot Require Import Complex.
Import ListNotations.
Require Import Verif.Base Verif.RBase Verif.RSum Verif.RDer Verif.CSum Verif.CPoly Verif.Spec_Lagrange Verif.Spec_Poly Verif.Spec_Complex
  Verif.CLagrange_Math Verif.CStep Verif.CStep2 Verif.Model_Common Verif.Spec_Common Verif.Proof_Common
  Verif.Model_Lagrange Verif.Lagrange_Math Verif.Proof_Lagrange Verif.Proof_LagElem Verif.Model_Poly Verif.Proof_Poly Verif.Proof_LegElem
  Verif.Model_Complex Verif.Proof_CParam Verif.Proof_Complex Verif.Proof_Complex2 Verif.Proof_Complex3.
Local Close Scope N_scope.
Open Scope R_scope.
Open Scope res_scope.

Lemma step_of_poly prog n f F x d : same_poly n f F -> derivable_pt_lim f x d ->
  (forall h, h <> 0 -> prog (x, h) = Ok (F (x, h))) -> step_of prog x (f x) d.
Proof. intros HS Hd Hp. exists (fun h => F (x, h)). split; [exact Hp|]. apply (same_poly_step n); assumption. Qed.
Lemma exact_step_of_poly prog n f F x d : (n <= 3)%nat -> same_poly n f F -> derivable_pt_lim f x d ->
  (forall h, h <> 0 -> prog (x, h) = Ok (F (x, h))) -> exact_step_of prog x d.
Proof.
  intros Hn HS Hd Hp h H0. exists (F (x, h)). split; [apply Hp; exact H0|]. apply (same_poly_exact n f); assumption.
Qed.

(** ---- Lagrange, one dimension ---- *)
Lemma same_cell n Z i : distinct n Z -> (i < n)%nat -> same_poly n (ell n Z i) (cell n (cv Z) i).
Proof.
  intros D Hi. apply (same_poly_ext n (interp n Z (fun j => if Nat.eqb j i then 1 else 0)) _
     (cinterp n (cv Z) (fun j => RtoC (if Nat.eqb j i then 1 else 0)))).
  - intros x. apply interp_delta. exact Hi.
  - intros X. rewrite <- (cinterp_delta n (cv Z) i X Hi). apply cinterp_ext. intros j _. destruct (Nat.eqb j i); reflexivity.
  - apply same_interp. exact D.
Qed.
Lemma cv_distinct n Z : distinct n Z -> cdistinct n (cv Z).
Proof. apply RtoC_distinct. Qed.
Lemma off_im n (Z : nat -> R) x h : h <> 0 -> forall i, (i < n)%nat -> ((x, h) - cv Z i <> 0)%C.
Proof. intros H i _ Q. apply (f_equal snd) in Q. cbn in Q. apply H. lra. Qed.

Lemma step_eval_ok n Z w W0 i ic x : distinct n Z -> t_weights Cnum n (cv Z) W0 = Ok w -> (i < n)%nat -> (N.of_nat n <= ic)%N ->
  step_of (t_eval Cnum n i ic (cv Z) w) x (ell n Z i x) (dell n Z i x) /\
  ((n <= 3)%nat -> exact_step_of (t_eval Cnum n i ic (cv Z) w) x (dell n Z i x)).
Proof.
  intros D HW Hi Hic. assert (D' := cv_distinct n Z D).
  destruct (c_weights_ok_spec n (cv Z) W0 D') as (w' & E & W & _). uci HW. uci E. rewrite HW in E. inversion E; subst w'.
  assert (P : forall h, h <> 0 -> t_eval Cnum n i ic (cv Z) w (x, h) = Ok (cell n (cv Z) i (x, h))).
  { intros h H0. apply c_eval_correct; try assumption. right. split; [exact Hic|]. apply off_im. exact H0. }
  split; [|intros Hn].
  - apply (step_of_poly _ n (ell n Z i) (cell n (cv Z) i)); [apply same_cell; assumption|apply ell_der|exact P].
  - apply (exact_step_of_poly _ n (ell n Z i) (cell n (cv Z) i)); [exact Hn|apply same_cell; assumption|apply ell_der|exact P].
Qed.

Lemma step_interp_ok n Z w W0 c ic x d : distinct n Z -> t_weights Cnum n (cv Z) W0 = Ok w -> (N.of_nat n <= ic)%N ->
  derivable_pt_lim (interp n Z c) x d ->
  let prog := fun X => t_eval_interp Cnum n ic (cv Z) w X (fun i => Ok (RtoC (c i))) in
  step_of prog x (interp n Z c x) d /\ ((n <= 3)%nat -> exact_step_of prog x d).
Proof.
  intros D HW Hic Hd prog. assert (D' := cv_distinct n Z D).
  destruct (c_weights_ok_spec n (cv Z) W0 D') as (w' & E & W & _). uci HW. uci E. rewrite HW in E. inversion E; subst w'.
  assert (P : forall h, h <> 0 -> prog (x, h) = Ok (cinterp n (cv Z) (cv c) (x, h))).
  { intros h H0. apply c_eval_interp_correct; try assumption; [|reflexivity]. right. split; [exact Hic|]. apply off_im. exact H0. }
  split; [|intros Hn].
  - apply (step_of_poly _ n (interp n Z c) (cinterp n (cv Z) (cv c))); [apply same_interp; assumption|exact Hd|exact P].
  - apply (exact_step_of_poly _ n (interp n Z c) (cinterp n (cv Z) (cv c))); [exact Hn|apply same_interp; assumption|exact Hd|exact P].
Qed.

(** ---- tensor products ---- *)
Lemma RtoC_mult3 a b c d : (RtoC a * (RtoC b * RtoC c * RtoC d))%C = RtoC (a * (b * c * d)).
Proof. rewrite !RtoC_mult. reflexivity. Qed.
Lemma same_tensor_x m n c (f : nat -> R -> R) F b d : (forall i, (i < n)%nat -> same_poly m (f i) (F i)) ->
  same_poly m (fun x => tensor_sum n c (fun i => f i x) b d) (fun X => ctensor_sum n (cv c) (fun i => F i X) (cv b) (cv d)).
Proof.
  intros H. unfold tensor_sum, ctensor_sum.
  apply (same_poly_sum m n (fun k x => rsum n (fun j => rsum n (fun i => c (i + j * n + k * n * n)%nat * (f i x * b j * d k))))
     (fun k X => csum n (fun j => csum n (fun i => cv c (i + j * n + k * n * n)%nat * (F i X * cv b j * cv d k))%C))). intros k _.
  apply (same_poly_sum m n (fun j x => rsum n (fun i => c (i + j * n + k * n * n)%nat * (f i x * b j * d k)))
     (fun j X => csum n (fun i => cv c (i + j * n + k * n * n)%nat * (F i X * cv b j * cv d k))%C)). intros j _.
  apply (same_poly_sum m n (fun i x => c (i + j * n + k * n * n)%nat * (f i x * b j * d k))
     (fun i X => cv c (i + j * n + k * n * n)%nat * (F i X * cv b j * cv d k))%C). intros i Hi.
  apply (same_poly_ext m (fun x => (c (i + j * n + k * n * n)%nat * b j * d k) * f i x) _
     (fun X => RtoC (c (i + j * n + k * n * n)%nat * b j * d k) * F i X)%C).
  - intros; ring.
  - intros X. unfold cv. rewrite !RtoC_mult. ring.
  - apply same_poly_scal. apply H. exact Hi.
Qed.
Lemma same_tensor_y m n c (f : nat -> R -> R) F b d : (forall i, (i < n)%nat -> same_poly m (f i) (F i)) ->
  same_poly m (fun x => tensor_sum n c b (fun i => f i x) d) (fun X => ctensor_sum n (cv c) (cv b) (fun i => F i X) (cv d)).
Proof.
  intros H. unfold tensor_sum, ctensor_sum.
  apply (same_poly_sum m n (fun k x => rsum n (fun j => rsum n (fun i => c (i + j * n + k * n * n)%nat * (b i * f j x * d k))))
     (fun k X => csum n (fun j => csum n (fun i => cv c (i + j * n + k * n * n)%nat * (cv b i * F j X * cv d k))%C))). intros k _.
  apply (same_poly_sum m n (fun j x => rsum n (fun i => c (i + j * n + k * n * n)%nat * (b i * f j x * d k)))
     (fun j X => csum n (fun i => cv c (i + j * n + k * n * n)%nat * (cv b i * F j X * cv d k))%C)). intros j Hj.
  apply (same_poly_sum m n (fun i x => c (i + j * n + k * n * n)%nat * (b i * f j x * d k))
     (fun i X => cv c (i + j * n + k * n * n)%nat * (cv b i * F j X * cv d k))%C). intros i _.
  apply (same_poly_ext m (fun x => (c (i + j * n + k * n * n)%nat * b i * d k) * f j x) _
     (fun X => RtoC (c (i + j * n + k * n * n)%nat * b i * d k) * F j X)%C).
  - intros; ring.
  - intros X. unfold cv. rewrite !RtoC_mult. ring.
  - apply same_poly_scal. apply H. exact Hj.
Qed.
Lemma same_tensor_z m n c (f : nat -> R -> R) F b d : (forall i, (i < n)%nat -> same_poly m (f i) (F i)) ->
  same_poly m (fun x => tensor_sum n c b d (fun i => f i x)) (fun X => ctensor_sum n (cv c) (cv b) (cv d) (fun i => F i X)).
Proof.
  intros H. unfold tensor_sum, ctensor_sum.
  apply (same_poly_sum m n (fun k x => rsum n (fun j => rsum n (fun i => c (i + j * n + k * n * n)%nat * (b i * d j * f k x))))
     (fun k X => csum n (fun j => csum n (fun i => cv c (i + j * n + k * n * n)%nat * (cv b i * cv d j * F k X))%C))). intros k Hk.
  apply (same_poly_sum m n (fun j x => rsum n (fun i => c (i + j * n + k * n * n)%nat * (b i * d j * f k x)))
     (fun j X => csum n (fun i => cv c (i + j * n + k * n * n)%nat * (cv b i * cv d j * F k X))%C)). intros j _.
  apply (same_poly_sum m n (fun i x => c (i + j * n + k * n * n)%nat * (b i * d j * f k x))
     (fun i X => cv c (i + j * n + k * n * n)%nat * (cv b i * cv d j * F k X))%C). intros i _.
  apply (same_poly_ext m (fun x => (c (i + j * n + k * n * n)%nat * b i * d j) * f k x) _
     (fun X => RtoC (c (i + j * n + k * n * n)%nat * b i * d j) * F k X)%C).
  - intros; ring.
  - intros X. unfold cv. rewrite !RtoC_mult. ring.
  - apply same_poly_scal. apply H. exact Hk.
Qed.
Lemma ctensor_ext n c c' f f' g g' h h' : (forall i, (i < n * n * n)%nat -> c i = c' i) ->
  (forall i, (i < n)%nat -> f i = f' i) -> (forall i, (i < n)%nat -> g i = g' i) -> (forall i, (i < n)%nat -> h i = h' i) ->
  ctensor_sum n c f g h = ctensor_sum n c' f' g' h'.
Proof.
  intros Hc Hf Hg Hh. unfold ctensor_sum. apply csum_ext. intros k Hk. apply csum_ext. intros j Hj. apply csum_ext. intros i Hi.
  rewrite Hc, Hf, Hg, Hh by (try assumption; assert ((j * n + n <= n * n)%nat) by nia; assert ((k * n * n + n * n <= n * n * n)%nat) by nia; lia).
  reflexivity.
Qed.
(** with real data throughout *)
Lemma ctensor_RtoC n c f g h : ctensor_sum n (cv c) (cv f) (cv g) (cv h) = RtoC (tensor_sum n c f g h).
Proof.
  unfold ctensor_sum, tensor_sum, cv.
  rewrite <- csum_RtoC. apply csum_ext. intros k _. rewrite <- csum_RtoC. apply csum_ext. intros j _.
  rewrite <- csum_RtoC. apply csum_ext. intros i _. apply RtoC_mult3.
Qed.

(** the three directions of a tensor-product program *)
Section Dirs.
Variables (n m : nat) (f : nat -> R -> R) (F : nat -> C -> C) (c : nat -> R) (x y z : R).
Hypothesis HS : forall i, (i < n)%nat -> same_poly m (f i) (F i).
Let V (x y z : R) := tensor_sum n c (fun i => f i x) (fun j => f j y) (fun k => f k z).
Variables gx gy gz : R.
Hypothesis HG : is_grad V x y z (gx, gy, gz).
Lemma dirs_EF t i : (i < n)%nat -> F i (RtoC t) = cv (fun i => f i t) i.
Proof. intros Hi. unfold cv. apply (same_poly_RtoC m). apply HS. exact Hi. Qed.
Variable prog : C -> res C.
Lemma dirs_x : (forall h, h <> 0 -> prog (x, h) =
    Ok (ctensor_sum n (cv c) (fun i => F i (x, h)) (fun j => F j (RtoC y)) (fun k => F k (RtoC z)))) ->
  step_of prog x (V x y z) gx /\ ((m <= 3)%nat -> exact_step_of prog x gx).
Proof.
  intros HP. destruct HG as (G1 & _ & _).
  assert (S1 := same_tensor_x m n c f F (fun j => f j y) (fun k => f k z) HS).
  assert (P1 : forall h, h <> 0 -> prog (x, h) =
     Ok (ctensor_sum n (cv c) (fun i => F i (x, h)) (cv (fun j => f j y)) (cv (fun k => f k z)))).
  { intros h H0. rewrite HP by exact H0. apply f_equal. apply ctensor_ext; auto; intros; apply dirs_EF; assumption. }
  split; [apply (step_of_poly _ m _ _ x gx S1 G1 P1)|].
  intros Hm. apply (exact_step_of_poly _ m _ _ x gx Hm S1 G1 P1).
Qed.
Lemma dirs_y : (forall h, h <> 0 -> prog (y, h) =
    Ok (ctensor_sum n (cv c) (fun i => F i (RtoC x)) (fun j => F j (y, h)) (fun k => F k (RtoC z)))) ->
  step_of prog y (V x y z) gy /\ ((m <= 3)%nat -> exact_step_of prog y gy).
Proof.
  intros HP. destruct HG as (_ & G1 & _).
  assert (S1 := same_tensor_y m n c f F (fun j => f j x) (fun k => f k z) HS).
  assert (P1 : forall h, h <> 0 -> prog (y, h) =
     Ok (ctensor_sum n (cv c) (cv (fun i => f i x)) (fun j => F j (y, h)) (cv (fun k => f k z)))).
  { intros h H0. rewrite HP by exact H0. apply f_equal. apply ctensor_ext; auto; intros; apply dirs_EF; assumption. }
  split; [apply (step_of_poly _ m _ _ y gy S1 G1 P1)|].
  intros Hm. apply (exact_step_of_poly _ m _ _ y gy Hm S1 G1 P1).
Qed.
Lemma dirs_z : (forall h, h <> 0 -> prog (z, h) =
    Ok (ctensor_sum n (cv c) (fun i => F i (RtoC x)) (fun j => F j (RtoC y)) (fun k => F k (z, h)))) ->
  step_of prog z (V x y z) gz /\ ((m <= 3)%nat -> exact_step_of prog z gz).
Proof.
  intros HP. destruct HG as (_ & _ & G1).
  assert (S1 := same_tensor_z m n c f F (fun i => f i x) (fun j => f j y) HS).
  assert (P1 : forall h, h <> 0 -> prog (z, h) =
     Ok (ctensor_sum n (cv c) (cv (fun i => f i x)) (cv (fun j => f j y)) (fun k => F k (z, h)))).
  { intros h H0. rewrite HP by exact H0. apply f_equal. apply ctensor_ext; auto; intros; apply dirs_EF; assumption. }
  split; [apply (step_of_poly _ m _ _ z gz S1 G1 P1)|].
  intros Hm. apply (exact_step_of_poly _ m _ _ z gz Hm S1 G1 P1).
Qed.
End Dirs.

(** ---- LagrangeElement<Complex> with real data ---- *)
Lemma cv_separated n Z : separated n Z -> cseparated n (cv Z).
Proof. intros H i j Hi Hj E. apply H; assumption. Qed.
Lemma cv_clean n Z x : clean n Z x -> cclean n (cv Z) (RtoC x).
Proof. intros [(i & Hi & ->)|H]; [left; exists i; auto|right; exact H]. Qed.
Lemma off_clean n Z x h : (forall i, (i < n)%nat -> tol <= Rabs (Z i - x)) -> cclean n (cv Z) (x, h).
Proof. intros H. right. exact H. Qed.

Lemma capprox_ok order Z w0 E c X Y T C : cconstructed order Z w0 E -> let n := (order + 1)%nat in
  cclean n Z X -> cclean n Z Y -> cclean n Z T ->
  exists C', t_eval_approx Cnum E c X Y T C = Ok (ctensor_sum n c (fun i => cell n Z i X) (fun j => cell n Z j Y) (fun k => cell n Z k T), C').
Proof.
  intros HC n HX HY HT. destruct (cconstructed_ok _ _ _ _ HC) as (Ho & H1 & H2).
  destruct (ceval_approx_ok E c X Y T C Ho) as (C' & E'); [subst n; rewrite H1, H2; assumption..|].
  exists C'. rewrite H1, H2 in E'. exact E'.
Qed.

Lemma cbasis_ok order Z w0 E i j k X Y T : cconstructed order Z w0 E -> let n := (order + 1)%nat in
  (i < n)%nat -> (j < n)%nat -> (k < n)%nat -> cclean n Z X -> cclean n Z Y -> cclean n Z T ->
  t_eval_basis Cnum E (N.of_nat (i + j * n + k * n * n)) X Y T = Ok (cphi3 n Z i j k X Y T).
Proof.
  intros HC n Hi Hj Hk HX HY HT. destruct (cconstructed_ok _ _ _ _ HC) as (Ho & H1 & H2).
  assert (R := ceval_basis_ok E i j k X Y T Ho). rewrite H1, H2 in R. apply R; assumption.
Qed.

Section LagStep.
Variables (order : nat) (Z w0 : nat -> R) (W0 : nat -> C) (e : lagrange_element) (E : t_element Cnum).
Let n := (order + 1)%nat.
Hypothesis He : new_lagrange_element order Z w0 = Ok e.
Hypothesis Hs : separated n Z.
Hypothesis Hn : (N.of_nat (n * n * n) <= 2 ^ 64)%N.
Hypothesis HE : t_new_element Cnum order (cv Z) W0 = Ok E.
Notation off x := (forall i, (i < n)%nat -> tol <= Rabs (Z i - x)).
Lemma ls_c : cconstructed order (cv Z) W0 E.
Proof. split; [exact HE|]. split; [apply cv_separated; exact Hs|exact Hn]. Qed.
Lemma ls_r : constructed order Z w0 e. Proof. split; [exact He|]. split; assumption. Qed.
Lemma ls_same i : (i < n)%nat -> same_poly n (ell n Z i) (cell n (cv Z) i).
Proof. intros Hi. apply same_cell; [apply separated_distinct; exact Hs|exact Hi]. Qed.
Lemma ls_grad c x y z gx gy gz : is_grad (field3 n Z c) x y z (gx, gy, gz) ->
  is_grad (fun x y z => tensor_sum n c (fun i => ell n Z i x) (fun j => ell n Z j y) (fun k => ell n Z k z)) x y z (gx, gy, gz).
Proof. intros H. exact H. Qed.

Lemma lag_step c x y z C CC gx gy gz C' v C'' :
  le_eval_grad_approx e c x y z C = Ok ((gx, gy, gz), C') -> le_eval_approx e c x y z C = Ok (v, C'') ->
  clean n Z x -> clean n Z y -> clean n Z z ->
  let prog := fun X Y T => value (t_eval_approx Cnum E (cv c) X Y T CC) in
  (off x -> step_of (fun X => prog X (RtoC y) (RtoC z)) x v gx /\
            ((n <= 3)%nat -> exact_step_of (fun X => prog X (RtoC y) (RtoC z)) x gx)) /\
  (off y -> step_of (fun Y => prog (RtoC x) Y (RtoC z)) y v gy /\
            ((n <= 3)%nat -> exact_step_of (fun Y => prog (RtoC x) Y (RtoC z)) y gy)) /\
  (off z -> step_of (fun T => prog (RtoC x) (RtoC y) T) z v gz /\
            ((n <= 3)%nat -> exact_step_of (fun T => prog (RtoC x) (RtoC y) T) z gz)).
Proof.
  intros HGr HV Cx Cy Cz prog.
  destruct (c_grad_approx order Z w0 e ls_r c x y z C Cx Cy Cz) as (g & Cg & Eg & Hg). rewrite HGr in Eg. inversion Eg; subst g Cg.
  destruct (c_approx order Z w0 e ls_r c x y z C Cx Cy Cz) as (Cv & Ev). rewrite HV in Ev. inversion Ev; subst v Cv. clear Ev Eg.
  assert (PR : forall X Y T, cclean n (cv Z) X -> cclean n (cv Z) Y -> cclean n (cv Z) T ->
     prog X Y T = Ok (ctensor_sum n (cv c) (fun i => cell n (cv Z) i X) (fun j => cell n (cv Z) j Y) (fun k => cell n (cv Z) k T))).
  { intros X Y T HX HY HT. unfold prog. destruct (capprox_ok order (cv Z) W0 E (cv c) X Y T CC ls_c HX HY HT) as (C1 & E1).
    uci E1. uc. rewrite E1. reflexivity. }
  split; [|split]; intros Hoff.
  - apply (dirs_x n n (fun i => ell n Z i) (fun i => cell n (cv Z) i) c x y z ls_same gx gy gz (ls_grad _ _ _ _ _ _ _ Hg)).
    intros h _. apply PR; [apply off_clean; exact Hoff|apply cv_clean; assumption|apply cv_clean; assumption].
  - apply (dirs_y n n (fun i => ell n Z i) (fun i => cell n (cv Z) i) c x y z ls_same gx gy gz (ls_grad _ _ _ _ _ _ _ Hg)).
    intros h _. apply PR; [apply cv_clean; assumption|apply off_clean; exact Hoff|apply cv_clean; assumption].
  - apply (dirs_z n n (fun i => ell n Z i) (fun i => cell n (cv Z) i) c x y z ls_same gx gy gz (ls_grad _ _ _ _ _ _ _ Hg)).
    intros h _. apply PR; [apply cv_clean; assumption|apply cv_clean; assumption|apply off_clean; exact Hoff].
Qed.

Lemma cell_real y j : (j < n)%nat -> cell n (cv Z) j (RtoC y) = RtoC (ell n Z j y).
Proof. intros Hj. apply cell_RtoC; [apply separated_distinct; exact Hs|exact Hj]. Qed.

Lemma lag_basis_step i j k x y z C gx gy gz C' :
  (i < n)%nat -> (j < n)%nat -> (k < n)%nat ->
  let I := N.of_nat (i + j * n + k * n * n) in
  le_eval_grad_basis e I x y z C = Ok ((gx, gy, gz), C') ->
  clean n Z x -> clean n Z y -> clean n Z z ->
  let v := phi3 n Z i j k x y z in
  let prog := fun X Y T => t_eval_basis Cnum E I X Y T in
  (off x -> step_of (fun X => prog X (RtoC y) (RtoC z)) x v gx /\
            ((n <= 3)%nat -> exact_step_of (fun X => prog X (RtoC y) (RtoC z)) x gx)) /\
  (off y -> step_of (fun Y => prog (RtoC x) Y (RtoC z)) y v gy /\
            ((n <= 3)%nat -> exact_step_of (fun Y => prog (RtoC x) Y (RtoC z)) y gy)) /\
  (off z -> step_of (fun T => prog (RtoC x) (RtoC y) T) z v gz /\
            ((n <= 3)%nat -> exact_step_of (fun T => prog (RtoC x) (RtoC y) T) z gz)).
Proof.
  intros Hi Hj Hk I HGr Cx Cy Cz v prog.
  destruct (c_grad_basis order Z w0 e ls_r i j k x y z C Hi Hj Hk Cx Cy Cz) as (g & Cg & Eg & Hg).
  unfold I, n in HGr. rewrite HGr in Eg. inversion Eg; subst g Cg. clear Eg. destruct Hg as (G1 & G2 & G3). fold n in G1, G2, G3.
  assert (PR : forall X Y T, cclean n (cv Z) X -> cclean n (cv Z) Y -> cclean n (cv Z) T ->
     prog X Y T = Ok (cphi3 n (cv Z) i j k X Y T)).
  { intros X Y T HX HY HT. apply (cbasis_ok order (cv Z) W0 E i j k X Y T ls_c); assumption. }
  assert (S1 : same_poly n (fun t => phi3 n Z i j k t y z) (fun T => cphi3 n (cv Z) i j k T (RtoC y) (RtoC z))).
  { apply (same_poly_ext n (fun t => (ell n Z j y * ell n Z k z) * ell n Z i t) _ (fun T => RtoC (ell n Z j y * ell n Z k z) * cell n (cv Z) i T)%C).
    - intros; unfold phi3; ring.
    - intros T. unfold cphi3. rewrite !cell_real by assumption. rewrite RtoC_mult. ring.
    - apply same_poly_scal. apply ls_same. exact Hi. }
  assert (S2 : same_poly n (fun t => phi3 n Z i j k x t z) (fun T => cphi3 n (cv Z) i j k (RtoC x) T (RtoC z))).
  { apply (same_poly_ext n (fun t => (ell n Z i x * ell n Z k z) * ell n Z j t) _ (fun T => RtoC (ell n Z i x * ell n Z k z) * cell n (cv Z) j T)%C).
    - intros; unfold phi3; ring.
    - intros T. unfold cphi3. rewrite !cell_real by assumption. rewrite RtoC_mult. ring.
    - apply same_poly_scal. apply ls_same. exact Hj. }
  assert (S3 : same_poly n (fun t => phi3 n Z i j k x y t) (fun T => cphi3 n (cv Z) i j k (RtoC x) (RtoC y) T)).
  { apply (same_poly_ext n (fun t => (ell n Z i x * ell n Z j y) * ell n Z k t) _ (fun T => RtoC (ell n Z i x * ell n Z j y) * cell n (cv Z) k T)%C).
    - intros; unfold phi3; ring.
    - intros T. unfold cphi3. rewrite !cell_real by assumption. rewrite RtoC_mult. ring.
    - apply same_poly_scal. apply ls_same. exact Hk. }
  split; [|split]; intros Hoff.
  - assert (P : forall h, h <> 0 -> prog (x, h) (RtoC y) (RtoC z) = Ok (cphi3 n (cv Z) i j k (x, h) (RtoC y) (RtoC z)))
      by (intros h _; apply PR; [apply off_clean; exact Hoff|apply cv_clean; assumption|apply cv_clean; assumption]).
    split; [|intros Hn3].
    + exact (step_of_poly (fun X => prog X (RtoC y) (RtoC z)) n _ _ x gx S1 G1 P).
    + exact (exact_step_of_poly (fun X => prog X (RtoC y) (RtoC z)) n _ _ x gx Hn3 S1 G1 P).
  - assert (P : forall h, h <> 0 -> prog (RtoC x) (y, h) (RtoC z) = Ok (cphi3 n (cv Z) i j k (RtoC x) (y, h) (RtoC z)))
      by (intros h _; apply PR; [apply cv_clean; assumption|apply off_clean; exact Hoff|apply cv_clean; assumption]).
    split; [|intros Hn3].
    + exact (step_of_poly (fun X => prog (RtoC x) X (RtoC z)) n _ _ y gy S2 G2 P).
    + exact (exact_step_of_poly (fun X => prog (RtoC x) X (RtoC z)) n _ _ y gy Hn3 S2 G2 P).
  - assert (P : forall h, h <> 0 -> prog (RtoC x) (RtoC y) (z, h) = Ok (cphi3 n (cv Z) i j k (RtoC x) (RtoC y) (z, h)))
      by (intros h _; apply PR; [apply cv_clean; assumption|apply cv_clean; assumption|apply off_clean; exact Hoff]).
    split; [|intros Hn3].
    + exact (step_of_poly (fun X => prog (RtoC x) (RtoC y) X) n _ _ z gz S3 G3 P).
    + exact (exact_step_of_poly (fun X => prog (RtoC x) (RtoC y) X) n _ _ z gz Hn3 S3 G3 P).
Qed.

(** coefficients perturbed: exact for every step, at every point *)
Lemma lag_coeff_step c d x y z h CC : clean n Z x -> clean n Z y -> clean n Z z ->
  exists C1, t_eval_approx Cnum E (fun i => (c i, h * d i)) (RtoC x) (RtoC y) (RtoC z) CC =
    Ok ((field3 n Z c x y z, h * field3 n Z d x y z), C1).
Proof.
  intros Cx Cy Cz.
  destruct (capprox_ok order (cv Z) W0 E (fun i => (c i, h * d i)) (RtoC x) (RtoC y) (RtoC z) CC ls_c
    (cv_clean _ _ _ Cx) (cv_clean _ _ _ Cy) (cv_clean _ _ _ Cz)) as (C1 & E1).
  exists C1. uci E1. uc. rewrite E1. f_equal. f_equal. fold n.
  change (field3 n Z c x y z) with (tensor_sum n c (fun i => ell n Z i x) (fun i => ell n Z i y) (fun i => ell n Z i z)).
  change (field3 n Z d x y z) with (tensor_sum n d (fun i => ell n Z i x) (fun i => ell n Z i y) (fun i => ell n Z i z)).
  transitivity (RtoC (tensor_sum n c (fun i => ell n Z i x) (fun i => ell n Z i y) (fun i => ell n Z i z)) +
     Ci * RtoC h * RtoC (tensor_sum n d (fun i => ell n Z i x) (fun i => ell n Z i y) (fun i => ell n Z i z)))%C.
  2: { unfold Ci, RtoC, Cplus, Cmult. cbn [fst snd]. f_equal; ring. }
  rewrite <- !ctensor_RtoC. unfold ctensor_sum at 3. rewrite <- csum_scal_l. unfold ctensor_sum. rewrite <- csum_plus.
  apply csum_ext. intros k Hk. rewrite <- csum_scal_l, <- csum_plus. apply csum_ext. intros j Hj.
  rewrite <- csum_scal_l, <- csum_plus. apply csum_ext. intros i Hi. rewrite !cell_real by assumption. unfold cv.
  replace (c (i + j * n + k * n * n)%nat, h * d (i + j * n + k * n * n)%nat) with
    (RtoC (c (i + j * n + k * n * n)%nat) + Ci * RtoC h * RtoC (d (i + j * n + k * n * n)%nat))%C.
  - ring.
  - unfold Ci, RtoC, Cplus, Cmult. cbn [fst snd]. f_equal; ring.
Qed.
End LagStep.

(** ---- coordinates recognised as vertices: the imaginary part is ignored ---- *)
Lemma find_same_re n (Z : nat -> C) X X' : Re X = Re X' -> t_find Cnum n Z X = t_find Cnum n Z X'.
Proof. intros H. rewrite !cfind_re, H. reflexivity. Qed.
Lemma t_eval_hit n i ic (Z w : nat -> C) X X' : (ic < N.of_nat n)%N -> t_eval Cnum n i ic Z w X = t_eval Cnum n i ic Z w X'.
Proof. intros H. unfold t_eval. rewrite (proj2 (N.ltb_lt _ _) H). reflexivity. Qed.
Lemma t_eval_interp_hit n ic (Z w : nat -> C) X X' c : (ic < N.of_nat n)%N ->
  t_eval_interp Cnum n ic Z w X c = t_eval_interp Cnum n ic Z w X' c.
Proof. intros H. unfold t_eval_interp. rewrite (proj2 (N.ltb_lt _ _) H). reflexivity. Qed.
Definition hit_or_same n (Z : nat -> C) (X X' : C) : Prop :=
  X = X' \/ (Re X = Re X' /\ (t_find Cnum n Z X < N.of_nat n)%N).
Lemma hit_eval n i (Z w : nat -> C) X X' : hit_or_same n Z X X' ->
  t_eval Cnum n i (t_find Cnum n Z X) Z w X = t_eval Cnum n i (t_find Cnum n Z X') Z w X'.
Proof. intros [->|(H & K)]; [reflexivity|]. rewrite <- (find_same_re n Z X X' H). apply t_eval_hit. exact K. Qed.
Lemma hit_interp n (Z w : nat -> C) X X' c : hit_or_same n Z X X' ->
  t_eval_interp Cnum n (t_find Cnum n Z X) Z w X c = t_eval_interp Cnum n (t_find Cnum n Z X') Z w X' c.
Proof. intros [->|(H & K)]; [reflexivity|]. rewrite <- (find_same_re n Z X X' H). apply t_eval_interp_hit. exact K. Qed.
Lemma loop_from_ext {S} lo n (f g : nat -> S -> res S) s : (forall i x, f i x = g i x) -> loop_from lo n f s = loop_from lo n g s.
Proof.
  intros H. revert lo s. induction n as [|n IH]; intros lo s; cbn; [reflexivity|]. rewrite H. destruct (g lo s); cbn; auto.
Qed.
Lemma bind_ext {A B} (a a' : res A) (f g : A -> res B) : a = a' -> (forall x, f x = g x) -> bind a f = bind a' g.
Proof. intros -> H. destruct a'; cbn; auto. Qed.
Lemma hit_approx (E : t_element Cnum) c X Y T X' Y' T' CC :
  hit_or_same (te_N Cnum E) (te_Z Cnum E) X X' -> hit_or_same (te_N Cnum E) (te_Z Cnum E) Y Y' ->
  hit_or_same (te_N Cnum E) (te_Z Cnum E) T T' ->
  t_eval_approx Cnum E c X Y T CC = t_eval_approx Cnum E c X' Y' T' CC.
Proof.
  intros HX HY HT. unfold t_eval_approx. cbv zeta. apply bind_ext.
  - unfold loop. apply loop_from_ext. intros k D. apply bind_ext.
    + apply loop_from_ext. intros j D'. apply bind_ext; [apply hit_interp; exact HX|reflexivity].
    + intros D'. apply bind_ext; [apply hit_interp; exact HY|reflexivity].
  - intros D. apply bind_ext; [apply hit_interp; exact HT|reflexivity].
Qed.
Lemma hit_basis (E : t_element Cnum) I X Y T X' Y' T' :
  hit_or_same (te_N Cnum E) (te_Z Cnum E) X X' -> hit_or_same (te_N Cnum E) (te_Z Cnum E) Y Y' ->
  hit_or_same (te_N Cnum E) (te_Z Cnum E) T T' ->
  t_eval_basis Cnum E I X Y T = t_eval_basis Cnum E I X' Y' T'.
Proof.
  intros HX HY HT. unfold t_eval_basis. apply bind_ext; [reflexivity|]. intros [[i j] k].
  apply bind_ext; [apply hit_eval; exact HX|]. intros. apply bind_ext; [apply hit_eval; exact HY|]. intros.
  apply bind_ext; [apply hit_eval; exact HT|]. reflexivity.
Qed.
