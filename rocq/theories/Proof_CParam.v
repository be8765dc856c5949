(** The templates of Model_Complex.v are parametric: instances whose operations are related return related
    results.  Used for the embedding of R into C. *)
From Coq Require Import List Reals ZArith NArith Arith Lia Lra.
From Coquelicot Require Import Complex.
Import ListNotations.
Require Import Verif.Base Verif.RBase Verif.Model_Common Verif.Model_Lagrange Verif.Model_Poly Verif.Model_Complex.
Local Close Scope N_scope.
Open Scope R_scope.
Open Scope res_scope.

Definition rres {A B} (P : A -> B -> Prop) (a : res A) (b : res B) : Prop :=
  match a, b with Ok x, Ok y => P x y | Err e, Err e' => e = e' | _, _ => False end.
Definition prel {A B A' B'} (P : A -> B -> Prop) (Q : A' -> B' -> Prop) (a : A * A') (b : B * B') : Prop :=
  P (fst a) (fst b) /\ Q (snd a) (snd b).
Definition frel {A B} (P : A -> B -> Prop) (f : nat -> A) (g : nat -> B) : Prop := forall i, P (f i) (g i).

Lemma bind_rel {A B A' B'} (P : A -> B -> Prop) (Q : A' -> B' -> Prop) a b f g :
  rres P a b -> (forall x y, P x y -> rres Q (f x) (g y)) -> rres Q (bind a f) (bind b g).
Proof. destruct a, b; cbn; intros H K; try contradiction; auto. Qed.
(** the same real or integer computation on both sides *)
Lemma bind_same {X A' B'} (Q : A' -> B' -> Prop) (a : res X) f g :
  (forall x, rres Q (f x) (g x)) -> rres Q (bind a f) (bind a g).
Proof. destruct a; cbn; intros H; auto. Qed.
Lemma loop_from_rel {S T} (P : S -> T -> Prop) lo n f g s t :
  P s t -> (forall i x y, P x y -> rres P (f i x) (g i y)) -> rres P (loop_from lo n f s) (loop_from lo n g t).
Proof.
  revert lo s t. induction n as [|n IH]; intros lo s t H K; cbn; [exact H|].
  apply (bind_rel P); [apply K; exact H|]. intros. apply IH; auto.
Qed.
Lemma loop_rel {S T} (P : S -> T -> Prop) n f g s t :
  P s t -> (forall i x y, P x y -> rres P (f i x) (g i y)) -> rres P (loop n f s) (loop n g t).
Proof. apply loop_from_rel. Qed.
Lemma fold_up_rel {S T} (P : S -> T -> Prop) n f g s t :
  P s t -> (forall i x y, P x y -> P (f i x) (g i y)) -> P (fold_up n f s) (fold_up n g t).
Proof. intros H K. induction n as [|n IH]; cbn; auto. Qed.
Lemma fset_rel {A B} (P : A -> B -> Prop) f g j v w : frel P f g -> P v w -> frel P (fset f j v) (fset g j w).
Proof. intros H K i. unfold fset. destruct (Nat.eqb i j); auto. Qed.
Lemma shift_rel {A B} (P : A -> B -> Prop) n f g : frel P f g -> frel P (shift n f) (shift n g).
Proof. intros H i. apply H. Qed.

Record num_rel (K L : num) (r : K -> L -> Prop) : Prop := {
  r_add : forall a b a' b', r a a' -> r b b' -> r (nadd a b) (nadd a' b');
  r_sub : forall a b a' b', r a a' -> r b b' -> r (nsub a b) (nsub a' b');
  r_mul : forall a b a' b', r a a' -> r b b' -> r (nmul a b) (nmul a' b');
  r_opp : forall a a', r a a' -> r (nopp a) (nopp a');
  r_div : forall a b a' b', r a a' -> r b b' -> rres r (ndiv a b) (ndiv a' b');
  r_ofR : forall x, r (ofR x) (ofR x);
  r_abs : forall a a', r a a' -> nabs a = nabs a' }.

Section Param.
Variables (K L : num) (r : K -> L -> Prop).
Hypothesis HR : num_rel K L r.
Notation rr := (rres r).
Notation rf := (frel r).
Notation rfr := (frel (rres r)).

Ltac pairs := repeat match goal with
  | H : prel _ _ _ _ |- _ => destruct H as [? ?]; cbn [fst snd] in *
  | x : (_ * _)%type |- _ => destruct x
  end.
Ltac step := first
  [ eassumption
  | match goal with
    | |- r (nadd _ _) _ => apply (r_add _ _ _ HR)
    | |- r (nsub _ _) _ => apply (r_sub _ _ _ HR)
    | |- r (nmul _ _) _ => apply (r_mul _ _ _ HR)
    | |- r (nopp _) _ => apply (r_opp _ _ _ HR)
    | |- r (ofR _) _ => apply (r_ofR _ _ _ HR)
    | H : frel r ?f ?g |- r (?f ?i) (?g ?i) => apply H
    | H : frel (rres r) ?f ?g |- rres r (?f ?i) (?g ?i) => apply H
    | |- rres _ (ndiv _ _) _ => apply (r_div _ _ _ HR)
    | |- rres _ (Ok _) (Ok _) => cbn [rres]
    | |- prel _ _ _ _ => split; cbn [fst snd]
    | |- frel _ (fset _ _ _) _ => apply fset_rel
    | |- frel _ (shift _ _) _ => apply shift_rel
    | |- frel _ (fun _ => _) _ => intro
    | |- rres _ (if ?b then _ else _) (if ?b then _ else _) => destruct b
    | |- r (if ?b then _ else _) (if ?b then _ else _) => destruct b
    end ].
Ltac go := repeat (pairs; step).

Lemma p_find n z z' x x' : rf z z' -> r x x' -> t_find K n z x = t_find L n z' x'.
Proof.
  intros Hz Hx. unfold t_find. induction n as [|n IH]; [reflexivity|]. cbn [fold_up]. rewrite IH.
  unfold t_almost_equal. rewrite (r_abs _ _ _ HR (nsub (z n) x) (nsub (z' n) x')); [reflexivity|]. go.
Qed.

Lemma p_weights n z z' w w' : rf z z' -> rf w w' -> rres rf (t_weights K n z w) (t_weights L n z' w').
Proof.
  intros Hz Hw. unfold t_weights. apply (loop_rel rf); [exact Hw|]. intros j v v' Hv.
  apply (bind_rel r).
  - apply (loop_rel r); [go|]. intros k a a' Ha. destruct (Nat.eqb j k); [exact Ha|].
    apply (bind_rel r); [go|]. intros q q' Hq. go.
  - intros q q' Hq. go.
Qed.

Lemma p_eval n i ic z z' w w' x x' : rf z z' -> rf w w' -> r x x' ->
  rr (t_eval K n i ic z w x) (t_eval L n i ic z' w' x').
Proof.
  intros Hz Hw Hx. unfold t_eval. destruct (ic <? N.of_nat n)%N; [go|]. cbv zeta. go.
  apply fold_up_rel; [go|]. intros. go.
Qed.

Lemma p_interp_sum n z z' w w' x x' c c' : rf z z' -> rf w w' -> r x x' -> rfr c c' ->
  rres (prel r r) (t_interp_sum K n z w x c) (t_interp_sum L n z' w' x' c').
Proof.
  intros Hz Hw Hx Hc. unfold t_interp_sum. apply (loop_rel (prel r r)); [go|]. intros j [p l] [p' l'] Hp.
  apply (bind_rel r); [go|]. intros cj cj' Hcj. apply (bind_rel r); [go|]. intros q q' Hq. go.
Qed.

Lemma p_eval_interp n ic z z' w w' x x' c c' : rf z z' -> rf w w' -> r x x' -> rfr c c' ->
  rr (t_eval_interp K n ic z w x c) (t_eval_interp L n ic z' w' x' c').
Proof.
  intros Hz Hw Hx Hc. unfold t_eval_interp. destruct (ic <? N.of_nat n)%N; [go|].
  apply (bind_rel (prel r r)); [apply p_interp_sum; assumption|]. intros [p l] [p' l'] Hp. go.
Qed.

Notation rst := (prel (prel (prel r r) r) rfr).
Lemma p_step_coin n i z z' w w' k s s' : rf z z' -> rf w w' -> rst s s' ->
  rres rst (t_der_step_coincident K n i z w k s) (t_der_step_coincident L n i z' w' k s').
Proof.
  intros Hz Hw Hs. destruct s as [[[d e] m] c], s' as [[[d' e'] m'] c']. pairs.
  unfold t_der_step_coincident. apply (bind_rel (prel r rfr)).
  - apply (loop_rel (prel r rfr)); [go|]. intros j [p v] [p' v'] Hp. cbv zeta. pairs.
    assert (Q : rr (do sx <- ndiv (ofR 1) (nsub (z i) (z j)); do old <- v j; Ok (nmul sx (nsub d old)))
                   (do sx <- ndiv (ofR 1) (nsub (z' i) (z' j)); do old <- v' j; Ok (nmul sx (nsub d' old)))).
    { apply (bind_rel r); [go|]. intros. apply (bind_rel r); [go|]. intros. go. }
    destruct (Nat.eqb j i); [go|]. apply (bind_rel r); [exact Q|]. intros. go.
  - intros [p v] [p' v'] Hp. cbv zeta. pairs. apply (bind_rel r); [go|]. intros. go.
Qed.
Lemma p_step_free n z z' w w' x x' l l' k s s' : rf z z' -> rf w w' -> r x x' -> r l l' -> rst s s' ->
  rres rst (t_der_step_free K n z w x l k s) (t_der_step_free L n z' w' x' l' k s').
Proof.
  intros Hz Hw Hx Hl Hs. destruct s as [[[d e] m] c], s' as [[[d' e'] m'] c']. pairs.
  unfold t_der_step_free. apply (bind_rel (prel r rfr)).
  - apply (loop_rel (prel r rfr)); [go|]. intros j [p v] [p' v'] Hp. cbv zeta. pairs.
    apply (bind_rel r); [go|]. intros. apply (bind_rel r); [go|]. intros. apply (bind_rel r); [go|]. intros. go.
  - intros [p v] [p' v'] Hp. cbv zeta. pairs. go.
Qed.

Notation rvc := (prel r rfr).
Lemma p_eval_der_interp n m ic z z' w w' x x' c c' : rf z z' -> rf w w' -> r x x' -> rfr c c' ->
  rres rvc (t_eval_der_interp K n m ic z w x c) (t_eval_der_interp L n m ic z' w' x' c').
Proof.
  intros Hz Hw Hx Hc. unfold t_eval_der_interp. destruct (ic <? N.of_nat n)%N; cbv zeta.
  - apply (bind_rel r); [go|]. intros p p' Hp. apply (bind_rel rst).
    + apply loop_from_rel; [go|]. intros. apply p_step_coin; assumption.
    + intros [[[? ?] ?] ?] [[[? ?] ?] ?] Hs. go.
  - apply (bind_rel (prel r r)); [apply p_interp_sum; assumption|]. intros [p l] [p' l'] Hp. pairs. apply (bind_rel rst).
    + apply loop_from_rel; [go|]. intros. apply p_step_free; assumption.
    + intros [[[? ?] ?] ?] [[[? ?] ?] ?] Hs. go.
Qed.

Lemma p_eval_der n m i ic z z' w w' x x' c c' : rf z z' -> rf w w' -> r x x' -> rfr c c' ->
  rres rvc (t_eval_der K n m i ic z w x c) (t_eval_der L n m i ic z' w' x' c').
Proof.
  intros Hz Hw Hx Hc. unfold t_eval_der. apply p_eval_der_interp; try assumption.
  apply (fold_up_rel rfr); [exact Hc|]. intros. go.
Qed.

(** ---- LagrangeElement ---- *)
Definition rel_elem (e : t_element K) (e' : t_element L) : Prop :=
  te_N K e = te_N L e' /\ rf (te_Z K e) (te_Z L e') /\ rf (te_w K e) (te_w L e').

Lemma p_new order z z' w w' : rf z z' -> rf w w' ->
  rres rel_elem (t_new_element K order z w) (t_new_element L order z' w').
Proof.
  intros Hz Hw. unfold t_new_element. cbv zeta. apply (bind_rel rf); [apply p_weights; assumption|].
  intros v v' Hv. repeat split; assumption.
Qed.

Section Elem.
Variables (e : t_element K) (e' : t_element L).
Hypothesis He : rel_elem e e'.
Variables (x y z : K) (x' y' z' : L).
Hypotheses (Hx : r x x') (Hy : r y y') (Hz : r z z').

Lemma p_basis I : rr (t_eval_basis K e I x y z) (t_eval_basis L e' I x' y' z').
Proof.
  destruct He as (En & Hn & Hw). unfold t_eval_basis. rewrite En. apply bind_same. intros [[i j] k]. cbv zeta.
  rewrite !(p_find _ _ _ _ _ Hn Hx), !(p_find _ _ _ _ _ Hn Hy), !(p_find _ _ _ _ _ Hn Hz).
  apply (bind_rel r); [apply p_eval; assumption|]. intros.
  apply (bind_rel r); [apply p_eval; assumption|]. intros.
  apply (bind_rel r); [apply p_eval; assumption|]. intros. go.
Qed.
Lemma p_grad_basis I c c' : rfr c c' ->
  rres (prel (prel (prel r r) r) rfr) (t_eval_grad_basis K e I x y z c) (t_eval_grad_basis L e' I x' y' z' c').
Proof.
  intros Hc. destruct He as (En & Hn & Hw). unfold t_eval_grad_basis. rewrite En. apply bind_same. intros [[i j] k]. cbv zeta.
  rewrite !(p_find _ _ _ _ _ Hn Hx), !(p_find _ _ _ _ _ Hn Hy), !(p_find _ _ _ _ _ Hn Hz).
  apply (bind_rel r); [apply p_eval; assumption|]. intros.
  apply (bind_rel r); [apply p_eval; assumption|]. intros.
  apply (bind_rel r); [apply p_eval; assumption|]. intros.
  apply (bind_rel rvc); [apply p_eval_der; assumption|]. intros [? ?] [? ?] ?. pairs.
  apply (bind_rel rvc); [apply p_eval_der; assumption|]. intros [? ?] [? ?] ?. pairs.
  apply (bind_rel rvc); [apply p_eval_der; assumption|]. intros [? ?] [? ?] ?. go.
Qed.
Lemma p_approx c c' C C' : rf c c' -> rfr C C' ->
  rres rvc (t_eval_approx K e c x y z C) (t_eval_approx L e' c' x' y' z' C').
Proof.
  intros Hc HC. destruct He as (En & Hn & Hw). unfold t_eval_approx. rewrite En. cbv zeta.
  rewrite !(p_find _ _ _ _ _ Hn Hx), !(p_find _ _ _ _ _ Hn Hy), !(p_find _ _ _ _ _ Hn Hz).
  apply (bind_rel rfr).
  - apply (loop_rel rfr); [exact HC|]. intros k D D' HD. apply (bind_rel rfr).
    + apply (loop_rel rfr); [exact HD|]. intros j E E' HE. apply (bind_rel r).
      * apply p_eval_interp; go.
      * intros. go.
    + intros E E' HE. apply (bind_rel r); [apply p_eval_interp; assumption|]. intros. go.
  - intros D D' HD. apply (bind_rel r); [apply p_eval_interp; go|]. intros. go.
Qed.
Lemma p_copy n m C C' : rfr C C' -> rfr (t_copy_front K n m C) (t_copy_front L n m C').
Proof. intros H i. unfold t_copy_front. destruct (Nat.ltb i n); apply H. Qed.
Lemma p_collapse d n ic v v' w w' u u' C C' : rf v v' -> rf w w' -> r u u' -> rfr C C' ->
  rres rvc (t_collapse K d n ic v w u C) (t_collapse L d n ic v' w' u' C').
Proof.
  intros. unfold t_collapse. destruct d; [apply p_eval_der_interp; assumption|].
  apply (bind_rel r); [apply p_eval_interp; assumption|]. intros. go.
Qed.
Lemma p_grad_comp l c c' C C' : rf c c' -> rfr C C' ->
  rres rvc (t_grad_comp K e l c x y z C) (t_grad_comp L e' l c' x' y' z' C').
Proof.
  intros Hc HC. destruct He as (En & Hn & Hw). unfold t_grad_comp. rewrite En. cbv zeta.
  rewrite !(p_find _ _ _ _ _ Hn Hx), !(p_find _ _ _ _ _ Hn Hy), !(p_find _ _ _ _ _ Hn Hz).
  apply (bind_rel rfr).
  - apply (loop_rel rfr); [exact HC|]. intros k D D' HD. apply (bind_rel rfr).
    + apply (loop_rel rfr); [exact HD|]. intros j E E' HE. apply (bind_rel rvc).
      * apply p_collapse; try assumption. intro. destruct (Nat.ltb _ _); go.
      * intros [? ?] [? ?] ?. go.
    + intros E E' HE. apply (bind_rel rvc); [apply p_collapse; try assumption; apply p_copy; assumption|].
      intros [? ?] [? ?] ?. go.
  - intros D D' HD. apply p_collapse; try assumption; apply p_copy; assumption.
Qed.
Notation rgr := (prel (prel r r) r).
Lemma p_grad_approx c c' C C' : rf c c' -> rfr C C' ->
  rres (prel rgr rfr) (t_eval_grad_approx K e c x y z C) (t_eval_grad_approx L e' c' x' y' z' C').
Proof.
  intros Hc HC. unfold t_eval_grad_approx.
  apply (bind_rel rvc); [apply p_grad_comp; assumption|]. intros [? ?] [? ?] ?. pairs.
  apply (bind_rel rvc); [apply p_grad_comp; assumption|]. intros [? ?] [? ?] ?. pairs.
  apply (bind_rel rvc); [apply p_grad_comp; assumption|]. intros [? ?] [? ?] ?. go.
Qed.
Lemma p_mk9 a a' b b' c c' : rgr a a' -> rgr b b' -> rgr c c' -> rf (t_mk9 K a b c) (t_mk9 L a' b' c').
Proof.
  intros. pairs. intros i. unfold t_mk9. do 8 (destruct i; [assumption|]). assumption.
Qed.
Lemma p_jac px py pz px' py' pz' C C' : rf px px' -> rf py py' -> rf pz pz' -> rfr C C' ->
  rres (prel rf rfr) (t_eval_jac K e px py pz x y z C) (t_eval_jac L e' px' py' pz' x' y' z' C').
Proof.
  intros. unfold t_eval_jac.
  apply (bind_rel (prel rgr rfr)); [apply p_grad_approx; assumption|]. intros [? ?] [? ?] [? ?]. cbn [fst snd] in *.
  apply (bind_rel (prel rgr rfr)); [apply p_grad_approx; assumption|]. intros [? ?] [? ?] [? ?]. cbn [fst snd] in *.
  apply (bind_rel (prel rgr rfr)); [apply p_grad_approx; assumption|]. intros [? ?] [? ?] [? ?]. cbn [fst snd] in *.
  split; cbn [fst snd]; [apply p_mk9; assumption|assumption].
Qed.
Lemma p_det_expr J J' : rf J J' -> r (t_det_expr K J) (t_det_expr L J').
Proof. intros. unfold t_det_expr. go. Qed.
Lemma p_det px py pz px' py' pz' C C' : rf px px' -> rf py py' -> rf pz pz' -> rfr C C' ->
  rres rvc (t_eval_det_jac K e px py pz x y z C) (t_eval_det_jac L e' px' py' pz' x' y' z' C').
Proof.
  intros. unfold t_eval_det_jac. apply (bind_rel (prel rf rfr)); [apply p_jac; assumption|].
  intros [? ?] [? ?] [? ?]. cbn [fst snd] in *. split; cbn [fst snd]; [apply p_det_expr; assumption|assumption].
Qed.
Lemma p_inv_expr d d' J J' : r d d' -> rf J J' -> rf (t_inv_expr K d J) (t_inv_expr L d' J').
Proof. intros. unfold t_inv_expr. apply p_mk9; go. Qed.
Lemma p_inv px py pz px' py' pz' C C' : rf px px' -> rf py py' -> rf pz pz' -> rfr C C' ->
  rres (prel rf rfr) (t_eval_inv_jac K e px py pz x y z C) (t_eval_inv_jac L e' px' py' pz' x' y' z' C').
Proof.
  intros. unfold t_eval_inv_jac. apply (bind_rel (prel rf rfr)); [apply p_jac; assumption|].
  intros [? ?] [? ?] [? ?]. cbn [fst snd] in *. apply (bind_rel rvc); [apply p_det; assumption|].
  intros [? ?] [? ?] [? ?]. cbn [fst snd] in *. apply (bind_rel r); [go|]. intros.
  split; cbn [fst snd]; [apply p_inv_expr; assumption|assumption].
Qed.
End Elem.

(** ---- Jacobi and Legendre polynomials, LegendreElement ---- *)
Lemma p_jac_rec al be x x' m : r x x' -> rr (t_jac_rec K m al be x) (t_jac_rec L m al be x').
Proof.
  intros Hx. enough (H : rr (t_jac_rec K m al be x) (t_jac_rec L m al be x') /\
                         rr (t_jac_rec K (Datatypes.S m) al be x) (t_jac_rec L (Datatypes.S m) al be x')) by apply H.
  induction m as [|m [IH1 IH2]]; [split; cbn; apply (r_ofR _ _ _ HR)|]. split; [exact IH2|].
  change (rr (do a <- jac_a al be (Datatypes.S m); do b <- jac_b al be (Datatypes.S m);
          do p1 <- t_jac_rec K (Datatypes.S m) al be x; do c <- jac_c al be (Datatypes.S m);
          do p2 <- t_jac_rec K m al be x; Ok (nsub (nmul (nadd (nmul (ofR a) x) (ofR b)) p1) (nmul (ofR c) p2)))
       (do a <- jac_a al be (Datatypes.S m); do b <- jac_b al be (Datatypes.S m);
          do p1 <- t_jac_rec L (Datatypes.S m) al be x'; do c <- jac_c al be (Datatypes.S m);
          do p2 <- t_jac_rec L m al be x'; Ok (nsub (nmul (nadd (nmul (ofR a) x') (ofR b)) p1) (nmul (ofR c) p2)))).
  apply bind_same. intros a. apply bind_same. intros b. apply (bind_rel r); [exact IH2|]. intros.
  apply bind_same. intros c. apply (bind_rel r); [exact IH1|]. intros. go.
Qed.
Lemma p_jacobi_eval al be x x' n : r x x' -> rr (t_jacobi_eval K n al be x) (t_jacobi_eval L n al be x').
Proof. apply p_jac_rec. Qed.
Lemma p_jacobi_der G al be x x' n k : r x x' ->
  rr (t_jacobi_eval_der K G n k al be x) (t_jacobi_eval_der L G n k al be x').
Proof.
  intros Hx. unfold t_jacobi_eval_der. destruct (Nat.eqb n 0 || Nat.ltb n k)%bool; [go|]. cbv zeta.
  apply (bind_rel r); [apply p_jacobi_eval; exact Hx|]. intros. go.
Qed.
Lemma p_leg_rec x x' m : r x x' -> rr (t_leg_rec K m x) (t_leg_rec L m x').
Proof.
  intros Hx. enough (H : rr (t_leg_rec K m x) (t_leg_rec L m x') /\
                         rr (t_leg_rec K (Datatypes.S m) x) (t_leg_rec L (Datatypes.S m) x')) by apply H.
  induction m as [|m [IH1 IH2]]; [split; cbn; apply (r_ofR _ _ _ HR)|]. split; [exact IH2|].
  change (rr (do i <- rdiv 1 (INR (Datatypes.S m)); do p1 <- t_leg_rec K (Datatypes.S m) x; do p2 <- t_leg_rec K m x;
            Ok (nmul (ofR i) (nsub (nmul (nmul (ofR (2 * INR (Datatypes.S m) - 1)) x) p1) (nmul (ofR (INR (Datatypes.S m) - 1)) p2))))
       (do i <- rdiv 1 (INR (Datatypes.S m)); do p1 <- t_leg_rec L (Datatypes.S m) x'; do p2 <- t_leg_rec L m x';
            Ok (nmul (ofR i) (nsub (nmul (nmul (ofR (2 * INR (Datatypes.S m) - 1)) x') p1) (nmul (ofR (INR (Datatypes.S m) - 1)) p2))))).
  apply bind_same. intros a. apply (bind_rel r); [exact IH2|]. intros. apply (bind_rel r); [exact IH1|]. intros. go.
Qed.
Lemma p_legendre_eval n x x' : r x x' -> rr (t_legendre_eval K n x) (t_legendre_eval L n x').
Proof. apply p_leg_rec. Qed.
Lemma p_legendre_der G n k x x' : r x x' -> rr (t_legendre_eval_der K G n k x) (t_legendre_eval_der L G n k x').
Proof. apply p_jacobi_der. Qed.
Lemma p_legendre_approx n c c' x x' : rfr c c' -> r x x' ->
  rr (t_legendre_eval_approx K n c x) (t_legendre_eval_approx L n c' x').
Proof.
  intros Hc Hx. unfold t_legendre_eval_approx. apply (loop_rel r); [go|]. intros j s s' Hs.
  apply (bind_rel r); [go|]. intros. apply (bind_rel r); [apply p_legendre_eval; assumption|]. intros. go.
Qed.
Lemma p_legendre_der_approx G n k c c' x x' : rfr c c' -> r x x' ->
  rr (t_legendre_eval_der_approx K G n k c x) (t_legendre_eval_der_approx L G n k c' x').
Proof.
  intros Hc Hx. unfold t_legendre_eval_der_approx. apply (loop_rel r); [go|]. intros j s s' Hs.
  apply (bind_rel r); [go|]. intros. apply (bind_rel r); [apply p_legendre_der; assumption|]. intros. go.
Qed.
Section LegElem.
Variables (x y z : K) (x' y' z' : L).
Hypotheses (Hx : r x x') (Hy : r y y') (Hz : r z z').
Notation rgr := (prel (prel r r) r).
Lemma p_lg_basis o I : rr (t_lg_eval_basis K o I x y z) (t_lg_eval_basis L o I x' y' z').
Proof.
  unfold t_lg_eval_basis. apply bind_same. intros [[i j] k].
  apply (bind_rel r); [apply p_legendre_eval; assumption|]. intros.
  apply (bind_rel r); [apply p_legendre_eval; assumption|]. intros.
  apply (bind_rel r); [apply p_legendre_eval; assumption|]. intros. go.
Qed.
Lemma p_lg_grad_basis G o I : rres rgr (t_lg_eval_grad_basis K G o I x y z) (t_lg_eval_grad_basis L G o I x' y' z').
Proof.
  unfold t_lg_eval_grad_basis. apply bind_same. intros [[i j] k].
  do 3 (apply (bind_rel r); [apply p_legendre_eval; assumption|]; intros).
  do 3 (apply (bind_rel r); [apply p_legendre_der; assumption|]; intros). go.
Qed.
Lemma p_lg_approx o c c' C C' : rfr c c' -> rfr C C' ->
  rres rvc (t_lg_eval_approx K o c x y z C) (t_lg_eval_approx L o c' x' y' z' C').
Proof.
  intros Hc HC. unfold t_lg_eval_approx. cbv zeta. apply (bind_rel rfr).
  - apply (loop_rel rfr); [exact HC|]. intros k D D' HD. apply (bind_rel rfr).
    + apply (loop_rel rfr); [exact HD|]. intros j E E' HE. apply (bind_rel r); [apply p_legendre_approx; go|]. intros. go.
    + intros E E' HE. apply (bind_rel r); [apply p_legendre_approx; go|]. intros. go.
  - intros D D' HD. apply (bind_rel r); [apply p_legendre_approx; go|]. intros. go.
Qed.
Lemma p_lg_collapse G d n c c' u u' : rfr c c' -> r u u' ->
  rr (t_lg_collapse K G d n c u) (t_lg_collapse L G d n c' u').
Proof. intros. unfold t_lg_collapse. destruct d; [apply p_legendre_der_approx|apply p_legendre_approx]; assumption. Qed.
Lemma p_lg_grad_comp G o l c c' C C' : rfr c c' -> rfr C C' ->
  rres rvc (t_lg_grad_comp K G o l c x y z C) (t_lg_grad_comp L G o l c' x' y' z' C').
Proof.
  intros Hc HC. unfold t_lg_grad_comp. cbv zeta. apply (bind_rel rfr).
  - apply (loop_rel rfr); [exact HC|]. intros k D D' HD. apply (bind_rel rfr).
    + apply (loop_rel rfr); [exact HD|]. intros j E E' HE. apply (bind_rel r); [apply p_lg_collapse; go|]. intros. go.
    + intros E E' HE. apply (bind_rel r); [apply p_lg_collapse; go|]. intros. go.
  - intros D D' HD. apply (bind_rel r); [apply p_lg_collapse; go|]. intros. go.
Qed.
Lemma p_lg_grad_approx G o c c' C C' : rfr c c' -> rfr C C' ->
  rres (prel rgr rfr) (t_lg_eval_grad_approx K G o c x y z C) (t_lg_eval_grad_approx L G o c' x' y' z' C').
Proof.
  intros Hc HC. unfold t_lg_eval_grad_approx.
  apply (bind_rel rvc); [apply p_lg_grad_comp; assumption|]. intros [? ?] [? ?] ?. pairs.
  apply (bind_rel rvc); [apply p_lg_grad_comp; assumption|]. intros [? ?] [? ?] ?. pairs.
  apply (bind_rel rvc); [apply p_lg_grad_comp; assumption|]. intros [? ?] [? ?] ?. go.
Qed.
End LegElem.

(** ---- point distributions ---- *)
Lemma p_equispaced n a a' b b' z z' : r a a' -> r b b' -> rf z z' ->
  rres rf (t_equispaced_points K n a b z) (t_equispaced_points L n a' b' z').
Proof.
  intros. unfold t_equispaced_points. apply (loop_rel rf); [assumption|]. intros i v v' Hv.
  apply bind_same. intros q. go.
Qed.
Lemma p_chebyshev n a a' b b' z z' : r a a' -> r b b' -> rf z z' ->
  rres rf (t_chebyshev_points K n a b z) (t_chebyshev_points L n a' b' z').
Proof.
  intros. unfold t_chebyshev_points. destruct (Nat.eqb n 0); [assumption|]. apply bind_same. intros f. cbv zeta. cbn [rres].
  apply (fold_up_rel rf).
  - apply (fold_up_rel rf); [assumption|]. intros. go.
  - intros. go.
Qed.
End Param.

(** the embedding of R into C *)
Definition emb (x : R) (X : C) : Prop := X = RtoC x.
Lemma emb_div (a b : R) : rres emb (rdiv a b) (cdiv (RtoC a) (RtoC b)).
Proof.
  unfold rdiv, cdiv. destruct (Req_EM_T b 0) as [Hb|N], (Ceq_dec (RtoC b) (RtoC 0)) as [E|E]; cbn.
  - reflexivity.
  - rewrite Hb in E. contradiction E. reflexivity.
  - apply RtoC_inj in E. contradiction.
  - unfold emb. symmetry. apply RtoC_div. exact N.
Qed.
Lemma emb_rel : num_rel Rnum Cnum emb.
Proof.
  constructor; cbn [nadd nsub nmul nopp ndiv ofR nabs car Cnum Rnum].
  - intros a b a' b' -> ->. symmetry. apply RtoC_plus.
  - intros a b a' b' -> ->. symmetry. apply RtoC_minus.
  - intros a b a' b' -> ->. symmetry. apply RtoC_mult.
  - intros a a' ->. symmetry. apply RtoC_opp.
  - intros a b a' b' -> ->. apply emb_div.
  - reflexivity.
  - intros a a' ->. reflexivity.
Qed.
