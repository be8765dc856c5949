(** The complex-step method for polynomials with real coefficients (library; models nothing in /repo). *)
From Coq Require Import Reals Lra Lia Arith.
From Coquelicot Require Import Complex.
Require Import Verif.RSum Verif.RDer Verif.CSum Verif.Spec_Complex.
Open Scope R_scope.

Lemma step_expansion n : forall (a : nat -> R) x,
  exists d M, 0 <= M /\ derivable_pt_lim (fun t => rsum n (fun k => a k * t ^ k)) x d /\
    forall h, Rabs h <= 1 -> exists A B, Rabs A <= M /\ Rabs B <= M /\
      csum n (fun k => RtoC (a k) * cpow (x, h) k)%C =
      (rsum n (fun k => a k * x ^ k) - h ^ 2 * A, h * (d - h ^ 2 * B)).
Proof.
  induction n as [|n IH]; intros a x.
  - exists 0, 0. split; [lra|]. split; [exact (der_const 0 x)|]. intros h _. exists 0, 0.
    rewrite Rabs_R0. split; [lra|]. split; [lra|]. cbn [csum rsum]. unfold RtoC. f_equal; ring.
  - destruct (IH (fun k => a (S k)) x) as (d & M & HM & Hd & H).
    set (q := rsum n (fun k => a (S k) * x ^ k)) in *.
    exists (q + x * d), ((Rabs x + 2) * M + Rabs d). split; [|split].
    + generalize (Rabs_pos x), (Rabs_pos d). nra.
    + apply (der_ext (fun t => a 0%nat + t * rsum n (fun k => a (S k) * t ^ k))).
      * intros t. rewrite rsum_S_l. cbn [pow]. rewrite <- rsum_scal_l. f_equal; [ring|].
        apply rsum_ext. intros k _. ring.
      * apply (der_value _ _ (0 + (1 * q + x * d))); [ring|].
        apply (der_add (fun _ => a 0%nat) (fun t => t * rsum n (fun k => a (S k) * t ^ k))); [apply der_const|].
        apply (der_mul (fun t => t) (fun t => rsum n (fun k => a (S k) * t ^ k))); [apply der_id|exact Hd].
    + intros h Hh. destruct (H h Hh) as (A & B & HA & HB & E).
      exists (x * A + d - h ^ 2 * B), (x * B + A).
      assert (Hh2 : Rabs (h ^ 2) <= 1).
      { rewrite <- RPow_abs. generalize (Rabs_pos h). intros. nra. }
      assert (N1 := Rabs_pos x). assert (N2 := Rabs_pos A). assert (N3 := Rabs_pos B).
      assert (N4 := Rabs_pos d). assert (N5 := Rabs_pos (h ^ 2)).
      split; [|split].
      * eapply Rle_trans; [apply Rabs_triang|]. rewrite Rabs_Ropp, Rabs_mult.
        assert (Rabs (x * A + d) <= Rabs x * Rabs A + Rabs d)
          by (eapply Rle_trans; [apply Rabs_triang|]; rewrite Rabs_mult; lra).
        nra.
      * eapply Rle_trans; [apply Rabs_triang|]. rewrite Rabs_mult. nra.
      * rewrite csum_S_l, rsum_S_l. cbn [cpow pow].
        rewrite (csum_ext n _ (fun k => (x, h) * (RtoC (a (S k)) * cpow (x, h) k))%C) by (intros; ring).
        rewrite csum_scal_l, E. rewrite (rsum_ext n _ (fun k => x * (a (S k) * x ^ k))) by (intros; ring).
        rewrite rsum_scal_l. fold q. unfold Cplus, Cmult, RtoC. cbn [fst snd]. f_equal; ring.
Qed.

Lemma same_poly_step n f F x d : same_poly n f F -> derivable_pt_lim f x d ->
  complex_step (fun h => F (x, h)) (f x) d.
Proof.
  intros (a & Ha & HF) Hd. destruct (step_expansion n a x) as (d' & M & HM & Hd' & H).
  assert (E : d = d').
  { apply (der_unique _ _ _ _ Hd). apply (der_ext _ _ _ _ (fun t => eq_sym (Ha t)) Hd'). }
  subst d'. exists M. intros h H0 H1. destruct (H h H1) as (A & B & HA & HB & E).
  rewrite HF, E, Ha. unfold Im, Re. cbn [fst snd]. assert (P := pow2_ge_0 h). split.
  - replace (h * (d - h ^ 2 * B) / h - d) with (- (h ^ 2 * B)) by (field; exact H0).
    rewrite Rabs_Ropp, Rabs_mult, (Rabs_pos_eq _ P). nra.
  - replace (rsum n (fun k => a k * x ^ k) - h ^ 2 * A - rsum n (fun k => a k * x ^ k)) with (- (h ^ 2 * A)) by ring.
    rewrite Rabs_Ropp, Rabs_mult, (Rabs_pos_eq _ P). nra.
Qed.

(** up to degree two the imaginary part over the step is the derivative exactly *)
Lemma same_poly_exact n f F x d h : same_poly n f F -> (n <= 3)%nat -> derivable_pt_lim f x d -> h <> 0 ->
  Im (F (x, h)) / h = d.
Proof.
  intros (a & Ha & HF) Hn Hd H0. rewrite HF.
  assert (G : exists b0 b1 b2, (forall t, f t = b0 + b1 * t + b2 * t ^ 2) /\
     csum n (fun k => RtoC (a k) * cpow (x, h) k)%C =
       (RtoC b0 + RtoC b1 * (x, h) + RtoC b2 * ((x, h) * (x, h)))%C).
  { destruct n as [|[|[|[|n]]]]; [| | | |lia].
    - exists 0, 0, 0. split; [intros t; rewrite Ha; cbn; ring|]. cbn [csum]. ring.
    - exists (a 0%nat), 0, 0. split; [intros t; rewrite Ha; cbn; ring|]. cbn [csum cpow]. ring.
    - exists (a 0%nat), (a 1%nat), 0. split; [intros t; rewrite Ha; cbn; ring|]. cbn [csum cpow]. ring.
    - exists (a 0%nat), (a 1%nat), (a 2%nat). split; [intros t; rewrite Ha; cbn; ring|]. cbn [csum cpow]. ring. }
  destruct G as (b0 & b1 & b2 & Hf & ->).
  assert (E : d = b1 + b2 * (2 * x)).
  { apply (der_unique _ _ _ _ Hd). apply (der_ext (fun t => b0 + b1 * t + b2 * t ^ 2)); [intros; symmetry; apply Hf|].
    der_tac. simpl. ring. }
  rewrite E. unfold Cplus, Cmult, RtoC, Im. cbn [fst snd]. field. exact H0.
Qed.

(** sums and products with real factors *)
Lemma same_poly_ext n f f' F F' : (forall x, f x = f' x) -> (forall X, F X = F' X) ->
  same_poly n f F -> same_poly n f' F'.
Proof.
  intros E1 E2 (a & H1 & H2). exists a. split; intros; [rewrite <- E1; apply H1|rewrite <- E2; apply H2].
Qed.
Lemma same_poly_zero n : same_poly n (fun _ => 0) (fun _ => RtoC 0).
Proof.
  exists (fun _ => 0). split; intros; [symmetry; apply rsum_zero; intros; ring|].
  symmetry. apply csum_zero. intros. ring.
Qed.
Lemma same_poly_mono n m f F : (n <= m)%nat -> same_poly n f F -> same_poly m f F.
Proof.
  intros L (a & H1 & H2). exists (fun k => if Nat.ltb k n then a k else 0).
  replace m with (n + (m - n))%nat by lia. split; intros X.
  - rewrite rsum_add, H1, (rsum_zero (m - n)).
    + rewrite Rplus_0_r. apply rsum_ext. intros i Hi. destruct (Nat.ltb_spec i n); [reflexivity|lia].
    + intros i Hi. destruct (Nat.ltb_spec (n + i) n); [lia|ring].
  - rewrite csum_add, H2, (csum_zero (m - n)).
    + rewrite Cplus_0_r. apply csum_ext. intros i Hi. destruct (Nat.ltb_spec i n); [reflexivity|lia].
    + intros i Hi. destruct (Nat.ltb_spec (n + i) n); [lia|ring].
Qed.
Lemma same_poly_const n c : (1 <= n)%nat -> same_poly n (fun _ => c) (fun _ => RtoC c).
Proof.
  intros H. apply (same_poly_mono 1); [exact H|]. exists (fun _ => c). split; intros; cbn [rsum csum pow cpow]; ring.
Qed.
Lemma same_poly_add n f g F G : same_poly n f F -> same_poly n g G ->
  same_poly n (fun x => f x + g x) (fun X => F X + G X)%C.
Proof.
  intros (a & H1 & H2) (b & H3 & H4). exists (fun k => a k + b k). split; intros X.
  - rewrite H1, H3, <- rsum_plus. apply rsum_ext. intros; ring.
  - rewrite H2, H4, <- csum_plus. apply csum_ext. intros. rewrite RtoC_plus. ring.
Qed.
Lemma same_poly_scal n c f F : same_poly n f F -> same_poly n (fun x => c * f x) (fun X => RtoC c * F X)%C.
Proof.
  intros (a & H1 & H2). exists (fun k => c * a k). split; intros X.
  - rewrite H1, <- rsum_scal_l. apply rsum_ext. intros; ring.
  - rewrite H2, <- csum_scal_l. apply csum_ext. intros. rewrite RtoC_mult. ring.
Qed.
Lemma same_poly_mulX n f F : same_poly n f F -> same_poly (S n) (fun x => x * f x) (fun X => X * F X)%C.
Proof.
  intros (a & H1 & H2). exists (fun k => match k with O => 0 | S k' => a k' end). split; intros X.
  - rewrite rsum_S_l, H1. cbn [pow]. rewrite Rmult_0_l, Rplus_0_l, <- rsum_scal_l. apply rsum_ext. intros; ring.
  - rewrite csum_S_l, H2. cbn [cpow]. rewrite Cmult_0_l, Cplus_0_l, <- csum_scal_l. apply csum_ext. intros; ring.
Qed.
Lemma same_poly_sum n m (f : nat -> R -> R) (F : nat -> C -> C) :
  (forall i, (i < m)%nat -> same_poly n (f i) (F i)) ->
  same_poly n (fun x => rsum m (fun i => f i x)) (fun X => csum m (fun i => F i X)).
Proof.
  induction m as [|m IH]; cbn [rsum csum]; intros H; [apply same_poly_zero|].
  apply (same_poly_add n (fun x => rsum m (fun i => f i x)) (f m) (fun X => csum m (fun i => F i X)) (F m));
    [apply IH; intros; apply H; lia|apply H; lia].
Qed.
