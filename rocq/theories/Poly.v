(** Polynomial functions of degree < n on R and the facts about them used by the interpolation
    properties (library; models nothing in /repo). *)
From Coq Require Import Reals Lra Lia Arith.
Require Import Verif.RSum.
Open Scope R_scope.

(** [f] is a polynomial function of degree < n. *)
Definition poly_lt (n : nat) (f : R -> R) : Prop :=
  exists a : nat -> R, forall x, f x = rsum n (fun k => a k * x ^ k).

Lemma poly_ext n f g : (forall x, f x = g x) -> poly_lt n f -> poly_lt n g.
Proof. intros E (a & H). exists a. intros x. rewrite <- E. apply H. Qed.

Lemma poly_mono n m f : (n <= m)%nat -> poly_lt n f -> poly_lt m f.
Proof.
  intros L (a & H). exists (fun k => if Nat.ltb k n then a k else 0). intros x.
  replace m with (n + (m - n))%nat by lia. rewrite rsum_add, H.
  rewrite (rsum_zero (m - n)).
  - rewrite Rplus_0_r. apply rsum_ext. intros i Hi. destruct (Nat.ltb_spec i n); [reflexivity|lia].
  - intros i Hi. destruct (Nat.ltb_spec (n + i) n); [lia|ring].
Qed.

Lemma poly_add n f g : poly_lt n f -> poly_lt n g -> poly_lt n (fun x => f x + g x).
Proof.
  intros (a & Ha) (b & Hb). exists (fun k => a k + b k). intros x. rewrite Ha, Hb, <- rsum_plus.
  apply rsum_ext. intros. ring.
Qed.
Lemma poly_scal n c f : poly_lt n f -> poly_lt n (fun x => c * f x).
Proof.
  intros (a & Ha). exists (fun k => c * a k). intros x. rewrite Ha, <- rsum_scal_l.
  apply rsum_ext. intros. ring.
Qed.
Lemma poly_sub n f g : poly_lt n f -> poly_lt n g -> poly_lt n (fun x => f x - g x).
Proof.
  intros Hf Hg. apply (poly_ext n (fun x => f x + (-1) * g x)); [intros; ring|].
  apply poly_add; [exact Hf|apply poly_scal; exact Hg].
Qed.
Lemma poly_const n c : (1 <= n)%nat -> poly_lt n (fun _ => c).
Proof.
  intros H. apply (poly_mono 1); [exact H|]. exists (fun _ => c). intros x. simpl. ring.
Qed.
Lemma poly_zero n : poly_lt n (fun _ => 0).
Proof. exists (fun _ => 0). intros x. symmetry. apply rsum_zero. intros; ring. Qed.

Lemma poly_mulX n f : poly_lt n f -> poly_lt (S n) (fun x => x * f x).
Proof.
  intros (a & Ha). exists (fun k => match k with O => 0 | S k' => a k' end). intros x.
  rewrite rsum_S_l, Ha. simpl. rewrite Rmult_0_l, Rplus_0_l, <- rsum_scal_l.
  apply rsum_ext. intros. ring.
Qed.
Lemma poly_mul_lin n f u v : poly_lt n f -> poly_lt (S n) (fun x => (u * x + v) * f x).
Proof.
  intros Hf. apply (poly_ext (S n) (fun x => u * (x * f x) + v * f x)); [intros; ring|].
  apply poly_add.
  - apply poly_scal. apply poly_mulX. exact Hf.
  - apply poly_scal. apply (poly_mono n); [lia|exact Hf].
Qed.
Lemma poly_sum n m (F : nat -> R -> R) :
  (forall i, (i < m)%nat -> poly_lt n (F i)) -> poly_lt n (fun x => rsum m (fun i => F i x)).
Proof.
  induction m as [|m IH]; simpl; intros H; [apply poly_zero|].
  apply (poly_add n (fun x => rsum m (fun i => F i x)) (F m)); [apply IH; intros; apply H; lia|apply H; lia].
Qed.
Lemma poly_prod_lin m (u v : nat -> R) :
  poly_lt (S m) (fun x => rprod m (fun j => u j * x + v j)).
Proof.
  induction m as [|m IH].
  - exact (poly_const 1 1 (le_n 1)).
  - apply (poly_ext (S (S m)) (fun x => (u m * x + v m) * rprod m (fun j => u j * x + v j))).
    + intros x. cbn [rprod]. ring.
    + apply poly_mul_lin. exact IH.
Qed.

(** factor theorem *)
Lemma poly_factor n f r :
  poly_lt (S n) f -> exists g, poly_lt n g /\ forall x, f x = f r + (x - r) * g x.
Proof.
  revert f. induction n as [|n IH]; intros f (a & Ha).
  - exists (fun _ => 0). split; [apply poly_zero|]. intros x. rewrite !Ha. simpl. ring.
  - set (h := fun x => rsum (S n) (fun k => a (S k) * x ^ k)).
    assert (Hh : poly_lt (S n) h) by (exists (fun k => a (S k)); reflexivity).
    assert (E : forall x, f x = a 0%nat + x * h x).
    { intros x. rewrite Ha, rsum_S_l. unfold h. rewrite <- rsum_scal_l. simpl.
      rewrite Rmult_1_r. f_equal. f_equal; [|ring]. apply rsum_ext. intros. ring. }
    destruct (IH h Hh) as (g & Hg & Eg).
    exists (fun x => h r + x * g x). split.
    + apply poly_add; [apply poly_const; lia|apply poly_mulX; exact Hg].
    + intros x. rewrite !E. rewrite (Eg x) at 1. ring.
Qed.

(** a polynomial of degree < n with n distinct roots is zero *)
Lemma poly_roots n f (z : nat -> R) :
  poly_lt n f ->
  (forall i j, (i < n)%nat -> (j < n)%nat -> i <> j -> z i <> z j) ->
  (forall i, (i < n)%nat -> f (z i) = 0) -> forall x, f x = 0.
Proof.
  revert f. induction n as [|n IH]; intros f Hf Hd Hr x.
  - destruct Hf as (a & Ha). rewrite Ha. reflexivity.
  - destruct (poly_factor n f (z n) Hf) as (g & Hg & E).
    rewrite (Hr n) in E by lia.
    rewrite E. rewrite (IH g Hg).
    + ring.
    + intros i j Hi Hj. apply Hd; lia.
    + intros i Hi. specialize (E (z i)). rewrite (Hr i) in E by lia.
      assert (z i - z n <> 0) by (specialize (Hd i n); intros Q; apply Hd; try lia; lra).
      apply Rmult_eq_reg_l with (z i - z n); [lra|assumption].
Qed.

Lemma poly_agree n f g (z : nat -> R) :
  poly_lt n f -> poly_lt n g ->
  (forall i j, (i < n)%nat -> (j < n)%nat -> i <> j -> z i <> z j) ->
  (forall i, (i < n)%nat -> f (z i) = g (z i)) -> forall x, f x = g x.
Proof.
  intros Hf Hg Hd H x.
  assert (E := poly_roots n (fun x => f x - g x) z (poly_sub n f g Hf Hg) Hd).
  assert (f x - g x = 0) by (apply E; intros i Hi; rewrite H by exact Hi; ring). lra.
Qed.

(** derivative of a polynomial function *)
Lemma poly_derivable n f :
  poly_lt n f -> exists f', poly_lt (pred n) f' /\ forall x, derivable_pt_lim f x (f' x).
Proof.
  revert f. induction n as [|n IH]; intros f (a & Ha).
  - exists (fun _ => 0). split; [apply poly_zero|]. intros x.
    apply (derivable_pt_lim_ext (fct_cte 0)); [intros; rewrite Ha; reflexivity|].
    apply derivable_pt_lim_const.
  - set (g := fun x => rsum n (fun k => a k * x ^ k)).
    destruct (IH g) as (g' & Hg' & Dg); [exists a; reflexivity|].
    destruct n as [|n].
    + exists (fun _ => 0). split; [apply poly_zero|]. intros x.
      apply (derivable_pt_lim_ext (fct_cte (a 0%nat))).
      * intros y. rewrite Ha. unfold fct_cte. simpl. ring.
      * apply derivable_pt_lim_const.
    + exists (fun x => g' x + a (S n) * (INR (S n) * x ^ n)). split.
      * cbn [pred]. apply poly_add; [apply (poly_mono n); [lia|exact Hg']|].
        exists (fun k => if Nat.eqb k n then a (S n) * INR (S n) else 0). intros x.
        rewrite (rsum_single (S n) n).
        -- rewrite Nat.eqb_refl. ring.
        -- lia.
        -- intros i Hi Hne. destruct (Nat.eqb_spec i n); [lia|ring].
      * intros x.
        apply (derivable_pt_lim_ext (plus_fct g (mult_real_fct (a (S n)) (fun y => y ^ S n)))).
        -- intros y. rewrite Ha. unfold plus_fct, mult_real_fct, g. cbn [rsum]. ring.
        -- apply derivable_pt_lim_plus; [apply Dg|]. apply derivable_pt_lim_scal.
           apply (derivable_pt_lim_pow x (S n)).
Qed.

(** derivative at [x] of [f y = f x + (y - x) * g y] is [g x] *)
Lemma derivable_pt_lim_factor f g n x :
  poly_lt n g -> (forall y, f y = f x + (y - x) * g y) -> derivable_pt_lim f x (g x).
Proof.
  intros Hg E. destruct (poly_derivable n g Hg) as (g' & _ & Dg).
  apply (derivable_pt_lim_ext (plus_fct (fct_cte (f x)) (mult_fct (minus_fct id (fct_cte x)) g))).
  - intros y. unfold plus_fct, mult_fct, minus_fct, fct_cte, id. symmetry. apply E.
  - replace (g x) with (0 + ((1 - 0) * g x + (x - x) * g' x)) by ring.
    apply derivable_pt_lim_plus; [apply derivable_pt_lim_const|].
    apply (derivable_pt_lim_mult (minus_fct id (fct_cte x)) g x (1 - 0) (g' x)).
    + apply derivable_pt_lim_minus; [apply derivable_pt_lim_id|apply derivable_pt_lim_const].
    + apply Dg.
Qed.
