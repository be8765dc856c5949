From Coq Require Import Reals Arith Lra Lia.
Require Import Verif.RSum Verif.RBase Verif.Spec_Mat Verif.Spec_LU Verif.Det Verif.Model_LU Verif.Proof_LU.
Open Scope R_scope.

(** ** the permutation made of the recorded interchanges *)
Fixpoint perm (indx : nat -> nat) (m i : nat) : nat :=
  match m with O => i | S k => perm indx k (tr k (indx k) i) end.
Fixpoint iperm (indx : nat -> nat) (m i : nat) : nat :=
  match m with O => i | S k => tr k (indx k) (iperm indx k i) end.
Lemma perm_iperm indx m : forall i, perm indx m (iperm indx m i) = i.
Proof. induction m as [|m IH]; intros i; simpl; [reflexivity|]. rewrite tr_invol. apply IH. Qed.
Lemma iperm_perm indx m : forall i, iperm indx m (perm indx m i) = i.
Proof. induction m as [|m IH]; intros i; simpl; [reflexivity|]. rewrite IH. apply tr_invol. Qed.
Lemma apply_swaps_perm indx m A : forall i j, apply_swaps indx m A i j = A (perm indx m i) j.
Proof. induction m as [|m IH]; intros i j; simpl; [reflexivity|]. rewrite row_swap_tr. apply IH. Qed.
Lemma perm_lt indx m n : (m <= n)%nat -> swaps_ok n indx -> forall i, (i < n)%nat -> (perm indx m i < n)%nat.
Proof.
  induction m as [|m IH]; intros Hm H i Hi; simpl; [exact Hi|]. apply IH; [lia|exact H|]. apply tr_lt; [lia| |exact Hi]. apply (H m). lia.
Qed.
Lemma iperm_lt indx m n : (m <= n)%nat -> swaps_ok n indx -> forall i, (i < n)%nat -> (iperm indx m i < n)%nat.
Proof.
  induction m as [|m IH]; intros Hm H i Hi; simpl; [exact Hi|]. apply tr_lt; [lia| |apply IH; [lia|exact H|exact Hi]]. apply (H m). lia.
Qed.
Lemma perm_stable indx m n : (m <= n)%nat -> swaps_ok n indx -> forall d i, (i < m)%nat -> (m + d <= n)%nat -> perm indx (m + d) i = perm indx m i.
Proof.
  intros Hm H d. induction d as [|d IH]; intros i Hi Hd; [rewrite Nat.add_0_r; reflexivity|].
  rewrite Nat.add_succ_r. simpl. rewrite <- IH by lia. f_equal. assert (S := H (m + d)%nat ltac:(lia)). unfold tr.
  destruct (Nat.eqb_spec i (m + d)), (Nat.eqb_spec i (indx (m + d)%nat)); lia.
Qed.

Lemma det_apply_swaps n indx m A : (m <= n)%nat -> swaps_ok n indx -> det n (apply_swaps indx m A) = swap_sign indx m * det n A.
Proof.
  induction m as [|m IH]; intros Hm H; [unfold swap_sign; simpl; ring|]. cbn [apply_swaps].
  unfold swap_sign. cbn [rprod]. fold (swap_sign indx m).
  rewrite (det_ext n _ (prow (apply_swaps indx m A) (tr m (indx m)))) by (intros i j _ _; apply row_swap_tr).
  destruct (Nat.eqb_spec (indx m) m) as [E|E].
  - rewrite (det_ext n _ (apply_swaps indx m A)). { rewrite IH by (lia || assumption). ring. }
    intros i j _ _. unfold prow. rewrite E. unfold tr. destruct (Nat.eqb_spec i m) as [->|]; reflexivity.
  - assert (S := H m ltac:(lia)). rewrite det_swap by lia. rewrite IH by (lia || assumption). ring.
Qed.
Lemma swap_sign_pm indx m : swap_sign indx m = 1 \/ swap_sign indx m = -1.
Proof. unfold swap_sign. induction m as [|m IH]; cbn [rprod]; [left; reflexivity|]. destruct IH as [-> | ->], (Nat.eqb (indx m) m); lra. Qed.
Lemma swap_sign_neq0 indx m : swap_sign indx m <> 0.
Proof. destruct (swap_sign_pm indx m); lra. Qed.

(** ** triangular factors *)
Lemma ul_sum n a v i : (i < n)%nat -> rsum n (fun k => unit_lower a i k * v k) = v i + rsum i (fun k => a i k * v k).
Proof.
  intros Hi. replace n with (i + (1 + (n - (i + 1))))%nat by lia. rewrite !rsum_add. cbn [rsum].
  rewrite (rsum_zero (n - (i + 1))).
  2: { intros k Hk. unfold unit_lower. destruct (Nat.ltb_spec (i + (1 + k)) i), (Nat.eqb_spec (i + (1 + k)) i); try lia. ring. }
  rewrite (rsum_ext i (fun k => unit_lower a i k * v k) (fun k => a i k * v k)).
  2: { intros k Hk. unfold unit_lower. destruct (Nat.ltb_spec k i); [reflexivity|lia]. }
  unfold unit_lower. rewrite Nat.add_0_r. destruct (Nat.ltb_spec i i); [lia|]. rewrite Nat.eqb_refl. ring.
Qed.
Lemma up_sum n a v i : (i < n)%nat -> rsum n (fun k => upper a i k * v k) = a i i * v i + rsum (n - (i + 1)) (fun e => a i (i + 1 + e)%nat * v (i + 1 + e)%nat).
Proof.
  intros Hi. replace n with (i + (1 + (n - (i + 1))))%nat at 1 by lia. rewrite !rsum_add. cbn [rsum].
  rewrite (rsum_zero i). 2: { intros k Hk. unfold upper. destruct (Nat.leb_spec i k); [lia|ring]. }
  rewrite (rsum_ext _ (fun e => a i (i + 1 + e)%nat * v (i + 1 + e)%nat) (fun k => upper a i (i + (1 + k))%nat * v (i + (1 + k))%nat)).
  2: { intros k Hk. unfold upper. destruct (Nat.leb_spec i (i + (1 + k))); [|lia]. rewrite Nat.add_assoc. reflexivity. }
  unfold upper. rewrite Nat.add_0_r. destruct (Nat.leb_spec i i); [|lia]. ring.
Qed.

Lemma LU_product n A s t : LUInv n A n s t ->
  mat_eq n (mmul n (unit_lower (lu_a s)) (upper (lu_a s))) (add_diag (apply_swaps (lu_indx s) n A) t).
Proof.
  intros (I1 & I2 & I3 & I4 & I5 & I6 & I7) i c Hi Hc. unfold mmul, add_diag.
  rewrite (ul_sum n (lu_a s) (fun k => upper (lu_a s) k c) i Hi). unfold upper.
  destruct (Nat.leb_spec i c) as [L|L].
  - assert (E5 := I5 i c L Hc). rewrite (rsum_ext i _ (fun k => lu_a s i k * lu_a s k c)).
    2: { intros k Hk. destruct (Nat.leb_spec k c); [reflexivity|lia]. }
    rewrite <- E5. destruct (Nat.eqb_spec i c) as [->|]; reflexivity.
  - rewrite I6 by lia. destruct (Nat.eqb_spec i c); [lia|]. replace i with (S c + (i - S c))%nat at 1 by lia. rewrite rsum_add.
    rewrite (rsum_zero (i - S c)). 2: { intros k Hk. destruct (Nat.leb_spec (S c + k) c); [lia|ring]. }
    rewrite (rsum_ext (S c) _ (fun k => lu_a s i k * lu_a s k c)); [ring|].
    intros k Hk. destruct (Nat.leb_spec k c); [reflexivity|lia].
Qed.

(** forward substitution always has a solution *)
Lemma forward_exists (L : mat) (b : nat -> R) : exists y, forall i, b i = y i + rsum i (fun k => L i k * y k).
Proof.
  set (f := fun m => fold_up m (fun i y => fset y i (b i - rsum i (fun k => L i k * y k))) b).
  assert (St : forall d m i, (i < m)%nat -> f (m + d)%nat i = f m i).
  { induction d as [|d IH]; intros m i Hi; [rewrite Nat.add_0_r; reflexivity|]. rewrite Nat.add_succ_r. unfold f. cbn [fold_up]. fold (f (m + d)%nat).
    rewrite fset_neq by lia. apply IH. exact Hi. }
  exists (fun i => f (S i) i). intros i. unfold f at 1. cbn [fold_up]. fold (f i). rewrite fset_eq.
  rewrite (rsum_ext i (fun k => L i k * f (S k) k) (fun k => L i k * f i k)); [ring|].
  intros k Hk. f_equal. replace i with (S k + (i - S k))%nat at 1 by lia. rewrite St by lia. reflexivity.
Qed.
(** and so has backward substitution with non-zero pivots *)
Lemma backward_exists (U : mat) (y : nat -> R) m : (forall i, (i < m)%nat -> U i i <> 0) ->
  exists x, (forall i, (i < m)%nat -> y i = rsum m (fun k => upper U i k * x k)).
Proof.
  revert y. induction m as [|m IH]; intros y H; [exists (fun _ => 0); intros; lia|].
  destruct (IH (fun i => y i - U i m * (y m / U m m)) (fun i Hi => H i ltac:(lia))) as (x & X).
  exists (fset x m (y m / U m m)). intros i Hi. cbn [rsum]. rewrite fset_eq.
  rewrite (rsum_ext m _ (fun k => upper U i k * x k)) by (intros k Hk; rewrite fset_neq by lia; reflexivity).
  destruct (Nat.eq_dec i m) as [->|Ne].
  - rewrite rsum_zero. 2: { intros k Hk. unfold upper. destruct (Nat.leb_spec m k); [lia|ring]. }
    unfold upper. destruct (Nat.leb_spec m m); [|lia]. field. apply H. lia.
  - rewrite <- X by lia. unfold upper. destruct (Nat.leb_spec i m); [|lia]. ring.
Qed.

(** ** a replaced pivot means a singular matrix *)
Lemma first_bad (t : nat -> R) m : (forall c, (c < m)%nat -> t c = 0) \/ exists c, (c < m)%nat /\ t c <> 0 /\ forall d, (d < c)%nat -> t d = 0.
Proof.
  induction m as [|m [IH|(c & H1 & H2 & H3)]].
  - left. intros; lia.
  - destruct (Req_dec (t m) 0) as [E|E].
    + left. intros c Hc. destruct (Nat.eq_dec c m) as [->|]; [exact E|apply IH; lia].
    + right. exists m. split; [lia|]. split; [exact E|exact IH].
  - right. exists c. split; [lia|]. split; assumption.
Qed.

Section Singular.
Context (n : nat) (A : mat) (s : lu) (t : nat -> R) (c : nat).
Hypothesis HI : LUInv n A n s t.
Hypothesis Hc : (c < n)%nat.
Hypothesis Ht : t c <> 0.
Hypothesis Hd : forall d, (d < c)%nat -> t d = 0.
Let a := lu_a s.
Let P := apply_swaps (lu_indx s) n A.

Lemma bad_col : forall i, (c <= i < n)%nat -> P i c = rsum c (fun k => a i k * a k c).
Proof.
  destruct HI as (I1 & I2 & I3 & I4 & I5 & I6 & I7). fold a P in I5, I6, I7. intros i Hi.
  destruct (I7 c Hc) as (N & [T|(T1 & T2 & T3)]); [contradiction|].
  destruct (Nat.eq_dec i c) as [->|Ne].
  - assert (E := I5 c c (le_n c) Hc). rewrite Nat.eqb_refl, T1, T2 in E. lra.
  - rewrite I6 by lia. cbn [rsum]. rewrite T3 by lia. ring.
Qed.

Lemma bad_det : det n A = 0.
Proof.
  destruct HI as (I1 & I2 & I3 & I4 & I5 & I6 & I7). fold a P in I5, I6, I7.
  assert (D := det_apply_swaps n (lu_indx s) n A (le_n n) I1). fold P in D.
  assert (Z : det n P = 0).
  2: { rewrite Z in D. assert (N := swap_sign_neq0 (lu_indx s) n). symmetry in D. apply Rmult_integral in D. destruct D; [contradiction|assumption]. }
  assert (W : exists W : mat, forall i j, P i j = W i j + rsum i (fun k => a i k * W k j)).
  { exists (fun i j => fold_up (S i) (fun r y => fset y r (P r j - rsum r (fun k => a r k * y k))) (fun r => P r j) i).
    intros i j. set (b := fun r => P r j).
    set (f := fun m => fold_up m (fun i y => fset y i (b i - rsum i (fun k => a i k * y k))) b).
    assert (St : forall d m i, (i < m)%nat -> f (m + d)%nat i = f m i).
    { induction d as [|d IH]; intros m r Hr; [rewrite Nat.add_0_r; reflexivity|]. rewrite Nat.add_succ_r. unfold f. cbn [fold_up]. fold (f (m + d)%nat).
      rewrite fset_neq by lia. apply IH. exact Hr. }
    change (P i j = f (S i) i + rsum i (fun k => a i k * f (S k) k)).
    unfold f at 1. cbn [fold_up]. fold (f i). rewrite fset_eq. unfold b.
    rewrite (rsum_ext i (fun k => a i k * f (S k) k) (fun k => a i k * f i k)); [ring|].
    intros k Hk. f_equal. replace i with (S k + (i - S k))%nat at 1 by lia. rewrite St by lia. reflexivity. }
  destruct W as (W & HW). rewrite (det_unit_lower n P W a) by (intros; apply HW).
  assert (E : forall d, (d < c)%nat -> forall i, (i < n)%nat -> W i d = if Nat.leb i d then a i d else 0).
  { intros d Hdc i. induction i as [i IH] using lt_wf_ind. intros Hi. assert (X := HW i d).
    destruct (Nat.leb_spec i d) as [L|L].
    - assert (E := I5 i d L ltac:(lia)). rewrite (rsum_ext i _ (fun k => a i k * a k d)) in X.
      2: { intros k Hk. rewrite (IH k Hk ltac:(lia)). destruct (Nat.leb_spec k d); [reflexivity|lia]. }
      rewrite (Hd d Hdc) in E. destruct (Nat.eqb i d); lra.
    - assert (E := I6 i d ltac:(lia) ltac:(lia)). rewrite (rsum_ext i _ (fun k => a i k * (if Nat.leb k d then a k d else 0))) in X.
      2: { intros k Hk. rewrite (IH k Hk ltac:(lia)). reflexivity. }
      replace i with (S d + (i - S d))%nat in X at 3 by lia. rewrite rsum_add in X. rewrite (rsum_zero (i - S d)) in X.
      2: { intros k Hk. destruct (Nat.leb_spec (S d + k) d); [lia|ring]. }
      rewrite (rsum_ext (S d) _ (fun k => a i k * a k d)) in X by (intros k Hk; destruct (Nat.leb_spec k d); [reflexivity|lia]). lra. }
  assert (F : forall i, (i < n)%nat -> W i c = if Nat.ltb i c then a i c else 0).
  { intros i. induction i as [i IH] using lt_wf_ind. intros Hi. assert (X := HW i c).
    destruct (Nat.ltb_spec i c) as [L|L].
    - assert (E' := I5 i c ltac:(lia) ltac:(lia)). rewrite (rsum_ext i _ (fun k => a i k * a k c)) in X.
      2: { intros k Hk. rewrite (IH k Hk ltac:(lia)). destruct (Nat.ltb_spec k c); [reflexivity|lia]. }
      destruct (Nat.eqb_spec i c); [lia|]. lra.
    - assert (E' := bad_col i ltac:(lia)). rewrite (rsum_ext i _ (fun k => a i k * (if Nat.ltb k c then a k c else 0))) in X.
      2: { intros k Hk. rewrite (IH k Hk ltac:(lia)). reflexivity. }
      replace i with (c + (i - c))%nat in X at 3 by lia. rewrite rsum_add in X. rewrite (rsum_zero (i - c)) in X.
      2: { intros k Hk. destruct (Nat.ltb_spec (c + k) c); [lia|ring]. }
      rewrite (rsum_ext c _ (fun k => a i k * a k c)) in X by (intros k Hk; destruct (Nat.ltb_spec k c); [reflexivity|lia]). lra. }
  apply (det_zero_block c n W Hc).
  - intros i d Hdc Hi. rewrite E by lia. destruct (Nat.leb_spec i d); [lia|reflexivity].
  - intros i Hi. rewrite F by lia. destruct (Nat.ltb_spec i c); [lia|reflexivity].
Qed.

(** a non-zero vector in the kernel *)
Lemma bad_kernel : exists x, (exists k, (k < n)%nat /\ x k <> 0) /\ forall i, (i < n)%nat -> mvec n A x i = 0.
Proof.
  destruct HI as (I1 & I2 & I3 & I4 & I5 & I6 & I7). fold a P in I5, I6, I7.
  destruct (backward_exists a (fun k => a k c) c) as (x & X). { intros i Hi. apply I7. lia. }
  exists (fun k => if Nat.ltb k c then x k else if Nat.eqb k c then -1 else 0). split.
  { exists c. split; [exact Hc|]. destruct (Nat.ltb_spec c c); [lia|]. rewrite Nat.eqb_refl. lra. }
  (* P x = 0 row by row *)
  assert (G : forall i, (i < n)%nat -> rsum c (fun k => P i k * x k) = P i c).
  { intros i Hi.
    assert (PL : forall k, (k < c)%nat -> P i k = rsum c (fun m => unit_lower a i m * upper a m k)).
    { intros k Hk. replace c with (S k + (c - S k))%nat by lia. rewrite rsum_add. rewrite (rsum_zero (c - S k)).
      2: { intros m Hm. unfold upper. destruct (Nat.leb_spec (S k + m) k); [lia|ring]. }
      rewrite Rplus_0_r. destruct (Nat.leb_spec i k) as [L|L].
      - assert (E := I5 i k L ltac:(lia)). rewrite (Hd k Hk) in E. rewrite (ul_sum (S k) a (fun m => upper a m k) i ltac:(lia)).
        rewrite (rsum_ext i _ (fun m => a i m * a m k)).
        2: { intros m Hm. unfold upper. destruct (Nat.leb_spec m k); [reflexivity|lia]. }
        unfold upper. destruct (Nat.leb_spec i k); [|lia]. destruct (Nat.eqb i k); lra.
      - rewrite I6 by lia. apply rsum_ext. intros m Hm. unfold unit_lower, upper. destruct (Nat.ltb_spec m i); [|lia]. destruct (Nat.leb_spec m k); [reflexivity|lia]. }
    rewrite (rsum_ext c _ (fun k => rsum c (fun m => unit_lower a i m * upper a m k * x k))).
    2: { intros k Hk. rewrite (PL k Hk), rsum_scal_r. reflexivity. }
    rewrite rsum_swap. rewrite (rsum_ext c _ (fun m => unit_lower a i m * a m c)).
    2: { intros m Hm. rewrite X by exact Hm. rewrite <- rsum_scal_l. apply rsum_ext. intros; ring. }
    destruct (Nat.lt_ge_cases i c) as [L|L].
    - rewrite (ul_sum c a (fun m => a m c) i L). assert (E := I5 i c ltac:(lia) Hc). destruct (Nat.eqb_spec i c); [lia|]. lra.
    - rewrite bad_col by lia. apply rsum_ext. intros m Hm. unfold unit_lower. destruct (Nat.ltb_spec m i); [reflexivity|lia]. }
  intros r Hr. set (i := iperm (lu_indx s) n r).
  assert (Hi : (i < n)%nat) by (apply iperm_lt; [lia|exact I1|exact Hr]).
  assert (E : forall k, A r k = P i k) by (intros k; unfold P; rewrite apply_swaps_perm; unfold i; rewrite perm_iperm; reflexivity).
  unfold mvec. replace n with (c + (1 + (n - (c + 1))))%nat by lia. rewrite !rsum_add. cbn [rsum]. rewrite Nat.add_0_r.
  rewrite (rsum_ext c _ (fun k => P i k * x k)).
  2: { intros k Hk. rewrite E. destruct (Nat.ltb_spec k c); [reflexivity|lia]. }
  rewrite G by exact Hi. rewrite (rsum_zero (n - (c + 1))).
  2: { intros k Hk. destruct (Nat.ltb_spec (c + (1 + k)) c), (Nat.eqb_spec (c + (1 + k)) c); try lia. ring. }
  destruct (Nat.ltb_spec c c); [lia|]. rewrite Nat.eqb_refl, E. ring.
Qed.
End Singular.
