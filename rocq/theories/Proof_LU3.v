From Coq Require Import Reals Arith Lra Lia.
Require Import Verif.RSum Verif.RBase Verif.Spec_Mat Verif.Spec_LU Verif.Det Verif.Model_LU Verif.Proof_LU Verif.Proof_LU2.
Open Scope R_scope.

Lemma LUInv_lu n A s t : LUInv n A n s t -> (forall c, (c < n)%nat -> t c = 0) ->
  mat_eq n (mmul n (unit_lower (lu_a s)) (upper (lu_a s))) (apply_swaps (lu_indx s) n A).
Proof.
  intros I T i j Hi Hj. rewrite (LU_product n A s t I i j Hi Hj). unfold add_diag. destruct (Nat.eqb i j); [rewrite T by exact Hi; ring|ring].
Qed.

Lemma det_LU n a : det n (mmul n (unit_lower a) (upper a)) = rprod n (fun i => a i i).
Proof.
  rewrite (det_unit_lower n _ (upper a) a).
  - rewrite det_upper. { apply rprod_ext. intros i Hi. unfold upper. rewrite Nat.leb_refl. reflexivity. }
    intros i j Hij. unfold upper. destruct (Nat.leb_spec i j); [lia|reflexivity].
  - intros i j Hi Hj. unfold mmul. apply (ul_sum n a (fun k => upper a k j) i Hi).
Qed.

Lemma LU_determ_prod n a p : LU_determ n a p = p * rprod n (fun i => a i i).
Proof. unfold LU_determ. induction n as [|n IH]; simpl; [ring|]. rewrite IH. ring. Qed.

Lemma sign_sq indx m : swap_sign indx m * swap_sign indx m = 1.
Proof. destruct (swap_sign_pm indx m) as [-> | ->]; ring. Qed.

(** determinant of A from the factors, always with the diagonal perturbation *)
Lemma LU_determ_correct n A s t : LUInv n A n s t -> (forall c, (c < n)%nat -> t c = 0) -> LU_determ n (lu_a s) (lu_parity s) = det n A.
Proof.
  intros I T. rewrite LU_determ_prod, <- det_LU. rewrite (det_ext n _ _ (LUInv_lu n A s t I T)).
  destruct I as (I1 & I2 & _). rewrite det_apply_swaps by (lia || exact I1). rewrite I2. rewrite <- Rmult_assoc, sign_sq. ring.
Qed.
Lemma LU_pivots_det n A s t : LUInv n A n s t -> (forall c, (c < n)%nat -> t c = 0) -> det n A <> 0.
Proof.
  intros I T. rewrite <- (LU_determ_correct n A s t I T), LU_determ_prod. apply Rmult_integral_contrapositive. split.
  - destruct I as (_ & -> & _). apply swap_sign_neq0.
  - apply rprod_neq0. intros i Hi. apply I. exact Hi.
Qed.
Lemma no_perturb_det n A s t : LUInv n A n s t -> det n A <> 0 -> forall c, (c < n)%nat -> t c = 0.
Proof.
  intros I D. destruct (first_bad t n) as [H|(c & H1 & H2 & H3)]; [exact H|]. exfalso. apply D. eapply bad_det; eassumption.
Qed.

Lemma left_inverse_kernel n A B x : mat_eq n (mmul n B A) ident -> (forall i, (i < n)%nat -> mvec n A x i = 0) -> forall i, (i < n)%nat -> x i = 0.
Proof.
  intros H Z i Hi.
  assert (E : x i = rsum n (fun j => mmul n B A i j * x j)).
  { rewrite (rsum_single n i) by (lia || (intros k Hk Ne; rewrite H by assumption; unfold ident; destruct (Nat.eqb_spec i k); [congruence|ring])).
    rewrite H by assumption. unfold ident. rewrite Nat.eqb_refl. ring. }
  rewrite E. unfold mmul. rewrite (rsum_ext n _ (fun j => rsum n (fun k => B i k * A k j * x j))) by (intros; rewrite rsum_scal_r; reflexivity).
  rewrite rsum_swap. apply rsum_zero. intros k Hk. rewrite (rsum_ext n _ (fun j => B i k * (A k j * x j))) by (intros; ring).
  rewrite rsum_scal_l. fold (mvec n A x k). rewrite Z by exact Hk. ring.
Qed.
Lemma no_perturb_inv n A s t : LUInv n A n s t -> invertible n A -> forall c, (c < n)%nat -> t c = 0.
Proof.
  intros I (B & _ & H). destruct (first_bad t n) as [G|(c & H1 & H2 & H3)]; [exact G|]. exfalso.
  destruct (bad_kernel n A s t c I H1 H2 H3) as (x & (k & Hk & N) & Z). apply N. exact (left_inverse_kernel n A B x H Z k Hk).
Qed.

(** zero rows *)
Lemma det_zero_row n A i : (i < n)%nat -> row_zero n A i -> det n A = 0.
Proof.
  intros Hi Z. rewrite (det_ext n A (rset A i (fun j => 0 * A i j + 0 * A i j))).
  - rewrite det_lin by exact Hi. ring.
  - intros r c Hr Hc. unfold rset. destruct (Nat.eqb_spec r i) as [->|]; [rewrite Z by exact Hc; ring|reflexivity].
Qed.
Lemma inv_no_zero_row n A i : (i < n)%nat -> row_zero n A i -> ~ invertible n A.
Proof.
  intros Hi Z (B & H & _). assert (E := H i i Hi Hi). unfold mmul, ident in E. rewrite Nat.eqb_refl in E.
  rewrite rsum_zero in E; [lra|]. intros k Hk. rewrite Z by exact Hk. ring.
Qed.
Lemma LU_none n A indx0 vv0 : LU_decompos n A indx0 vv0 = None <-> exists i, (i < n)%nat /\ row_zero n A i.
Proof.
  unfold LU_decompos. rewrite <- (lu_scale_none n A vv0). destruct (lu_scale n A vv0); split; intros H; congruence.
Qed.

Lemma invertible_det n A : invertible n A -> det n A <> 0.
Proof.
  intros H. destruct (LU_decompos n A (fun _ => O) (fun _ => 0)) as [s|] eqn:E.
  - destruct (LU_inv _ _ _ _ _ E) as (t & I). apply (LU_pivots_det n A s t I). apply (no_perturb_inv n A s t I H).
  - exfalso. apply LU_none in E. destruct E as (i & Hi & Z). exact (inv_no_zero_row n A i Hi Z H).
Qed.

(** ** back substitution *)
Section Backsub.
Context (n : nat) (a : mat) (indx : nat -> nat) (b0 : nat -> R).
Hypothesis Hs : swaps_ok n indx.
Hypothesis Hp : forall i, (i < n)%nat -> a i i <> 0.

Lemma sum_tail i s y : (s <= i)%nat -> (forall m, (m < s)%nat -> y m = 0) -> rsum i (fun k => a i k * y k) = rsum (i - s) (fun d => a i (s + d)%nat * y (s + d)%nat).
Proof.
  intros H Z. replace i with (s + (i - s))%nat at 1 by lia. rewrite rsum_add. rewrite rsum_zero; [ring|]. intros k Hk. rewrite Z by exact Hk. ring.
Qed.
Lemma fold_sub m f g v : fold_up m (fun d t => t - f d * g d) v = v - rsum m (fun d => f d * g d).
Proof. induction m as [|m IH]; simpl; [ring|]. rewrite IH. ring. Qed.

Lemma forward_inv : forall m, (m <= n)%nat -> let '(b, ii) := fold_up m (forward_step a indx) (b0, None) in
  (forall k, (m <= k < n)%nat -> b k = b0 (perm indx m k)) /\
  (forall k, (k < m)%nat -> b k + rsum k (fun l => a k l * b l) = b0 (perm indx m k)) /\
  match ii with None => forall k, (k < m)%nat -> b k = 0 | Some s => (s < m)%nat /\ forall k, (k < s)%nat -> b k = 0 end.
Proof.
  induction m as [|m IH]; intros Hm; cbn [fold_up].
  - split; [intros; reflexivity|]. split; intros; lia.
  - specialize (IH ltac:(lia)). destruct (fold_up m (forward_step a indx) (b0, None)) as [b ii]. destruct IH as (P1 & P2 & P3).
    assert (Q := Hs m ltac:(lia)). unfold forward_step. set (q := indx m) in *.
    assert (St : forall k, (k < m)%nat -> perm indx (S m) k = perm indx m k).
    { intros k Hk. cbn [perm]. f_equal. fold q. unfold tr. destruct (Nat.eqb_spec k m), (Nat.eqb_spec k q); lia. }
    assert (Pm : perm indx (S m) m = perm indx m q) by (cbn [perm]; fold q; unfold tr; rewrite Nat.eqb_refl; reflexivity).
    assert (Hi : forall v k, (S m <= k < n)%nat -> fset (fset b q (b m)) m v k = b0 (perm indx (S m) k)).
    { intros v k Hk. rewrite fset_neq by lia. cbn [perm]. fold q. unfold tr. destruct (Nat.eqb_spec k m); [lia|].
      destruct (Nat.eqb_spec k q) as [->|]; [rewrite fset_eq; apply P1; lia|rewrite fset_neq by assumption; apply P1; lia]. }
    assert (Lo : forall v k, (k < m)%nat -> fset (fset b q (b m)) m v k = b k) by (intros v k Hk; rewrite !fset_neq by lia; reflexivity).
    assert (Lo1 : forall v k, (k < m)%nat -> fset (fset b q (b m)) m v k + rsum k (fun l => a k l * fset (fset b q (b m)) m v l) = b0 (perm indx (S m) k)).
    { intros v k Hk. rewrite Lo by exact Hk. rewrite St by exact Hk. rewrite <- P2 by exact Hk. f_equal. apply rsum_ext. intros l Hl. rewrite Lo by lia. reflexivity. }
    assert (Bq : b q = b0 (perm indx m q)) by (apply P1; lia).
    destruct ii as [s|].
    + destruct P3 as (Hs1 & Z). split; [apply Hi|]. split.
      * intros k Hk. destruct (Nat.eq_dec k m) as [->|]; [|apply Lo1; lia]. rewrite fset_eq. rewrite fold_sub.
        rewrite Pm, <- Bq. rewrite (sum_tail m s) by (lia || (intros l Hl; rewrite Lo by lia; apply Z; exact Hl)).
        rewrite (rsum_ext (m - s) (fun d => a m (s + d)%nat * fset (fset b q (b m)) m _ (s + d)%nat) (fun d => a m (s + d)%nat * fset b q (b m) (s + d)%nat)).
        -- ring.
        -- intros l Hl. rewrite (fset_neq _ (s + l)%nat m) by lia. reflexivity.
      * split; [lia|]. intros k Hk. rewrite Lo by lia. apply Z. exact Hk.
    + split; [apply Hi|]. split.
      * intros k Hk. destruct (Nat.eq_dec k m) as [->|]; [|apply Lo1; lia]. rewrite fset_eq. rewrite rsum_zero; [rewrite Pm, <- Bq; ring|].
        intros l Hl. rewrite Lo by exact Hl. rewrite P3 by exact Hl. ring.
      * destruct (Req_EM_T (b q) 0) as [E|E].
        -- intros k Hk. destruct (Nat.eq_dec k m) as [->|]; [rewrite fset_eq; exact E|]. rewrite Lo by lia. apply P3. lia.
        -- split; [lia|]. intros k Hk. rewrite Lo by lia. apply P3. exact Hk.
Qed.

Lemma backward_inv y : forall d, (d <= n)%nat -> let x := fold_up d (backward_step n a) y in
  (forall k, (k < n - d)%nat -> x k = y k) /\
  (forall k, (n - d <= k < n)%nat -> a k k * x k + rsum (n - (k + 1)) (fun e => a k (k + 1 + e)%nat * x (k + 1 + e)%nat) = y k).
Proof.
  induction d as [|d IH]; intros Hd; cbn [fold_up]; [split; intros; [reflexivity|lia]|].
  destruct (IH ltac:(lia)) as (P1 & P2). set (x := fold_up d (backward_step n a) y) in *. cbv zeta. unfold backward_step. set (i := (n - 1 - d)%nat).
  rewrite fold_sub. set (v := _ / a i i).
  assert (Ev : a i i * v = x i - rsum (n - (i + 1)) (fun e => a i (i + 1 + e)%nat * x (i + 1 + e)%nat)) by (unfold v; field; apply Hp; unfold i; lia).
  split.
  - intros k Hk. rewrite fset_neq by (unfold i; lia). apply P1. lia.
  - intros k Hk. rewrite (rsum_ext _ _ (fun e => a k (k + 1 + e)%nat * x (k + 1 + e)%nat)) by (intros e He; rewrite fset_neq by (unfold i; lia); reflexivity).
    destruct (Nat.eq_dec k i) as [->|Ne]; [rewrite fset_eq, Ev; rewrite P1 by (unfold i; lia); ring|]. rewrite fset_neq by exact Ne. apply P2. unfold i in Ne. lia.
Qed.

Lemma backsub_solves : forall i, (i < n)%nat ->
  mvec n (mmul n (unit_lower a) (upper a)) (LU_backsub n a indx b0) i = b0 (perm indx n i).
Proof.
  intros i Hi. unfold LU_backsub. assert (F := forward_inv n (le_n n)). destruct (fold_up n (forward_step a indx) (b0, None)) as [y ii].
  destruct F as (_ & F & _). destruct (backward_inv y n (le_n n)) as (_ & B). set (x := fold_up n (backward_step n a) y) in *.
  unfold mvec, mmul. rewrite (rsum_ext n _ (fun k => rsum n (fun m => unit_lower a i m * upper a m k * x k))) by (intros; rewrite rsum_scal_r; reflexivity).
  rewrite rsum_swap. rewrite (rsum_ext n _ (fun m => unit_lower a i m * y m)).
  - rewrite ul_sum by exact Hi. apply F. exact Hi.
  - intros m Hm. rewrite (rsum_ext n _ (fun k => unit_lower a i m * (upper a m k * x k))) by (intros; ring). rewrite rsum_scal_l. f_equal.
    rewrite up_sum by exact Hm. apply B. lia.
Qed.
End Backsub.

Lemma mvec_ext n A B x i : (forall j, (j < n)%nat -> A i j = B i j) -> mvec n A x i = mvec n B x i.
Proof. intros H. unfold mvec. apply rsum_ext. intros j Hj. rewrite H by exact Hj. reflexivity. Qed.

Lemma LU_solve n A indx0 vv0 s b : LU_decompos n A indx0 vv0 = Some s -> det n A <> 0 ->
  forall i, (i < n)%nat -> mvec n A (LU_backsub n (lu_a s) (lu_indx s) b) i = b i.
Proof.
  intros E D r Hr. destruct (LU_inv _ _ _ _ _ E) as (t & I). assert (T := no_perturb_det n A s t I D).
  assert (L := LUInv_lu n A s t I T). destruct I as (I1 & I2 & I3 & I4 & I5 & I6 & I7).
  set (i := iperm (lu_indx s) n r). assert (Hi : (i < n)%nat) by (apply iperm_lt; [lia|exact I1|exact Hr]).
  assert (Bs := backsub_solves n (lu_a s) (lu_indx s) b I1 (fun i Hi => proj1 (I7 i Hi)) i Hi).
  rewrite (mvec_ext n _ _ _ i (fun j Hj => L i j Hi Hj)) in Bs.
  unfold i in Bs. rewrite perm_iperm in Bs. rewrite <- Bs. apply rsum_ext. intros k Hk. rewrite apply_swaps_perm, perm_iperm. reflexivity.
Qed.

(** ** inverse *)
Lemma fold_fset_zero n (col : nat -> R) : forall i, (i < n)%nat -> fold_up n (fun i c => fset c i 0) col i = 0.
Proof. induction n as [|n IH]; intros i Hi; [lia|]. cbn [fold_up]. unfold fset at 1. destruct (Nat.eqb_spec i n); [reflexivity|apply IH; lia]. Qed.

Lemma backsub_ext n a indx b b' : swaps_ok n indx -> (forall i, (i < n)%nat -> b i = b' i) -> forall i, (i < n)%nat -> LU_backsub n a indx b i = LU_backsub n a indx b' i.
Proof.
  intros Hs H. unfold LU_backsub.
  assert (F : forall m, (m <= n)%nat -> let '(y, ii) := fold_up m (forward_step a indx) (b, None) in let '(y', ii') := fold_up m (forward_step a indx) (b', None) in
    ii = ii' /\ (forall s, ii = Some s -> (s < m)%nat) /\ forall i, (i < n)%nat -> y i = y' i).
  { induction m as [|m IH]; intros Hm; cbn [fold_up]; [split; [reflexivity|split; [discriminate|exact H]]|]. specialize (IH ltac:(lia)).
    destruct (fold_up m _ (b, None)) as [y ii], (fold_up m _ (b', None)) as [y' ii']. destruct IH as (<- & Sm & IH).
    unfold forward_step. assert (Q := Hs m ltac:(lia)).
    assert (X : forall i, (i < n)%nat -> fset y (indx m) (y m) i = fset y' (indx m) (y' m) i) by (intros i Hi; unfold fset; rewrite (IH m) by lia; rewrite (IH i) by exact Hi; reflexivity).
    destruct ii as [s|].
    - split; [reflexivity|]. split; [intros s' E; injection E as <-; specialize (Sm s eq_refl); lia|].
      intros i Hi. destruct (Nat.eq_dec i m) as [->|Ne]; [|rewrite !(fset_neq _ i m) by exact Ne; apply X; exact Hi]. rewrite !(fset_eq _ m). rewrite !fold_sub. rewrite (IH (indx m)) by lia. f_equal.
      apply rsum_ext. intros d Hd. rewrite X by (specialize (Sm s eq_refl); lia). reflexivity.
    - rewrite (IH (indx m)) by lia. split; [reflexivity|]. split; [destruct (Req_EM_T (y' (indx m)) 0); [discriminate|intros s E; injection E as <-; lia]|].
      intros i Hi. destruct (Nat.eq_dec i m) as [->|Ne]; [rewrite !(fset_eq _ m); reflexivity|rewrite !(fset_neq _ i m) by exact Ne; apply X; exact Hi]. }
  specialize (F n (le_n n)). destruct (fold_up n _ (b, None)) as [y ii], (fold_up n _ (b', None)) as [y' ii']. destruct F as (_ & _ & F).
  assert (G : forall d, (d <= n)%nat -> forall i, (i < n)%nat -> fold_up d (backward_step n a) y i = fold_up d (backward_step n a) y' i).
  { induction d as [|d IH]; intros Hd; cbn [fold_up]; [exact F|]. specialize (IH ltac:(lia)). intros i Hi.
    set (x := fold_up d (backward_step n a) y) in *. set (x' := fold_up d (backward_step n a) y') in *. unfold backward_step, fset.
    rewrite !fold_sub. rewrite (IH (n - 1 - d)%nat) by lia. rewrite (IH i Hi). destruct (Nat.eqb i (n - 1 - d)); [|reflexivity].
    f_equal. f_equal. apply rsum_ext. intros e He. rewrite IH by lia. reflexivity. }
  apply G. lia.
Qed.

Lemma LU_invert_cols n a indx inv0 col0 : swaps_ok n indx -> forall i j, (i < n)%nat -> (j < n)%nat ->
  LU_invert n a indx inv0 col0 i j = LU_backsub n a indx (fun k => if Nat.eqb k j then 1 else 0) i.
Proof.
  intros Hs. unfold LU_invert.
  set (body := fun j st => _).
  assert (G : forall m, (m <= n)%nat -> forall i j, (i < n)%nat -> (j < m)%nat -> fst (fold_up m body (inv0, col0)) i j = LU_backsub n a indx (fun k => if Nat.eqb k j then 1 else 0) i).
  { induction m as [|m IH]; intros Hm i j Hi Hj; [lia|]. cbn [fold_up]. specialize (IH ltac:(lia)). destruct (fold_up m body (inv0, col0)) as [inv col]. cbn [fst] in IH.
    unfold body. cbv zeta. set (c2 := LU_backsub n a indx _). cbn [fst].
    assert (F : forall r, (r <= n)%nat -> forall i j, (i < n)%nat -> fold_up (S:=mat) r (fun i inv => mset inv i m (c2 i)) inv i j = if (Nat.ltb i r && Nat.eqb j m)%bool then c2 i else inv i j).
    { induction r as [|r IHr]; intros Hr x y Hx; cbn [fold_up]; [reflexivity|]. unfold mset at 1. rewrite IHr by (lia || assumption).
      destruct (Nat.eqb_spec x r), (Nat.eqb_spec y m), (Nat.ltb_spec x r), (Nat.ltb_spec x (S r)); subst; simpl; try lia; reflexivity. }
    rewrite F by (lia || assumption). destruct (Nat.ltb_spec i n); [|lia]. simpl.
    destruct (Nat.eqb_spec j m) as [->|]; [|apply IH; lia].
    unfold c2. apply backsub_ext; [exact Hs| |exact Hi]. intros k Hk. unfold fset at 1. destruct (Nat.eqb_spec k m); [reflexivity|]. apply fold_fset_zero. exact Hk. }
  intros i j Hi Hj. apply G; lia.
Qed.

Lemma LU_invert_right n A indx0 vv0 s inv0 col0 : LU_decompos n A indx0 vv0 = Some s -> det n A <> 0 ->
  mat_eq n (mmul n A (LU_invert n (lu_a s) (lu_indx s) inv0 col0)) ident.
Proof.
  intros E D i j Hi Hj. unfold mmul. destruct (LU_inv _ _ _ _ _ E) as (t & I). destruct I as (I1 & _).
  rewrite (rsum_ext n _ (fun k => A i k * LU_backsub n (lu_a s) (lu_indx s) (fun k => if Nat.eqb k j then 1 else 0) k)).
  - exact (LU_solve n A indx0 vv0 s (fun k => if Nat.eqb k j then 1 else 0) E D i Hi).
  - intros k Hk. rewrite LU_invert_cols by assumption. reflexivity.
Qed.

(** trivial kernel when det <> 0 *)
Lemma det_kernel n A x : det n A <> 0 -> (forall i, (i < n)%nat -> mvec n A x i = 0) -> forall i, (i < n)%nat -> x i = 0.
Proof.
  intros D Z. destruct (LU_decompos n A (fun _ => O) (fun _ => 0)) as [s|] eqn:E.
  2: { exfalso. apply LU_none in E. destruct E as (i & Hi & W). apply D. eapply det_zero_row; eassumption. }
  destruct (LU_inv _ _ _ _ _ E) as (t & I). assert (T := no_perturb_det n A s t I D). assert (L := LUInv_lu n A s t I T).
  destruct I as (I1 & I2 & I3 & I4 & I5 & I6 & I7). set (a := lu_a s) in *.
  set (z := fun m => rsum n (fun k => upper a m k * x k)).
  assert (Q : forall i, (i < n)%nat -> z i + rsum i (fun k => a i k * z k) = 0).
  { intros i Hi. rewrite <- (ul_sum n a z i Hi). unfold z. transitivity (mvec n (mmul n (unit_lower a) (upper a)) x i).
    - unfold mvec, mmul. rewrite (rsum_ext n (fun k => rsum n (fun k0 => unit_lower a i k0 * upper a k0 k) * x k) (fun k => rsum n (fun m => unit_lower a i m * upper a m k * x k))) by (intros; rewrite rsum_scal_r; reflexivity).
      rewrite rsum_swap. apply rsum_ext. intros m Hm. rewrite <- rsum_scal_l. apply rsum_ext. intros; ring.
    - rewrite (mvec_ext n _ _ x i (fun j Hj => L i j Hi Hj)). rewrite <- (Z (perm (lu_indx s) n i)) by (apply perm_lt; [lia|exact I1|exact Hi]).
      apply rsum_ext. intros k Hk. rewrite apply_swaps_perm. reflexivity. }
  assert (Qz : forall i, (i < n)%nat -> z i = 0).
  { intros i. induction i as [i IH] using lt_wf_ind. intros Hi. assert (Q' := Q i Hi). rewrite rsum_zero in Q'; [lra|].
    intros k Hk. rewrite IH by lia. ring. }
  assert (G : forall d i, (i < n)%nat -> (n - d <= i)%nat -> x i = 0).
  { induction d as [|d IH]; intros i Hi Hd; [lia|]. assert (Q' := Qz i Hi). unfold z in Q'. rewrite up_sum in Q' by exact Hi.
    rewrite rsum_zero in Q'. 2: { intros e He. rewrite IH by lia. ring. }
    assert (N := proj1 (I7 i Hi)). apply (Rmult_eq_reg_l (a i i)); [lra|exact N]. }
  intros i Hi. apply (G n); lia.
Qed.

(** a right inverse of a matrix with non-zero determinant is a left inverse *)
Lemma right_inverse_left n A B : det n A <> 0 -> mat_eq n (mmul n A B) ident -> mat_eq n (mmul n B A) ident.
Proof.
  intros D H i j Hi Hj.
  assert (K := det_kernel n A (fun k => mmul n B A k j - ident k j) D).
  apply Rminus_diag_uniq. refine (K _ i Hi). intros r Hr. unfold mvec.
  rewrite (rsum_ext n _ (fun k => A r k * mmul n B A k j - A r k * ident k j)) by (intros; ring). rewrite rsum_minus.
  assert (E1 : rsum n (fun k => A r k * ident k j) = A r j).
  { rewrite (rsum_single n j) by (lia || (intros k Hk Ne; unfold ident; destruct (Nat.eqb_spec k j); [congruence|ring])). unfold ident. rewrite Nat.eqb_refl. ring. }
  assert (E2 : rsum n (fun k => A r k * mmul n B A k j) = A r j).
  { unfold mmul. rewrite (rsum_ext n _ (fun k => rsum n (fun m => A r k * (B k m * A m j)))) by (intros; rewrite rsum_scal_l; reflexivity).
    rewrite rsum_swap. rewrite (rsum_ext n _ (fun m => mmul n A B r m * A m j)).
    2: { intros m Hm. unfold mmul. rewrite <- rsum_scal_r. apply rsum_ext. intros; ring. }
    rewrite (rsum_single n r).
    - rewrite H by assumption. unfold ident. rewrite Nat.eqb_refl. ring.
    - exact Hr.
    - intros k Hk Ne. rewrite H by assumption. unfold ident. destruct (Nat.eqb_spec r k); [congruence|ring]. }
  lra.
Qed.

Lemma LU_invert_correct n A indx0 vv0 s inv0 col0 : LU_decompos n A indx0 vv0 = Some s -> det n A <> 0 ->
  is_inverse n A (LU_invert n (lu_a s) (lu_indx s) inv0 col0).
Proof.
  intros E D. assert (R := LU_invert_right n A indx0 vv0 s inv0 col0 E D). split; [exact R|]. apply right_inverse_left; assumption.
Qed.
Lemma det_invertible n A : det n A <> 0 -> invertible n A.
Proof.
  intros D. destruct (LU_decompos n A (fun _ => O) (fun _ => 0)) as [s|] eqn:E.
  - eexists. eapply (LU_invert_correct n A _ _ s (fun _ _ => 0) (fun _ => 0) E D).
  - exfalso. apply LU_none in E. destruct E as (i & Hi & W). apply D. eapply det_zero_row; eassumption.
Qed.
