(** Property C72: rounding errors of the LU routines. *)
From Coq Require Import Reals Arith ZArith Lra Lia.
Require Import Verif.RSum Verif.RBase Verif.Spec_Mat Verif.Spec_LU Verif.Spec_Float Verif.Det Verif.Model_LU Verif.Model_FloatLU
  Verif.Proof_LU Verif.Proof_LU2 Verif.Proof_LU3 Verif.Float_Base Verif.Proof_FloatLU.
Open Scope R_scope.

(** with exact arithmetic these are the functions of Model_LU.v *)
Theorem C72_exact_case : let id := fun x : R => x in
  LU_decomposf id = LU_decompos /\ LU_backsubf id = LU_backsub /\ LU_invertf id = LU_invert /\ LU_determf id = LU_determ.
Proof. split; [reflexivity|]. split; [reflexivity|]. split; reflexivity. Qed.
Print Assumptions C72_exact_case.

(** doubles round with relative error 2^-53 as long as nothing underflows *)
Theorem C72_doubles : rounds u64 binary64 /\ forall x, x = 0 \/ / 2 ^ 1022 <= Rabs x -> ieee_double x = binary64 x.
Proof.
  split; [exact binary64_rounds|]. intros x H. apply ieee_binary64. destruct H as [H|H]; [left; exact H|right].
  change (-1022)%Z with (- (1022))%Z. rewrite Flocq.Core.Raux.bpow_opp. rewrite <- Flocq.Core.Raux.IZR_Zpower by lia.
  replace (IZR (Zpower.Zpower_nat 2 0 * 2 ^ 1022)) with (2 ^ 1022) in * by (rewrite pow_IZR; reflexivity).
  rewrite (pow_IZR 2 1022) in H. exact H.
Qed.
Print Assumptions C72_doubles.

Lemma rsum_cut n c (f : nat -> R) : (c <= n)%nat -> (forall k, (c <= k < n)%nat -> f k = 0) -> rsum n f = rsum c f.
Proof.
  intros H Z. replace n with (c + (n - c))%nat by lia. rewrite rsum_add, (rsum_zero (n - c)); [ring|]. intros k Hk. apply Z. lia.
Qed.
Lemma lu_row n a i c : (i < n)%nat -> (c < n)%nat -> forall f : R -> R, f 0 = 0 ->
  rsum n (fun k => f (unit_lower a i k * upper a k c)) = if Nat.leb i c then f (a i c) + rsum i (fun k => f (a i k * a k c)) else f (a i c * a c c) + rsum c (fun k => f (a i k * a k c)).
Proof.
  intros Hi Hc f F0. destruct (Nat.leb_spec i c) as [L|L].
  - rewrite (rsum_cut n (S i)) by (lia || (intros k Hk; unfold unit_lower; destruct (Nat.ltb_spec k i), (Nat.eqb_spec k i); try lia; rewrite Rmult_0_l; exact F0)).
    cbn [rsum]. rewrite Rplus_comm. f_equal.
    + unfold unit_lower, upper. destruct (Nat.ltb_spec i i), (Nat.leb_spec i c); try lia. rewrite Nat.eqb_refl. f_equal. ring.
    + apply rsum_ext. intros k Hk. unfold unit_lower, upper. destruct (Nat.ltb_spec k i), (Nat.leb_spec k c); try lia. reflexivity.
  - rewrite (rsum_cut n (S c)) by (lia || (intros k Hk; unfold upper; destruct (Nat.leb_spec k c); try lia; rewrite Rmult_0_r; exact F0)).
    cbn [rsum]. rewrite Rplus_comm. f_equal.
    + unfold unit_lower, upper. destruct (Nat.ltb_spec c i), (Nat.leb_spec c c); try lia. reflexivity.
    + apply rsum_ext. intros k Hk. unfold unit_lower, upper. destruct (Nat.ltb_spec k i), (Nat.leb_spec k c); try lia. reflexivity.
Qed.
Lemma mmul_abs n a i c : mmul n (mabs (unit_lower a)) (mabs (upper a)) i c = rsum n (fun k => Rabs (unit_lower a i k * upper a k c)).
Proof. unfold mmul, mabs. apply rsum_ext. intros k _. symmetry. apply Rabs_mult. Qed.

(** the computed factors are those of a matrix close to the (row-interchanged) input, entry by entry *)
Theorem C72_factorisation : forall u rnd n A indx0 vv0 s, 0 <= u < 1 -> rounds u rnd -> INR n * u < 1 ->
  LU_decomposf rnd n A indx0 vv0 = Some s ->
  let L := unit_lower (lu_a s) in let U := upper (lu_a s) in
  exists t, swaps_ok n (lu_indx s) /\
    (forall i j, (i < n)%nat -> (j < n)%nat ->
       Rabs (mmul n L U i j - add_diag (apply_swaps (lu_indx s) n A) t i j) <= gamma u n * mmul n (mabs L) (mabs U) i j) /\
    (forall i, (i < n)%nat -> lu_a s i i <> 0 /\ (t i = 0 \/ (t i = rnd TINY /\ lu_a s i i = rnd TINY))) /\
    lu_parity s = swap_sign (lu_indx s) n.
Proof.
  intros u rnd n A indx0 vv0 s Hu Hr Hn E. cbv zeta. destruct (LU_invf u rnd Hu Hr n A indx0 vv0 s E) as (t & I1 & I2 & I3 & I4 & I5 & I6 & I7).
  exists t. split; [exact I1|]. split; [|split; [|exact I2]].
  - intros i j Hi Hj. rewrite mmul_abs. unfold mmul. rewrite (lu_row n (lu_a s) i j Hi Hj (fun x => x) eq_refl), (lu_row n (lu_a s) i j Hi Hj Rabs Rabs_R0).
    unfold add_diag. destruct (Nat.leb_spec i j) as [L|L].
    + assert (D := dotted_gamma u Hu n i _ _ _ Hn (I5 i j L Hj)). rewrite Rabs_minus_sym. destruct (Nat.eqb_spec i j) as [-> |]; exact D.
    + assert (D := dotted_gamma u Hu n j _ _ _ Hn (I6 i j (conj L Hi) Hj)). destruct (Nat.eqb_spec i j); [lia|]. rewrite Rplus_0_r, Rabs_minus_sym. exact D.
  - intros i Hi. destruct (I7 i Hi) as (N & [T|(T1 & T2 & _)]); [split; [exact N|left; exact T]|split; [exact N|right; split; assumption]].
Qed.
Print Assumptions C72_factorisation.


Lemma row_choice n (P : nat -> (nat -> R) -> Prop) : (forall i, (i < n)%nat -> exists y, P i y) -> exists y : mat, forall i, (i < n)%nat -> P i (y i).
Proof.
  induction n as [|n IH]; intros H; [exists (fun _ _ => 0); intros; lia|].
  destruct IH as (y & Hy); [intros; apply H; lia|]. destruct (H n ltac:(lia)) as (z & Hz).
  exists (fun i => if Nat.eqb i n then z else y i). intros i Hi. destruct (Nat.eqb_spec i n) as [-> |]; [exact Hz|apply Hy; lia].
Qed.
(** rows of the two triangular solves, with perturbed coefficients *)
Lemma lower_row u (Hu : 0 <= u < 1) n a i c y : (i < n)%nat -> INR n * u < 1 -> dotted u n i c (y i) (fun k => a i k * y k) ->
  exists l : nat -> R, c = rsum n (fun k => (unit_lower a i k + l k) * y k) /\ forall k, (k < n)%nat -> Rabs (l k) <= gamma u n * Rabs (unit_lower a i k).
Proof.
  intros Hi Hn (th & ph & T & Ph & E). exists (fun k => unit_lower a i k * ((if Nat.eqb k i then th else if Nat.ltb k i then ph k else 1) - 1)). split.
  - rewrite E. rewrite (rsum_cut n (S i)).
    + cbn [rsum]. rewrite Rplus_comm. f_equal.
      * apply rsum_ext. intros k Hk. unfold unit_lower. destruct (Nat.eqb_spec k i), (Nat.ltb_spec k i); try lia. ring.
      * rewrite Nat.eqb_refl. unfold unit_lower. destruct (Nat.ltb_spec i i); [lia|]. rewrite Nat.eqb_refl. ring.
    + lia.
    + intros k Hk. unfold unit_lower. destruct (Nat.eqb_spec k i), (Nat.ltb_spec k i); try lia. ring.
  - intros k Hk. rewrite Rabs_mult, Rmult_comm. apply Rmult_le_compat_r; [apply Rabs_pos|]. apply within_gamma; [exact Hu|exact Hn|].
    destruct (Nat.eqb_spec k i); [exact T|]. destruct (Nat.ltb_spec k i); [apply Ph; lia|apply within_1; exact Hu].
Qed.
Lemma upper_row u (Hu : 0 <= u < 1) n a i c x : (i < n)%nat -> INR n * u < 1 -> dotted u n (n - (i + 1)) c (a i i * x i) (fun e => a i (i + 1 + e)%nat * x (i + 1 + e)%nat) ->
  exists l : nat -> R, c = rsum n (fun k => (upper a i k + l k) * x k) /\ forall k, (k < n)%nat -> Rabs (l k) <= gamma u n * Rabs (upper a i k).
Proof.
  intros Hi Hn (th & ph & T & Ph & E). exists (fun k => upper a i k * ((if Nat.eqb k i then th else if Nat.ltb i k then ph (k - (i + 1))%nat else 1) - 1)). split.
  - rewrite E. replace n with (i + (1 + (n - (i + 1))))%nat at 2 by lia. rewrite !rsum_add. cbn [rsum]. rewrite (rsum_zero i).
    2: { intros k Hk. unfold upper. destruct (Nat.leb_spec i k); [lia|ring]. }
    rewrite !Rplus_0_l. rewrite Nat.add_0_r, Nat.eqb_refl. f_equal.
    + unfold upper. destruct (Nat.leb_spec i i); [ring|lia].
    + apply rsum_ext. intros e He. replace (i + (1 + e))%nat with (i + 1 + e)%nat by lia. unfold upper. destruct (Nat.eqb_spec (i + 1 + e) i), (Nat.ltb_spec i (i + 1 + e)), (Nat.leb_spec i (i + 1 + e)); try lia.
      replace (i + 1 + e - (i + 1))%nat with e by lia. ring.
  - intros k Hk. rewrite Rabs_mult, Rmult_comm. apply Rmult_le_compat_r; [apply Rabs_pos|]. apply within_gamma; [exact Hu|exact Hn|].
    destruct (Nat.eqb_spec k i); [exact T|]. destruct (Nat.ltb_spec i k); [apply Ph; lia|apply within_1; exact Hu].
Qed.

(** the two triangular solves give the exact solution of a system with perturbed factors *)
Lemma backsub_rows u rnd n a indx b : 0 <= u < 1 -> rounds u rnd -> INR n * u < 1 -> swaps_ok n indx -> (forall i, (i < n)%nat -> a i i <> 0) ->
  exists dL dU : mat, (forall i k, (i < n)%nat -> (k < n)%nat -> Rabs (dL i k) <= gamma u n * Rabs (unit_lower a i k) /\ Rabs (dU i k) <= gamma u n * Rabs (upper a i k)) /\
    forall i, (i < n)%nat -> mvec n (mmul n (fun i k => unit_lower a i k + dL i k) (fun i k => upper a i k + dU i k)) (LU_backsubf rnd n a indx b) i = b (perm indx n i).
Proof.
  intros Hu Hr Hn Hs Hp. unfold LU_backsubf. assert (F := forward_invf u rnd Hu Hr n a indx b Hs n (le_n n)). destruct (fold_up n (forward_stepf rnd a indx) (b, None)) as [y ii].
  destruct F as (_ & F & _). destruct (backward_invf u rnd Hu Hr n a Hp y n (le_n n)) as (_ & B). set (x := fold_up n (backward_stepf rnd n a) y) in *.
  destruct (row_choice n (fun i l => b (perm indx n i) = rsum n (fun k => (unit_lower a i k + l k) * y k) /\ forall k, (k < n)%nat -> Rabs (l k) <= gamma u n * Rabs (unit_lower a i k))) as (dL & HL).
  { intros i Hi. apply (lower_row u Hu n a i _ y Hi Hn). apply F. exact Hi. }
  destruct (row_choice n (fun i l => y i = rsum n (fun k => (upper a i k + l k) * x k) /\ forall k, (k < n)%nat -> Rabs (l k) <= gamma u n * Rabs (upper a i k))) as (dU & HU).
  { intros i Hi. apply (upper_row u Hu n a i _ x Hi Hn). apply B. lia. }
  exists dL, dU. split; [intros i k Hi Hk; split; [apply (HL i Hi); exact Hk|apply (HU i Hi); exact Hk]|].
  intros i Hi. unfold mvec, mmul. rewrite (rsum_ext n _ (fun k => rsum n (fun m => (unit_lower a i m + dL i m) * (upper a m k + dU m k) * x k))) by (intros; rewrite rsum_scal_r; reflexivity).
  rewrite rsum_swap. rewrite (rsum_ext n _ (fun m => (unit_lower a i m + dL i m) * y m)).
  - symmetry. apply (HL i Hi).
  - intros m Hm. rewrite (rsum_ext n _ (fun k => (unit_lower a i m + dL i m) * ((upper a m k + dU m k) * x k))) by (intros; ring). rewrite rsum_scal_l. f_equal.
    symmetry. apply (HU m Hm).
Qed.
Lemma rsum_abs_bound n (f g : nat -> R) c : (forall k, (k < n)%nat -> Rabs (f k) <= c * g k) -> Rabs (rsum n f) <= c * rsum n g.
Proof.
  induction n as [|n IH]; intros H; cbn [rsum]; [rewrite Rabs_R0; lra|]. eapply Rle_trans; [apply Rabs_triang|]. rewrite Rmult_plus_distr_l.
  apply Rplus_le_compat; [apply IH; intros; apply H; lia|apply H; lia].
Qed.

(** LU_decompos followed by LU_backsub solves a nearby system exactly *)
Theorem C72_solve : forall u rnd n A indx0 vv0 s b, 0 <= u < 1 -> rounds u rnd -> INR n * u < 1 ->
  LU_decomposf rnd n A indx0 vv0 = Some s ->
  let L := unit_lower (lu_a s) in let U := upper (lu_a s) in
  exists t (E : mat),
    (forall i, (i < n)%nat -> t i = 0 \/ (t i = rnd TINY /\ lu_a s i i = rnd TINY)) /\
    (forall i j, (i < n)%nat -> (j < n)%nat -> Rabs (E i j) <= (3 * gamma u n + gamma u n * gamma u n) * mmul n (mabs L) (mabs U) i j) /\
    forall i, (i < n)%nat ->
      mvec n (fun i j => add_diag (apply_swaps (lu_indx s) n A) t i j + E i j) (LU_backsubf rnd n (lu_a s) (lu_indx s) b) i =
      apply_swaps (lu_indx s) n (fun i _ => b i) i 0%nat.
Proof.
  intros u rnd n A indx0 vv0 s b Hu Hr Hn Es. cbv zeta. destruct (C72_factorisation u rnd n A indx0 vv0 s Hu Hr Hn Es) as (t & I1 & I2 & I3 & I4).
  set (a := lu_a s) in *. set (P := add_diag (apply_swaps (lu_indx s) n A) t) in *.
  destruct (backsub_rows u rnd n a (lu_indx s) b Hu Hr Hn I1 (fun i Hi => proj1 (I3 i Hi))) as (dL & dU & Bd & Sv).
  set (g := gamma u n) in *. assert (G0 : 0 <= g) by (apply gamma_nonneg; [exact Hu|exact Hn]).
  exists t, (fun i j => mmul n (fun i k => unit_lower a i k + dL i k) (fun i k => upper a i k + dU i k) i j - P i j). split; [intros i Hi; apply I3; exact Hi|]. split.
  - intros i j Hi Hj.
    replace (mmul n (fun i k => unit_lower a i k + dL i k) (fun i k => upper a i k + dU i k) i j - P i j) with
      ((mmul n (unit_lower a) (upper a) i j - P i j) + rsum n (fun k => (unit_lower a i k + dL i k) * (upper a k j + dU k j) - unit_lower a i k * upper a k j)).
    2: { rewrite rsum_minus. unfold mmul. ring. }
    eapply Rle_trans; [apply Rabs_triang|]. specialize (I2 i j Hi Hj).
    assert (B2 : Rabs (rsum n (fun k => (unit_lower a i k + dL i k) * (upper a k j + dU k j) - unit_lower a i k * upper a k j)) <= (2 * g + g * g) * mmul n (mabs (unit_lower a)) (mabs (upper a)) i j).
    { apply rsum_abs_bound. intros k Hk. unfold mabs. destruct (Bd i k Hi Hk) as (D1 & _). destruct (Bd k j Hk Hj) as (_ & D2).
      replace ((unit_lower a i k + dL i k) * (upper a k j + dU k j) - unit_lower a i k * upper a k j) with (unit_lower a i k * dU k j + dL i k * upper a k j + dL i k * dU k j) by ring.
      set (l := unit_lower a i k) in *. set (v := upper a k j) in *. set (dl := dL i k) in *. set (dv := dU k j) in *.
      eapply Rle_trans; [apply Rabs_triang|]. eapply Rle_trans; [apply Rplus_le_compat_r, Rabs_triang|]. rewrite !Rabs_mult.
      assert (Pl := Rabs_pos l). assert (Pv := Rabs_pos v). assert (Pdl := Rabs_pos dl). assert (Pdv := Rabs_pos dv).
      assert (Rabs l * Rabs dv <= Rabs l * (g * Rabs v)) by (apply Rmult_le_compat_l; assumption).
      assert (Rabs dl * Rabs v <= g * Rabs l * Rabs v) by (apply Rmult_le_compat_r; assumption).
      assert (Rabs dl * Rabs dv <= (g * Rabs l) * (g * Rabs v)) by (apply Rmult_le_compat; assumption). lra. }
    lra.
  - intros i Hi. rewrite apply_swaps_perm. rewrite <- (Sv i Hi). apply rsum_ext. intros k Hk. f_equal. unfold P. ring.
Qed.
Print Assumptions C72_solve.

(** every column of the computed inverse solves a nearby system exactly *)
Lemma backsubf_ext rnd n a indx b b' : swaps_ok n indx -> (forall i, (i < n)%nat -> b i = b' i) -> forall i, (i < n)%nat -> LU_backsubf rnd n a indx b i = LU_backsubf rnd n a indx b' i.
Proof.
  intros Hs H. unfold LU_backsubf.
  assert (F : forall m, (m <= n)%nat -> let '(y, ii) := fold_up m (forward_stepf rnd a indx) (b, None) in let '(y', ii') := fold_up m (forward_stepf rnd a indx) (b', None) in
    ii = ii' /\ (forall s, ii = Some s -> (s < m)%nat) /\ forall i, (i < n)%nat -> y i = y' i).
  { induction m as [|m IH]; intros Hm; cbn [fold_up]; [split; [reflexivity|split; [discriminate|exact H]]|]. specialize (IH ltac:(lia)).
    destruct (fold_up m _ (b, None)) as [y ii], (fold_up m _ (b', None)) as [y' ii']. destruct IH as (<- & Sm & IH).
    unfold forward_stepf. assert (Q := Hs m ltac:(lia)).
    assert (X : forall i, (i < n)%nat -> fset y (indx m) (y m) i = fset y' (indx m) (y' m) i) by (intros i Hi; unfold fset; rewrite (IH m) by lia; rewrite (IH i) by exact Hi; reflexivity).
    destruct ii as [s|].
    - split; [reflexivity|]. split; [intros s' E; injection E as <-; specialize (Sm s eq_refl); lia|].
      intros i Hi. destruct (Nat.eq_dec i m) as [->|Ne]; [|rewrite !(fset_neq _ i m) by exact Ne; apply X; exact Hi]. rewrite !(fset_eq _ m). rewrite (IH (indx m)) by lia.
      apply (fold_ext_sub rnd (m - s) (fun d => a m (s + d)%nat * fset y (indx m) (y m) (s + d)%nat) (fun d => a m (s + d)%nat * fset y' (indx m) (y' m) (s + d)%nat)).
      intros d Hd. rewrite X by (specialize (Sm s eq_refl); lia). reflexivity.
    - rewrite (IH (indx m)) by lia. split; [reflexivity|]. split; [destruct (Req_EM_T (y' (indx m)) 0); [discriminate|intros s E; injection E as <-; lia]|].
      intros i Hi. destruct (Nat.eq_dec i m) as [->|Ne]; [rewrite !(fset_eq _ m); reflexivity|rewrite !(fset_neq _ i m) by exact Ne; apply X; exact Hi]. }
  specialize (F n (le_n n)). destruct (fold_up n _ (b, None)) as [y ii], (fold_up n _ (b', None)) as [y' ii']. destruct F as (_ & _ & F).
  assert (G : forall d, (d <= n)%nat -> forall i, (i < n)%nat -> fold_up d (backward_stepf rnd n a) y i = fold_up d (backward_stepf rnd n a) y' i).
  { induction d as [|d IH]; intros Hd; cbn [fold_up]; [exact F|]. specialize (IH ltac:(lia)). intros i Hi.
    set (x := fold_up d (backward_stepf rnd n a) y) in *. set (x' := fold_up d (backward_stepf rnd n a) y') in *. unfold backward_stepf, fset.
    set (j := (n - 1 - d)%nat). rewrite (IH j) by (unfold j; lia). rewrite (IH i Hi). destruct (Nat.eqb i j); [|reflexivity].
    f_equal. f_equal. apply (fold_ext_sub rnd _ (fun e => a j (j + 1 + e)%nat * x (j + 1 + e)%nat) (fun e => a j (j + 1 + e)%nat * x' (j + 1 + e)%nat)). intros e He. rewrite IH by lia. reflexivity. }
  apply G. lia.
Qed.
Lemma invertf_cols rnd n a indx inv0 col0 : swaps_ok n indx -> forall i j, (i < n)%nat -> (j < n)%nat ->
  LU_invertf rnd n a indx inv0 col0 i j = LU_backsubf rnd n a indx (fun k => ident k j) i.
Proof.
  intros Hs. unfold LU_invertf.
  set (body := fun j st => _).
  assert (G : forall m, (m <= n)%nat -> forall i j, (i < n)%nat -> (j < m)%nat -> fst (fold_up m body (inv0, col0)) i j = LU_backsubf rnd n a indx (fun k => ident k j) i).
  { induction m as [|m IH]; intros Hm i j Hi Hj; [lia|]. cbn [fold_up]. specialize (IH ltac:(lia)). destruct (fold_up m body (inv0, col0)) as [inv col]. cbn [fst] in IH.
    unfold body. cbv zeta. set (c2 := LU_backsubf rnd n a indx _). cbn [fst].
    assert (F : forall r, (r <= n)%nat -> forall i j, (i < n)%nat -> fold_up (S:=mat) r (fun i inv => mset inv i m (c2 i)) inv i j = if (Nat.ltb i r && Nat.eqb j m)%bool then c2 i else inv i j).
    { induction r as [|r IHr]; intros Hr x y Hx; cbn [fold_up]; [reflexivity|]. unfold mset at 1. rewrite IHr by (lia || assumption).
      destruct (Nat.eqb_spec x r), (Nat.eqb_spec y m), (Nat.ltb_spec x r), (Nat.ltb_spec x (S r)); subst; simpl; try lia; reflexivity. }
    rewrite F by (lia || assumption). destruct (Nat.ltb_spec i n); [|lia]. simpl.
    destruct (Nat.eqb_spec j m) as [->|]; [|apply IH; lia].
    unfold c2. apply backsubf_ext; [exact Hs| |exact Hi]. intros k Hk. unfold fset at 1. unfold ident. destruct (Nat.eqb_spec k m); [reflexivity|]. apply fold_fset_zero. exact Hk. }
  intros i j Hi Hj. apply G; lia.
Qed.
Theorem C72_inverse : forall u rnd n A indx0 vv0 s inv0 col0 c, 0 <= u < 1 -> rounds u rnd -> INR n * u < 1 ->
  LU_decomposf rnd n A indx0 vv0 = Some s -> (c < n)%nat ->
  let L := unit_lower (lu_a s) in let U := upper (lu_a s) in let X := LU_invertf rnd n (lu_a s) (lu_indx s) inv0 col0 in
  exists t (E : mat),
    (forall i, (i < n)%nat -> t i = 0 \/ (t i = rnd TINY /\ lu_a s i i = rnd TINY)) /\
    (forall i j, (i < n)%nat -> (j < n)%nat -> Rabs (E i j) <= (3 * gamma u n + gamma u n * gamma u n) * mmul n (mabs L) (mabs U) i j) /\
    forall i, (i < n)%nat ->
      mmul n (fun i j => add_diag (apply_swaps (lu_indx s) n A) t i j + E i j) X i c = apply_swaps (lu_indx s) n ident i c.
Proof.
  intros u rnd n A indx0 vv0 s inv0 col0 c Hu Hr Hn Es Hc. cbv zeta.
  destruct (C72_solve u rnd n A indx0 vv0 s (fun k => ident k c) Hu Hr Hn Es) as (t & E & H1 & H2 & H3). exists t, E. split; [exact H1|]. split; [exact H2|].
  destruct (C72_factorisation u rnd n A indx0 vv0 s Hu Hr Hn Es) as (_ & I1 & _).
  intros i Hi. specialize (H3 i Hi). rewrite apply_swaps_perm in H3 |- *. rewrite <- H3. unfold mmul, mvec. apply rsum_ext. intros k Hk. rewrite invertf_cols by assumption. reflexivity.
Qed.
Print Assumptions C72_inverse.

(** the computed determinant is, up to n roundings, the determinant of a nearby matrix *)
Theorem C72_determinant : forall u rnd n A indx0 vv0 s, 0 <= u < 1 -> rounds u rnd -> INR n * u < 1 ->
  LU_decomposf rnd n A indx0 vv0 = Some s ->
  let L := unit_lower (lu_a s) in let U := upper (lu_a s) in
  exists t (E : mat) th,
    (forall i, (i < n)%nat -> t i = 0 \/ (t i = rnd TINY /\ lu_a s i i = rnd TINY)) /\
    (forall i j, (i < n)%nat -> (j < n)%nat -> Rabs (E i j) <= gamma u n * mmul n (mabs L) (mabs U) i j) /\
    Rabs th <= gamma u n /\
    LU_determf rnd n (lu_a s) (lu_parity s) = swap_sign (lu_indx s) n * det n (fun i j => add_diag (apply_swaps (lu_indx s) n A) t i j + E i j) * (1 + th).
Proof.
  intros u rnd n A indx0 vv0 s Hu Hr Hn Es. cbv zeta. destruct (C72_factorisation u rnd n A indx0 vv0 s Hu Hr Hn Es) as (t & I1 & I2 & I3 & I4).
  assert (W : forall m r, exists w, within u m w /\ LU_determf rnd m (lu_a s) r = r * rprod m (fun i => lu_a s i i) * w).
  { intros m r. unfold LU_determf. induction m as [|m (w & Ww & E)]; cbn [fold_up rprod]; [exists 1; split; [apply within_1; exact Hu|ring]|].
    rewrite E. destruct (rnd_w u Hu rnd Hr (r * rprod m (fun i => lu_a s i i) * w * lu_a s m m)) as (e & We & ->). exists (e * w). split; [apply (within_mul u Hu 1 m); assumption|ring]. }
  destruct (W n (lu_parity s)) as (w & Ww & Ew).
  exists t, (fun i j => mmul n (unit_lower (lu_a s)) (upper (lu_a s)) i j - add_diag (apply_swaps (lu_indx s) n A) t i j), (w - 1).
  split; [intros i Hi; apply I3; exact Hi|]. split; [exact I2|]. split; [apply within_gamma; assumption|].
  rewrite Ew, I4. rewrite (det_ext n _ (mmul n (unit_lower (lu_a s)) (upper (lu_a s)))) by (intros i j _ _; ring). rewrite det_LU. ring.
Qed.
Print Assumptions C72_determinant.

(** ** the wrong row scale makes elimination unstable *)
Section Exact.
Import Flocq.Core.Core.
Lemma b64_exact m e : (Z.abs m < 2 ^ 53)%Z -> binary64 (IZR m * bpow radix2 e) = IZR m * bpow radix2 e.
Proof.
  intros H. unfold binary64. apply round_generic; [typeclasses eauto|]. apply generic_format_FLX. exists (Float radix2 m e); [reflexivity|exact H].
Qed.
(** 2^e (2^53 m + r) with |r| < 1/2 rounds to 2^e 2^53 m *)
Lemma b64_near x k m : bpow radix2 (k - 1) <= Rabs x < bpow radix2 k -> Rabs (x * bpow radix2 (53 - k) - IZR m) < / 2 -> binary64 x = IZR m * bpow radix2 (k - 53).
Proof.
  intros H1 H2. unfold binary64, round, F2R, scaled_mantissa, cexp. rewrite (mag_unique radix2 x k H1). unfold FLX_exp. cbn [Fnum Fexp].
  replace (- (k - 53))%Z with (53 - k)%Z by lia. rewrite (Znearest_imp _ _ m H2). reflexivity.
Qed.
End Exact.

Definition big31 : R := 2147483648.   (* 2^31 *)
Definition big30 : R := 1073741824.   (* 2^30 *)
Definition big61 : R := 2305843009213693952. (* 2^61 *)
Section Values.
Import Flocq.Core.Core.
Lemma bp (k : Z) (v : Z) : (0 <= k)%Z -> (2 ^ k = v)%Z -> bpow radix2 k = IZR v.
Proof. intros H <-. rewrite <- IZR_Zpower by exact H. reflexivity. Qed.
Lemma bpn (k : Z) (v : Z) : (0 <= k)%Z -> (2 ^ k = v)%Z -> bpow radix2 (- k) = / IZR v.
Proof. intros H E. rewrite bpow_opp, (bp k v H E). reflexivity. Qed.
Lemma b64_int m : (Z.abs m < 2 ^ 53)%Z -> binary64 (IZR m) = IZR m.
Proof. intros H. assert (E := b64_exact m 0 H). change (bpow radix2 0) with 1 in E. rewrite Rmult_1_r in E. exact E. Qed.
Lemma b64_61 : binary64 big61 = big61.
Proof. assert (E := b64_exact 1 61 ltac:(lia)). rewrite (bp 61 2305843009213693952) in E by (lia || reflexivity). rewrite Rmult_1_l in E. exact E. Qed.
Lemma b64_m61 : binary64 (/ big61) = / big61.
Proof. assert (E := b64_exact 1 (- (61)) ltac:(lia)). rewrite (bpn 61 2305843009213693952) in E by (lia || reflexivity). rewrite Rmult_1_l in E. exact E. Qed.
Lemma b64_m60 : binary64 (/ big61 * 2) = / big61 * 2.
Proof. assert (E := b64_exact 2 (- (61)) ltac:(lia)). rewrite (bpn 61 2305843009213693952) in E by (lia || reflexivity). rewrite Rmult_comm in E. exact E. Qed.
(** 1 and 2 are lost beside 2^61 *)
Lemma b64_lost c : 0 < c <= 2 -> binary64 (c - big61) = - big61.
Proof.
  intros Hc. rewrite (b64_near (c - big61) 61 (- 2 ^ 53)).
  - change (61 - 53)%Z with 8%Z. rewrite (bp 8 256) by (lia || reflexivity). change (2 ^ 53)%Z with 9007199254740992%Z. unfold big61. rewrite opp_IZR. lra.
  - rewrite Rabs_left by (unfold big61; lra). change (61 - 1)%Z with 60%Z. rewrite (bp 60 1152921504606846976), (bp 61 2305843009213693952) by (lia || reflexivity). unfold big61. lra.
  - change (53 - 61)%Z with (- (8))%Z. rewrite (bpn 8 256) by (lia || reflexivity). change (2 ^ 53)%Z with 9007199254740992%Z. rewrite opp_IZR. apply Rabs_def1; unfold big61; lra.
Qed.
(** and a tiny number beside 1 *)
Lemma b64_tiny c : 0 < c <= / big61 * 2 -> binary64 (1 - c) = 1.
Proof.
  intros Hc. unfold big61 in Hc. rewrite (b64_near (1 - c) 0 (2 ^ 53)).
  - change (0 - 53)%Z with (- (53))%Z. rewrite (bpn 53 9007199254740992) by (lia || reflexivity). change (2 ^ 53)%Z with 9007199254740992%Z. lra.
  - rewrite Rabs_pos_eq by lra. change (0 - 1)%Z with (- (1))%Z. rewrite (bpn 1 2) by (lia || reflexivity). change (bpow radix2 0) with 1. lra.
  - change (53 - 0)%Z with 53%Z. rewrite (bp 53 9007199254740992) by (lia || reflexivity). change (2 ^ 53)%Z with 9007199254740992%Z. apply Rabs_def1; lra.
Qed.
End Values.

(** two equations whose first one is written in different units: multiplied by 2^31 or not *)
Definition system2 (p q : R) : mat := fun i j => match i, j with O, O => p | O, _ => q | _, _ => 1 end.
Definition rhs2 (q : R) : nat -> R := fun i => match i with O => q | _ => 2 end.

Ltac atomic_args a b := lazymatch constr:((a, b)) with context [Rlt_dec _ _] => fail | context [Rle_dec _ _] => fail | _ => idtac end.
Ltac dec_step := match goal with
  | |- context [Rlt_dec ?a ?b] => atomic_args a b; destruct (Rlt_dec a b); try (exfalso; lra)
  | |- context [Rle_dec ?a ?b] => atomic_args a b; destruct (Rle_dec a b); try (exfalso; lra)
  | |- context [Req_EM_T ?a ?b] => atomic_args a b; destruct (Req_EM_T a b); try (exfalso; lra)
  end.

(** unswapped run: first pivot p, multiplier m, second pivot v *)
Lemma run_plain (rnd : R -> R) p q indx0 vv0 b r m w v y x1 x0 :
  0 < p < q -> 1 < q -> rnd (q * p) = r -> rnd (1 * 1) = 1 -> 1 < r -> rnd (1 / p) = m -> rnd (1 * m) = m -> rnd (m * q) = w -> rnd (1 - w) = v -> 0 <= rnd (1 * Rabs v) -> v <> 0 ->
  b 0%nat <> 0 -> rnd (b 1%nat - rnd (m * b 0%nat)) = y -> rnd (y / v) = x1 -> rnd (rnd (b 0%nat - rnd (q * x1)) / p) = x0 ->
  exists s, LU_decomposf rnd 2 (system2 p q) indx0 vv0 = Some s /\ LU_backsubf rnd 2 (lu_a s) (lu_indx s) b 0%nat = x0 /\ LU_backsubf rnd 2 (lu_a s) (lu_indx s) b 1%nat = x1.
Proof.
  intros Hp Hq E1 E2 Hr E3 E4 E5 E6 Hv Nv Nb E7 E8 E9.
  assert (Sc : exists vv, lu_scale 2 (system2 p q) vv0 = Some vv /\ vv 0%nat = q /\ vv 1%nat = 1).
  { unfold lu_scale, row_big. cbn [fold_up system2]. rewrite !Rabs_R1, !(Rabs_pos_eq p), !(Rabs_pos_eq q) by lra. repeat dec_step. eexists. split; [reflexivity|]. split; reflexivity. }
  destruct Sc as (vv & Es & V0 & V1). unfold LU_decomposf. rewrite Es. eexists. split; [reflexivity|]. cbn [fold_up].
  (* column 0 *)
  set (s0 := {| lu_a := system2 p q; lu_indx := indx0; lu_parity := 1; lu_vv := vv |}).
  assert (A0 : let s := crout_colf rnd 2 0 s0 in lu_a s 0%nat 0%nat = p /\ lu_a s 0%nat 1%nat = q /\ lu_a s 1%nat 0%nat = m /\ lu_a s 1%nat 1%nat = 1 /\ lu_indx s 0%nat = 0%nat /\ lu_vv s 1%nat = 1).
  { unfold crout_colf, part_af, part_bf, dot_subf, s0. cbn [fold_up lu_a lu_vv lu_indx lu_parity Nat.sub Nat.add]. cbn [mset Nat.eqb andb system2].
    unfold mset. cbn [Nat.eqb andb system2]. rewrite V0, (Rabs_pos_eq p), E1 by lra. destruct (Rle_dec 0 r); [|exfalso; lra]. cbn [Nat.eqb andb system2].
    rewrite V1, Rabs_R1, E2. destruct (Rle_dec r 1); [exfalso; lra|]. cbn [Nat.eqb negb lu_a lu_vv lu_indx].
    unfold scale_colf. cbn [Nat.ltb Nat.leb Nat.sub Nat.add Nat.eqb andb system2].
    destruct (Req_EM_T p 0); [exfalso; lra|]. cbn [fold_up Nat.eqb andb system2 Nat.add]. unfold mset. cbn [Nat.eqb andb system2]. rewrite E3, E4. repeat split; try reflexivity; try exact V1. }
  cbv zeta in A0. set (s1 := crout_colf rnd 2 0 s0) in *. destruct A0 as (a00 & a01 & a10 & a11 & i0 & v1).
  assert (A1 : let s := crout_colf rnd 2 1 s1 in lu_a s 0%nat 0%nat = p /\ lu_a s 0%nat 1%nat = q /\ lu_a s 1%nat 0%nat = m /\ lu_a s 1%nat 1%nat = v /\ lu_indx s 0%nat = 0%nat /\ lu_indx s 1%nat = 1%nat).
  { unfold crout_colf, part_af, part_bf, dot_subf. cbn [fold_up Nat.sub Nat.add]. unfold mset. cbn [Nat.eqb andb]. rewrite a01, a10, a11, v1, E5, E6.
    destruct (Rle_dec 0 (rnd (1 * Rabs v))); [|exfalso; lra]. cbn [Nat.eqb negb lu_a lu_vv lu_indx].
    unfold scale_colf. cbn [Nat.ltb Nat.leb Nat.sub Nat.add Nat.eqb andb].
    destruct (Req_EM_T v 0); [exfalso; lra|]. cbn [Nat.eqb andb fset]. unfold fset. cbn [Nat.eqb]. repeat split; assumption || reflexivity. }
  cbv zeta in A1. set (s2 := crout_colf rnd 2 1 s1) in *. clearbody s2. clear a00 a01 a10 a11 i0. destruct A1 as (a00 & a01 & a10 & a11 & i0 & i1).
  unfold LU_backsubf. cbn [fold_up]. unfold forward_stepf. rewrite i0, i1.
  destruct (Req_EM_T (b 0%nat) 0); [contradiction|]. cbn [fold_up Nat.sub Nat.add]. unfold fset, backward_stepf. cbn [Nat.eqb Nat.sub Nat.add fold_up]. unfold fset. cbn [Nat.eqb].
  rewrite a10, a00, a01, a11, E7, E8, E9. split; reflexivity.
Qed.

(** run with an interchange in the first column *)
Lemma run_swapped (rnd : R -> R) p indx0 vv0 (b : nat -> R) t m w v y x1 x0 :
  0 < p < 1 -> rnd (1 * p) = t -> t <= 1 -> 0 <= t -> rnd (1 * 1) = 1 -> rnd (1 / 1) = 1 -> rnd (p * 1) = m -> rnd (m * 1) = w -> rnd (1 - w) = v -> 0 <= rnd (1 * Rabs v) -> v <> 0 ->
  b 1%nat <> 0 -> rnd (b 0%nat - rnd (m * b 1%nat)) = y -> rnd (y / v) = x1 -> rnd (rnd (b 1%nat - rnd (1 * x1)) / 1) = x0 ->
  exists s, LU_decomposf rnd 2 (system2 p 1) indx0 vv0 = Some s /\ LU_backsubf rnd 2 (lu_a s) (lu_indx s) b 0%nat = x0 /\ LU_backsubf rnd 2 (lu_a s) (lu_indx s) b 1%nat = x1.
Proof.
  intros Hp E1 T1 T0 E2 E3 E4 E5 E6 Hv Nv Nb E7 E8 E9.
  assert (Sc : exists vv, lu_scale 2 (system2 p 1) vv0 = Some vv /\ vv 0%nat = 1 /\ vv 1%nat = 1).
  { unfold lu_scale, row_big. cbn [fold_up system2]. rewrite !Rabs_R1, !(Rabs_pos_eq p) by lra. repeat dec_step. eexists. split; [reflexivity|]. split; reflexivity. }
  destruct Sc as (vv & Es & V0 & V1). unfold LU_decomposf. rewrite Es. eexists. split; [reflexivity|]. cbn [fold_up].
  set (s0 := {| lu_a := system2 p 1; lu_indx := indx0; lu_parity := 1; lu_vv := vv |}).
  assert (A0 : let s := crout_colf rnd 2 0 s0 in lu_a s 0%nat 0%nat = 1 /\ lu_a s 0%nat 1%nat = 1 /\ lu_a s 1%nat 0%nat = m /\ lu_a s 1%nat 1%nat = 1 /\ lu_indx s 0%nat = 1%nat /\ lu_vv s 1%nat = 1).
  { unfold crout_colf, part_af, part_bf, dot_subf, s0. cbn [fold_up lu_a lu_vv lu_indx lu_parity Nat.sub Nat.add]. cbn [mset Nat.eqb andb system2].
    unfold mset. cbn [Nat.eqb andb system2]. rewrite V0, (Rabs_pos_eq p), E1 by lra. destruct (Rle_dec 0 t); [|exfalso; lra]. cbn [Nat.eqb andb system2].
    rewrite V1, Rabs_R1, E2. destruct (Rle_dec t 1); [|exfalso; lra]. cbn [Nat.eqb negb lu_a lu_vv lu_indx].
    unfold scale_colf, swap_rows. cbn [Nat.ltb Nat.leb Nat.sub Nat.add Nat.eqb andb system2 fold_up]. unfold mset. cbn [Nat.eqb andb system2].
    destruct (Req_EM_T 1 0); [exfalso; lra|]. cbn [fold_up Nat.eqb andb system2 Nat.add]. unfold mset, fset. cbn [Nat.eqb andb system2]. rewrite E3, E4. repeat split; reflexivity || exact V0 || exact V1. }
  cbv zeta in A0. set (s1 := crout_colf rnd 2 0 s0) in *. destruct A0 as (a00 & a01 & a10 & a11 & i0 & v1).
  assert (A1 : let s := crout_colf rnd 2 1 s1 in lu_a s 0%nat 0%nat = 1 /\ lu_a s 0%nat 1%nat = 1 /\ lu_a s 1%nat 0%nat = m /\ lu_a s 1%nat 1%nat = v /\ lu_indx s 0%nat = 1%nat /\ lu_indx s 1%nat = 1%nat).
  { unfold crout_colf, part_af, part_bf, dot_subf. cbn [fold_up Nat.sub Nat.add]. unfold mset. cbn [Nat.eqb andb]. rewrite a01, a10, a11, v1, E5, E6.
    destruct (Rle_dec 0 (rnd (1 * Rabs v))); [|exfalso; lra]. cbn [Nat.eqb negb lu_a lu_vv lu_indx].
    unfold scale_colf. cbn [Nat.ltb Nat.leb Nat.sub Nat.add Nat.eqb andb].
    destruct (Req_EM_T v 0); [exfalso; lra|]. cbn [Nat.eqb andb fset]. unfold fset. cbn [Nat.eqb]. repeat split; assumption || reflexivity. }
  cbv zeta in A1. set (s2 := crout_colf rnd 2 1 s1) in *. clearbody s2. clear a00 a01 a10 a11 i0. destruct A1 as (a00 & a01 & a10 & a11 & i0 & i1).
  unfold LU_backsubf. cbn [fold_up]. unfold forward_stepf. rewrite i0, i1.
  destruct (Req_EM_T (b 1%nat) 0); [contradiction|]. cbn [fold_up Nat.sub Nat.add]. unfold fset, backward_stepf. cbn [Nat.eqb Nat.sub Nat.add fold_up]. unfold fset. cbn [Nat.eqb].
  rewrite a10, a00, a01, a11, E7, E8, E9. split; reflexivity.
Qed.

(** in doubles: written with its first equation times 2^31 the system is solved wrongly (first unknown 0 instead of
    1), written without that factor it is solved correctly - the row scale of LU_decompos is the row maximum where
    implicit scaling needs its inverse, so the pivot search prefers the row with the larger units *)
Theorem C72_row_scale_unstable : forall indx0 vv0,
  (exists s, LU_decomposf binary64 2 (system2 (/ big30) big31) indx0 vv0 = Some s /\
    LU_backsubf binary64 2 (lu_a s) (lu_indx s) (rhs2 big31) 0%nat = 0 /\ LU_backsubf binary64 2 (lu_a s) (lu_indx s) (rhs2 big31) 1%nat = 1) /\
  (exists s, LU_decomposf binary64 2 (system2 (/ big61) 1) indx0 vv0 = Some s /\
    LU_backsubf binary64 2 (lu_a s) (lu_indx s) (rhs2 1) 0%nat = 1 /\ LU_backsubf binary64 2 (lu_a s) (lu_indx s) (rhs2 1) 1%nat = 1) /\
  (forall j, system2 (/ big30) big31 0%nat j = big31 * system2 (/ big61) 1 0%nat j) /\ rhs2 big31 0%nat = big31 * rhs2 1 0%nat /\
  exists x, (forall i, (i < 2)%nat -> mvec 2 (system2 (/ big30) big31) x i = rhs2 big31 i /\ mvec 2 (system2 (/ big61) 1) x i = rhs2 1 i) /\ Rabs (x 0%nat - 1) <= / 2 ^ 60.
Proof.
  intros indx0 vv0.
  assert (I0 := b64_int 0 ltac:(lia)). assert (I1 := b64_int 1 ltac:(lia)). assert (I2 := b64_int 2 ltac:(lia)). assert (I30 : binary64 big30 = big30) by (apply (b64_int 1073741824); lia). assert (I31 : binary64 big31 = big31) by (apply (b64_int 2147483648); lia).
  assert (I61 := b64_61). assert (J61 := b64_m61). assert (J60 := b64_m60).
  assert (B30 : big30 = 1073741824) by reflexivity. assert (B31 : big31 = 2147483648) by reflexivity. assert (B61 : big61 = 2305843009213693952) by reflexivity.
  assert (P : big30 * big31 = big61) by (rewrite B30, B31, B61; lra).
  split; [|split; [|split; [|split]]].
  - apply (run_plain binary64 (/ big30) big31 indx0 vv0 (rhs2 big31) 2 big30 big61 (- big61) (- big61) 1 0).
    + rewrite B30, B31. lra.
    + rewrite B31. lra.
    + replace (big31 * / big30) with 2 by (rewrite B30, B31; lra). exact I2.
    + rewrite Rmult_1_r. exact I1.
    + lra.
    + replace (1 / / big30) with big30 by (rewrite B30; field). exact I30.
    + rewrite Rmult_1_l. exact I30.
    + rewrite P. exact I61.
    + apply b64_lost. lra.
    + rewrite Rmult_1_l, Rabs_Ropp, Rabs_pos_eq by (rewrite B61; lra). rewrite I61, B61. lra.
    + rewrite B61. lra.
    + cbn [rhs2]. rewrite B31. lra.
    + cbn [rhs2]. rewrite P, I61. apply b64_lost. lra.
    + replace (- big61 / - big61) with 1 by (field; rewrite B61; lra). exact I1.
    + cbn [rhs2]. rewrite Rmult_1_r, I31. replace (big31 - big31) with 0 by ring. rewrite I0. unfold Rdiv. rewrite Rmult_0_l. exact I0.
  - apply (run_swapped binary64 (/ big61) indx0 vv0 (rhs2 1) (/ big61) (/ big61) (/ big61) 1 1 1 1).
    + rewrite B61. lra.
    + rewrite Rmult_1_l. exact J61.
    + rewrite B61. lra.
    + rewrite B61. lra.
    + rewrite Rmult_1_r. exact I1.
    + replace (1 / 1) with 1 by field. exact I1.
    + rewrite Rmult_1_r. exact J61.
    + rewrite Rmult_1_r. exact J61.
    + apply b64_tiny. rewrite B61. lra.
    + rewrite Rabs_R1, Rmult_1_r, I1. lra.
    + lra.
    + cbn [rhs2]. lra.
    + cbn [rhs2]. rewrite J60. apply b64_tiny. rewrite B61. lra.
    + replace (1 / 1) with 1 by field. exact I1.
    + cbn [rhs2]. rewrite Rmult_1_r, I1. replace (2 - 1) with 1 by ring. rewrite I1. replace (1 / 1) with 1 by field. exact I1.
  - intros [|j]; cbn [system2]; rewrite B31; [rewrite B30, B61|]; lra.
  - cbn [rhs2]. ring.
  - exists (fun i => match i with O => big61 / (big61 - 1) | _ => (big61 - 2) / (big61 - 1) end). split.
    + intros i Hi. destruct i as [|[|i]]; [| |lia]; unfold mvec; cbn [rsum system2 rhs2]; rewrite ?B30, ?B31, B61; split; lra.
    + rewrite B61, (pow_IZR 2 60). change (2 ^ Z.of_nat 60)%Z with 1152921504606846976%Z. apply Rabs_le. split; lra.
Qed.
Print Assumptions C72_row_scale_unstable.
(** the hypotheses of the error theorems hold: doubles, dimension 1000 for instance, and a factorisation *)
Example C72_nonvacuous : rounds u64 binary64 /\ 0 <= u64 < 1 /\ INR 1000 * u64 < 1 /\ exists s, LU_decomposf binary64 2 (system2 (/ big30) big31) (fun _ => O) (fun _ => 0) = Some s.
Proof.
  split; [exact binary64_rounds|]. assert (U := u64_range). split; [lra|]. split.
  - unfold u64. rewrite INR_IZR_INZ, (pow_IZR 2 53). change (Z.of_nat 1000) with 1000%Z. change (2 ^ Z.of_nat 53)%Z with 9007199254740992%Z. lra.
  - destruct (C72_row_scale_unstable (fun _ => O) (fun _ => 0)) as ((s & E & _) & _). exists s. exact E.
Qed.
