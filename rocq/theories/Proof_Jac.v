From Coq Require Import Reals List Arith Lra Lia.
Import ListNotations.
Require Import Verif.Base Verif.RBase Verif.RSum Verif.NatSum Verif.Spec_Mat Verif.Det Verif.Model_Jac.
Open Scope R_scope.

Ltac idx i n := repeat (destruct i as [|i]; [|try lia]).

Lemma det_cofactor_det3 m : det_cofactor m = det3 m.
Proof. unfold det_cofactor, det3. ring. Qed.

Lemma mat_inverse_ok m : det3 m <> 0 -> exists B, mat_inverse m = Ok B /\ is_inverse 3 m B.
Proof.
  intros D. unfold mat_inverse. rewrite rdiv_ok by (rewrite det_cofactor_det3; exact D). cbn [bind].
  eexists. split; [reflexivity|]. rewrite det_cofactor_det3.
  split; intros i j Hi Hj; destruct i as [|[|[|i]]]; try lia; destruct j as [|[|[|j]]]; try lia;
    unfold mmul, rows, ident; cbn [rsum nth Nat.eqb]; unfold det3 in *; field; exact D.
Qed.
Lemma mat_inverse_err m : det3 m = 0 -> mat_inverse m = Err DivZero.
Proof. intros D. unfold mat_inverse. rewrite det_cofactor_det3, D, rdiv_zero. reflexivity. Qed.

Lemma inverse_2d_ok J : det2 J <> 0 -> exists B, jacobian_inverse_2d J = Ok B /\ is_inverse 2 J B.
Proof.
  intros D. unfold jacobian_inverse_2d. cbv zeta. fold (det2 J). rewrite !rdiv_ok by exact D. cbn [bind].
  eexists. split; [reflexivity|].
  split; intros i j Hi Hj; destruct i as [|[|i]]; try lia; destruct j as [|[|j]]; try lia;
    unfold mmul, rows, ident; cbn [rsum nth Nat.eqb]; unfold det2 in *; field; exact D.
Qed.
Lemma inverse_2d_err J : det2 J = 0 -> jacobian_inverse_2d J = Err DivZero.
Proof. intros D. unfold jacobian_inverse_2d. cbv zeta. fold (det2 J). rewrite D, rdiv_zero. reflexivity. Qed.

Lemma det4_formula J : det 4 J = snd (jacobian_4d 0 0 J J J).
Proof. unfold jacobian_4d, jac_fill. cbn [fold_up snd]. cbn. unfold minor0, skip. cbn. ring. Qed.


Definition adj4 (J : mat) : mat := fun i j => inv4 (fun k => J (k / 4)%nat (k mod 4)%nat) (4 * i + j).
Lemma adj4_mul J i j : (i < 4)%nat -> (j < 4)%nat ->
  mmul 4 J (adj4 J) i j = det 4 J * ident i j /\ mmul 4 (adj4 J) J i j = det 4 J * ident i j.
Proof.
  intros Hi Hj. rewrite det4_formula. unfold jacobian_4d, jac_fill. cbn [fold_up snd].
  destruct i as [|[|[|[|i]]]]; try lia; destruct j as [|[|[|[|j]]]]; try lia;
    unfold mmul, ident, adj4; cbn [rsum Nat.eqb]; cbn; split; ring.
Qed.
Lemma inverse_4d_ok J : det 4 J <> 0 -> exists B, jacobian_inverse_4d J (det 4 J) = Ok B /\ is_inverse 4 J B.
Proof.
  intros D. unfold jacobian_inverse_4d. rewrite rdiv_ok by exact D. cbn [bind]. eexists. split; [reflexivity|].
  split; intros i j Hi Hj; destruct (adj4_mul J i j Hi Hj) as (E1 & E2).
  - transitivity (mmul 4 J (adj4 J) i j * (1 / det 4 J)).
    + unfold mmul. rewrite <- rsum_scal_r. apply rsum_ext. intros k Hk. fold (adj4 J k j). ring.
    + rewrite E1. field. exact D.
  - transitivity (mmul 4 (adj4 J) J i j * (1 / det 4 J)).
    + unfold mmul. rewrite <- rsum_scal_r. apply rsum_ext. intros k Hk. fold (adj4 J i k). ring.
    + rewrite E2. field. exact D.
Qed.
Lemma inverse_4d_given J d B : jacobian_inverse_4d J d = Ok B -> is_inverse 4 J B -> d = det 4 J.
Proof.
  intros H (R & _). unfold jacobian_inverse_4d in H. destruct (Req_EM_T d 0) as [->|Nd]; [rewrite rdiv_zero in H; discriminate|].
  rewrite rdiv_ok in H by exact Nd. cbn [bind] in H. injection H as <-.
  assert (E := R O O ltac:(lia) ltac:(lia)). destruct (adj4_mul J O O ltac:(lia) ltac:(lia)) as (E1 & _).
  assert (X : mmul 4 J (fun i j => inv4 (fun k => J (k / 4)%nat (k mod 4)%nat) (4 * i + j) * (1 / d)) O O = mmul 4 J (adj4 J) O O * (1 / d)).
  { unfold mmul. rewrite <- rsum_scal_r. apply rsum_ext. intros k Hk. fold (adj4 J k O). ring. }
  apply (eq_trans (eq_sym X)) in E. rewrite E1 in E. unfold ident in E. cbn [Nat.eqb] in E. apply (Rmult_eq_reg_r (1 / d)).
  - rewrite Rmult_1_r in E. rewrite E. field. exact Nd.
  - unfold Rdiv. rewrite Rmult_1_l. apply Rinv_neq_0_compat. exact Nd.
Qed.

(** ** assembled matrices *)
Lemma set2_eq a i j v : set2 a i j v i j = v.
Proof. unfold set2. rewrite !Nat.eqb_refl. reflexivity. Qed.
Lemma set2_neq a i j v r c : r <> i \/ c <> j -> set2 a i j v r c = a r c.
Proof. intros H. unfold set2. destruct (Nat.eqb_spec r i), (Nat.eqb_spec c j); simpl; try reflexivity. lia. Qed.

(** accumulation into one entry *)
Lemma acc_entry n (f : nat -> R) i j (J : mat) :
  let J' := fold_up (S:=mat) n (fun v J => set2 J i j (J i j + f v)) J in
  J' i j = J i j + rsum n f /\ forall r c, r <> i \/ c <> j -> J' r c = J r c.
Proof.
  induction n as [|n (IH1 & IH2)]; cbn [fold_up rsum]; [split; [ring|reflexivity]|]. cbv zeta. split.
  - rewrite set2_eq, IH1. ring.
  - intros r c H. rewrite set2_neq by exact H. apply IH2. exact H.
Qed.
(** a double loop whose body sets entry (i,j) to [g i j old] and touches nothing else *)
Lemma fill2 d1 d2 (body : nat -> nat -> mat -> mat) (g : nat -> nat -> R -> R) (J : mat) :
  (forall i j J, body i j J i j = g i j (J i j)) -> (forall i j J r c, r <> i \/ c <> j -> body i j J r c = J r c) ->
  forall r c, fold_up d1 (fun i J => fold_up d2 (fun j J => body i j J) J) J r c = if (Nat.ltb r d1 && Nat.ltb c d2)%bool then g r c (J r c) else J r c.
Proof.
  intros H1 H2. induction d1 as [|d1 IH]; intros r c; cbn [fold_up]; [reflexivity|].
  set (J1 := fold_up d1 _ J) in *.
  assert (Row : forall m, fold_up m (fun j J => body d1 j J) J1 r c = if (Nat.eqb r d1 && Nat.ltb c m)%bool then g r c (J1 r c) else J1 r c).
  { induction m as [|m IHm]; cbn [fold_up]; [rewrite Bool.andb_false_r; reflexivity|].
    destruct (Nat.eqb_spec r d1) as [->|Nr]; cbn [andb] in *.
    - destruct (Nat.eq_dec c m) as [->|Nc].
      + rewrite H1, IHm. destruct (Nat.ltb_spec m m), (Nat.ltb_spec m (S m)); try lia. reflexivity.
      + rewrite H2 by lia. rewrite IHm. destruct (Nat.ltb_spec c m), (Nat.ltb_spec c (S m)); try lia; reflexivity.
    - rewrite H2 by lia. exact IHm. }
  rewrite Row, IH. destruct (Nat.eqb_spec r d1) as [->|]; cbn [andb].
  - destruct (Nat.ltb_spec d1 d1), (Nat.ltb_spec d1 (S d1)); try lia. reflexivity.
  - destruct (Nat.ltb_spec r d1), (Nat.ltb_spec r (S d1)); try lia; reflexivity.
Qed.

Lemma jac_fill_spec dim nv X P J0 i j : (i < dim)%nat -> (j < dim)%nat -> jac_fill dim nv X P J0 i j = rsum nv (fun v => X v j * P v i).
Proof.
  intros Hi Hj. unfold jac_fill. cbv zeta.
  rewrite (fill2 dim dim (fun j k J => fold_up nv (fun v J => set2 J j k (J j k + X v k * P v j)) J) (fun j k x => x + rsum nv (fun v => X v k * P v j))).
  - rewrite (fill2 dim dim (fun j k J => set2 J j k 0) (fun _ _ _ => 0)).
    + destruct (Nat.ltb_spec i dim), (Nat.ltb_spec j dim); try lia. cbn [andb]. ring.
    + intros. apply set2_eq.
    + intros. apply set2_neq. assumption.
  - intros a b J. apply (acc_entry nv (fun v => X v b * P v a)).
  - intros a b J r c H. apply (acc_entry nv (fun v => X v b * P v a)). exact H.
Qed.

Lemma jacobian_2d_spec nv X P J0 : let '(J, d) := jacobian_2d nv X P J0 in
  (forall i j, (i < 2)%nat -> (j < 2)%nat -> J i j = rsum nv (fun v => X v j * P v i)) /\ d = det2 J.
Proof. unfold jacobian_2d. split; [intros; apply jac_fill_spec; assumption|reflexivity]. Qed.
Lemma jacobian_4d_spec nv X P J0 : let '(J, d) := jacobian_4d nv 4 X P J0 in
  (forall i j, (i < 4)%nat -> (j < 4)%nat -> J i j = rsum nv (fun v => X v j * P v i)) /\ d = det 4 J.
Proof. unfold jacobian_4d. split; [intros; apply jac_fill_spec; assumption|]. rewrite det4_formula. reflexivity. Qed.
Lemma jacobian_3d_spec nv X P J0 : let '(J, d) := jacobian_3d nv X P J0 in
  (forall i j, (i < 3)%nat -> (j < 3)%nat -> J i j = rsum nv (fun v => X v j * P v i)) /\
  d = det3 J - (J 2%nat 1%nat * J 1%nat 2%nat * (1 - J 0%nat 0%nat) + J 2%nat 0%nat * J 1%nat 2%nat * (1 + J 0%nat 1%nat) + J 2%nat 0%nat * J 1%nat 1%nat * (1 - J 0%nat 2%nat)).
Proof. unfold jacobian_3d. split; [intros; apply jac_fill_spec; assumption|]. unfold det3. ring. Qed.

(** ** geometry loops *)
Lemma point_jacobian_spec nb vmap N X grad e l J0 i j :
  point_jacobian nb vmap N X grad e l J0 i j =
  if (Nat.ltb i 3 && Nat.ltb j 3)%bool then rsum nb (fun v => grad l v j * X (N e (vmap v)) i) else J0 i j.
Proof.
  unfold point_jacobian.
  apply (fill2 3 3 (fun i j J => fold_up nb (fun v J => set2 J i j (J i j + grad l v j * X (N e (vmap v)) i)) (set2 J i j 0)) (fun i j _ => rsum nb (fun v => grad l v j * X (N e (vmap v)) i))).
  - intros a b J. destruct (acc_entry nb (fun v => grad l v b * X (N e (vmap v)) a) a b (set2 J a b 0)) as (E & _). rewrite E, set2_eq. ring.
  - intros a b J r c H. destruct (acc_entry nb (fun v => grad l v b * X (N e (vmap v)) a) a b (set2 J a b 0)) as (_ & E). rewrite E by exact H. apply set2_neq. exact H.
Qed.

Section Pt.
Context (ne np nb : nat) (gid : nat -> nat -> nat) (vmap : nat -> nat) (N : nat -> nat -> nat) (X : nat -> nat -> R) (grad : nat -> nat -> nat -> R) (T0 : jac_tab).
Hypothesis inj : forall e l e' l', (e < ne)%nat -> (e' < ne)%nat -> (l < np)%nat -> (l' < np)%nat -> gid e l = gid e' l' -> e = e' /\ l = l'.

Definition pt_ok (T : jac_tab) (e l : nat) : Prop :=
  (forall i j, (i < 3)%nat -> (j < 3)%nat -> t_jac T (gid e l) i j = rsum nb (fun v => grad l v j * X (N e (vmap v)) i)) /\
  t_det T (gid e l) = det3 (t_jac T (gid e l)) /\ t_inv T (gid e l) = mat_inverse (t_jac T (gid e l)).
Definition done (me ml e l : nat) : Prop := (e < me)%nat /\ (l < np)%nat \/ e = me /\ (l < ml)%nat.
Definition ptI (me ml : nat) (T : jac_tab) : Prop :=
  (forall e l, done me ml e l -> pt_ok T e l) /\
  (forall g, (forall e l, done me ml e l -> gid e l <> g) -> t_jac T g = t_jac T0 g /\ t_det T g = t_det T0 g /\ t_inv T g = t_inv T0 g).

Lemma pt_inner me : (me < ne)%nat -> forall T, ptI me 0 T -> forall ml, (ml <= np)%nat -> ptI me ml (fold_up ml (fun l T =>
    let g := gid me l in
    let J := point_jacobian nb vmap N X grad me l (t_jac T g) in
    {| t_jac := fset (t_jac T) g J; t_det := fset (t_det T) g (det_cofactor J); t_inv := fset (t_inv T) g (mat_inverse J) |}) T).
Proof.
  intros Hme T H0. induction ml as [|ml IH]; intros Hml; cbn [fold_up]; [exact H0|]. specialize (IH ltac:(lia)).
  set (T1 := fold_up ml _ T) in *. cbv zeta. set (g := gid me ml). set (J := point_jacobian _ _ _ _ _ _ _ _). destruct IH as (P & Q). split.
  - intros e l D. unfold pt_ok. cbn [t_jac t_det t_inv].
    destruct (Nat.eq_dec e me) as [->|Ne]; [destruct (Nat.eq_dec l ml) as [->|Nl]|].
    + fold g. rewrite !fset_eq. split; [|split; [apply det_cofactor_det3|reflexivity]]. intros i j Hi Hj. unfold J. rewrite point_jacobian_spec.
      destruct (Nat.ltb_spec i 3), (Nat.ltb_spec j 3); try lia. reflexivity.
    + assert (D' : done me ml me l) by (unfold done in *; lia). assert (NE : gid me l <> g) by (intros E; unfold g in E; apply inj in E; unfold done in *; lia).
      rewrite !fset_neq by exact NE. apply P. exact D'.
    + assert (D' : done me ml e l) by (unfold done in *; lia). assert (NE : gid e l <> g) by (intros E; unfold g in E; apply inj in E; unfold done in *; lia).
      rewrite !fset_neq by exact NE. apply P. exact D'.
  - intros h Hh. cbn [t_jac t_det t_inv]. assert (NE : h <> g) by (intros E; apply (Hh me ml); [unfold done; lia|symmetry; exact E]).
    rewrite !fset_neq by exact NE. apply Q. intros e l D. apply Hh. unfold done in *; lia.
Qed.
Lemma pt_all : ptI ne 0 (get_pt_jacobian ne np nb gid vmap N X grad T0).
Proof.
  unfold get_pt_jacobian.
  assert (G : forall me, (me <= ne)%nat -> ptI me 0 (fold_up me (fun e T => fold_up np (fun l T =>
    let g := gid e l in
    let J := point_jacobian nb vmap N X grad e l (t_jac T g) in
    {| t_jac := fset (t_jac T) g J; t_det := fset (t_det T) g (det_cofactor J); t_inv := fset (t_inv T) g (mat_inverse J) |}) T) T0)).
  { induction me as [|me IH]; intros Hme; cbn [fold_up].
    - split; [intros e l D; unfold done in D; lia|]. intros; repeat split; reflexivity.
    - assert (I := pt_inner me ltac:(lia) _ (IH ltac:(lia)) np (le_n np)). destruct I as (P & Q). split.
      + intros e l D. apply P. unfold done in *; lia.
      + intros g Hg. apply Q. intros e l D. apply Hg. unfold done in *; lia. }
  apply G. lia.
Qed.
End Pt.

Lemma pt_in_elem_inj n e l e' l' : (l < n)%nat -> (l' < n)%nat -> pt_in_elem n e l = pt_in_elem n e' l' -> e = e' /\ l = l'.
Proof.
  unfold pt_in_elem. intros H1 H2 H. assert (e = e').
  { assert (E1 : ((e * n + l) / n = e)%nat) by (rewrite Nat.div_add_l by lia; rewrite Nat.div_small by lia; lia).
    assert (E2 : ((e' * n + l') / n = e')%nat) by (rewrite Nat.div_add_l by lia; rewrite Nat.div_small by lia; lia).
    rewrite <- E1, <- E2, H. reflexivity. }
  subst. split; [reflexivity|lia].
Qed.

(** ** get_vol_jacobi *)
Lemma vol_corner_sum detj gic wt NC X c lid m :
  fold_up m (vol_jacobi_corner detj gic wt NC X c lid) (0, 0, 0, 0) =
  (rsum m (fun l => detj (gic c l) * wt lid l), rsum m (fun l => X (NC c l) 0%nat), rsum m (fun l => X (NC c l) 1%nat), rsum m (fun l => X (NC c l) 2%nat)).
Proof. induction m as [|m IH]; cbn [fold_up rsum]; [reflexivity|]. rewrite IH. reflexivity. Qed.

Section Vol.
Context (ne nc : nat) (cie : nat -> nat -> nat) (detj : nat -> R) (gic : nat -> nat -> nat) (wt : nat -> nat -> R) (NC : nat -> nat -> nat) (X : nat -> nat -> R) (T0 : vol_tab).
Hypothesis inj : forall e l e' l', (e < ne)%nat -> (e' < ne)%nat -> (l < nc)%nat -> (l' < nc)%nat -> cie e l = cie e' l' -> e = e' /\ l = l'.
Definition cvol (e lid : nat) : R := rsum 8 (fun l => detj (gic (cie e lid) l) * wt lid l).
Definition cell_ok (T : vol_tab) (e lid : nat) : Prop :=
  v_cell T (cie e lid) = cvol e lid /\ forall d, (d < 3)%nat -> v_cent T (cie e lid) d = rsum 8 (fun l => X (NC (cie e lid) l) d) / 8.
Definition vdone (me ml e l : nat) : Prop := (e < me)%nat /\ (l < nc)%nat \/ e = me /\ (l < ml)%nat.

Lemma vol_all : let T := get_vol_jacobi ne nc cie detj gic wt NC X T0 in
  (forall e l, (e < ne)%nat -> (l < nc)%nat -> cell_ok T e l) /\ (forall e, (e < ne)%nat -> v_elem T e = rsum nc (cvol e)).
Proof.
  unfold get_vol_jacobi. set (body := fun e T => _ : vol_tab).
  assert (G : forall me, (me <= ne)%nat -> let T := fold_up me body T0 in
    (forall e l, (e < me)%nat -> (l < nc)%nat -> cell_ok T e l) /\ (forall e, (e < me)%nat -> v_elem T e = rsum nc (cvol e))).
  { induction me as [|me IH]; intros Hme; cbn [fold_up]; [split; intros; lia|]. destruct (IH ltac:(lia)) as (P & Q). set (T := fold_up me body T0) in *. cbv zeta.
    unfold body at 1 2.
    set (ib := fun lid st => _).
    assert (I : forall ml, (ml <= nc)%nat -> let '(T1, ev) := fold_up ml ib (T, 0) in
      (forall e l, vdone me ml e l -> cell_ok T1 e l) /\ v_elem T1 = v_elem T /\ ev = rsum ml (cvol me)).
    { induction ml as [|ml IHl]; intros Hml; cbn [fold_up].
      - split; [intros e l D; apply P; unfold vdone in D; lia|]. split; reflexivity.
      - specialize (IHl ltac:(lia)). destruct (fold_up ml ib (T, 0)) as [T1 ev]. destruct IHl as (A & B & C).
        unfold ib. rewrite vol_corner_sum. split; [|split; [exact B|cbn [rsum]; rewrite C; reflexivity]].
        intros e l D. unfold cell_ok. cbn [v_cell v_cent].
        destruct (Nat.eq_dec e me) as [->|Ne]; [destruct (Nat.eq_dec l ml) as [->|Nl]|].
        + rewrite !fset_eq. split; [reflexivity|]. intros d Hd. unfold fset.
          destruct (Nat.eqb_spec d 2) as [->|]; [unfold Rdiv; f_equal; lra|]. destruct (Nat.eqb_spec d 1) as [->|]; [unfold Rdiv; f_equal; lra|].
          destruct (Nat.eqb_spec d 0) as [->|]; [unfold Rdiv; f_equal; lra|lia].
        + assert (NE : cie me l <> cie me ml) by (intros E; apply inj in E; unfold vdone in *; lia). rewrite !(fset_neq _ (cie me l)) by exact NE. apply A. unfold vdone in *; lia.
        + assert (NE : cie e l <> cie me ml) by (intros E; apply inj in E; unfold vdone in *; lia). rewrite !(fset_neq _ (cie e l)) by exact NE. apply A. unfold vdone in *; lia. }
    specialize (I nc (le_n nc)). destruct (fold_up nc ib (T, 0)) as [T1 ev]. destruct I as (A & B & C). cbn [v_cell v_cent v_elem]. split.
    - intros e l He Hl. apply (A e l). unfold vdone. lia.
    - intros e He. destruct (Nat.eq_dec e me) as [->|Ne]; [rewrite fset_eq; exact C|]. rewrite fset_neq by exact Ne. rewrite B. apply Q. lia. }
  apply G. lia.
Qed.
End Vol.
