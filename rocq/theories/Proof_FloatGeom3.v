(** Assembled Jacobians and volumes in rounded arithmetic. *)
From Coq Require Import Reals List Arith Lra Lia.
Import ListNotations.
Require Import Verif.Base Verif.RBase Verif.RSum Verif.NatSum Verif.Spec_Mat Verif.Det Verif.Model_Jac Verif.Proof_Jac Verif.Model_Vol Verif.Spec_Vol Verif.Proof_Vol
  Verif.Spec_Float Verif.Float_Base Verif.Model_FloatLagrange Verif.Spec_FloatGeom Verif.Model_FloatGeom Verif.Proof_FloatGeom Verif.Proof_FloatGeom2.
Open Scope R_scope.

Lemma accf_entry rnd n (f : nat -> R) i j (J : mat) :
  let J' := fold_up (S:=mat) n (fun v J => set2 J i j (rnd (J i j + f v))) J in
  J' i j = fold_up n (fun v s => rnd (s + f v)) (J i j) /\ forall r c, r <> i \/ c <> j -> J' r c = J r c.
Proof.
  induction n as [|n (IH1 & IH2)]; cbn [fold_up]; [split; reflexivity|]. cbv zeta. split.
  - rewrite set2_eq, IH1. reflexivity.
  - intros r c H. rewrite set2_neq by exact H. apply IH2. exact H.
Qed.
(** the accumulation loop of one entry *)
Definition entryf (rnd : R -> R) (n : nat) (f : nat -> R) : R := fold_up n (fun v s => rnd (s + f v)) 0.
Lemma jac_fillf_spec rnd dim nv X P J0 i j : (i < dim)%nat -> (j < dim)%nat -> jac_fillf rnd dim nv X P J0 i j = entryf rnd nv (fun v => rnd (X v j * P v i)).
Proof.
  intros Hi Hj. unfold jac_fillf. cbv zeta.
  rewrite (fill2 dim dim (fun j k J => fold_up nv (fun v J => set2 J j k (rnd (J j k + rnd (X v k * P v j)))) J) (fun j k x => fold_up nv (fun v s => rnd (s + rnd (X v k * P v j))) x)).
  - rewrite (fill2 dim dim (fun j k J => set2 J j k 0) (fun _ _ _ => 0)).
    + destruct (Nat.ltb_spec i dim), (Nat.ltb_spec j dim); try lia. reflexivity.
    + intros. apply set2_eq.
    + intros. apply set2_neq. assumption.
  - intros a b J. apply (accf_entry rnd nv (fun v => rnd (X v b * P v a))).
  - intros a b J r c H. apply (accf_entry rnd nv (fun v => rnd (X v b * P v a))). exact H.
Qed.
Lemma point_jacobianf_spec rnd nb vmap N X grad e l J0 i j : (i < 3)%nat -> (j < 3)%nat ->
  point_jacobianf rnd nb vmap N X grad e l J0 i j = entryf rnd nb (fun v => rnd (grad l v j * X (N e (vmap v)) i)).
Proof.
  intros Hi Hj. unfold point_jacobianf.
  rewrite (fill2 3 3 (fun i j J => fold_up nb (fun v J => set2 J i j (rnd (J i j + rnd (grad l v j * X (N e (vmap v)) i)))) (set2 J i j 0)) (fun i j _ => entryf rnd nb (fun v => rnd (grad l v j * X (N e (vmap v)) i)))).
  - destruct (Nat.ltb_spec i 3), (Nat.ltb_spec j 3); try lia. reflexivity.
  - intros a b J. destruct (accf_entry rnd nb (fun v => rnd (grad l v b * X (N e (vmap v)) a)) a b (set2 J a b 0)) as (E & _). rewrite E, set2_eq. reflexivity.
  - intros a b J r c H. destruct (accf_entry rnd nb (fun v => rnd (grad l v b * X (N e (vmap v)) a)) a b (set2 J a b 0)) as (_ & E). rewrite E by exact H. apply set2_neq. exact H.
Qed.

Section Pt.
Context (rnd : R -> R) (ne np nb : nat) (gid : nat -> nat -> nat) (vmap : nat -> nat) (N : nat -> nat -> nat) (X : nat -> nat -> R) (grad : nat -> nat -> nat -> R) (T0 : jac_tab).
Hypothesis inj : forall e l e' l', (e < ne)%nat -> (e' < ne)%nat -> (l < np)%nat -> (l' < np)%nat -> gid e l = gid e' l' -> e = e' /\ l = l'.

Definition ptf_ok (T : jac_tab) (e l : nat) : Prop :=
  (forall i j, (i < 3)%nat -> (j < 3)%nat -> t_jac T (gid e l) i j = entryf rnd nb (fun v => rnd (grad l v j * X (N e (vmap v)) i))) /\
  t_det T (gid e l) = det_cofactorf rnd (t_jac T (gid e l)) /\ t_inv T (gid e l) = mat_inversef rnd (t_jac T (gid e l)).
Definition ptfI (me ml : nat) (T : jac_tab) : Prop :=
  (forall e l, done np me ml e l -> ptf_ok T e l) /\
  (forall g, (forall e l, done np me ml e l -> gid e l <> g) -> t_jac T g = t_jac T0 g /\ t_det T g = t_det T0 g /\ t_inv T g = t_inv T0 g).

Lemma ptf_inner me : (me < ne)%nat -> forall T, ptfI me 0 T -> forall ml, (ml <= np)%nat -> ptfI me ml (fold_up ml (fun l T =>
    let g := gid me l in
    let J := point_jacobianf rnd nb vmap N X grad me l (t_jac T g) in
    {| t_jac := fset (t_jac T) g J; t_det := fset (t_det T) g (det_cofactorf rnd J); t_inv := fset (t_inv T) g (mat_inversef rnd J) |}) T).
Proof.
  intros Hme T H0. induction ml as [|ml IH]; intros Hml; cbn [fold_up]; [exact H0|]. specialize (IH ltac:(lia)).
  set (T1 := fold_up ml _ T) in *. cbv zeta. set (g := gid me ml). set (J := point_jacobianf _ _ _ _ _ _ _ _ _). destruct IH as (P & Q). split.
  - intros e l D. unfold ptf_ok. cbn [t_jac t_det t_inv].
    destruct (Nat.eq_dec e me) as [->|Ne]; [destruct (Nat.eq_dec l ml) as [->|Nl]|].
    + fold g. rewrite !fset_eq. split; [|split; reflexivity]. intros i j Hi Hj. unfold J. apply point_jacobianf_spec; assumption.
    + assert (D' : done np me ml me l) by (unfold done in *; lia). assert (NE : gid me l <> g) by (intros E; unfold g in E; apply inj in E; unfold done in *; lia).
      rewrite !fset_neq by exact NE. apply P. exact D'.
    + assert (D' : done np me ml e l) by (unfold done in *; lia). assert (NE : gid e l <> g) by (intros E; unfold g in E; apply inj in E; unfold done in *; lia).
      rewrite !fset_neq by exact NE. apply P. exact D'.
  - intros h Hh. cbn [t_jac t_det t_inv]. assert (NE : h <> g) by (intros E; apply (Hh me ml); [unfold done; lia|symmetry; exact E]).
    rewrite !fset_neq by exact NE. apply Q. intros e l D. apply Hh. unfold done in *; lia.
Qed.
Lemma ptf_all : ptfI ne 0 (get_pt_jacobianf rnd ne np nb gid vmap N X grad T0).
Proof.
  unfold get_pt_jacobianf.
  assert (G : forall me, (me <= ne)%nat -> ptfI me 0 (fold_up me (fun e T => fold_up np (fun l T =>
    let g := gid e l in
    let J := point_jacobianf rnd nb vmap N X grad e l (t_jac T g) in
    {| t_jac := fset (t_jac T) g J; t_det := fset (t_det T) g (det_cofactorf rnd J); t_inv := fset (t_inv T) g (mat_inversef rnd J) |}) T) T0)).
  { induction me as [|me IH]; intros Hme; cbn [fold_up].
    - split; [intros e l D; unfold done in D; lia|]. intros; repeat split; reflexivity.
    - assert (I := ptf_inner me ltac:(lia) _ (IH ltac:(lia)) np (le_n np)). destruct I as (P & Q). split.
      + intros e l D. apply P. unfold done in *; lia.
      + intros g Hg. apply Q. intros e l D. apply Hg. unfold done in *; lia. }
  apply G. lia.
Qed.
End Pt.

(** ** get_vol_jacobi *)
Lemma vol_corner_sumf rnd detj gic wt NC X c lid m :
  fold_up m (vol_jacobi_cornerf rnd detj gic wt NC X c lid) (0, 0, 0, 0) =
  (entryf rnd m (fun l => rnd (detj (gic c l) * wt lid l)), entryf rnd m (fun l => X (NC c l) 0%nat), entryf rnd m (fun l => X (NC c l) 1%nat), entryf rnd m (fun l => X (NC c l) 2%nat)).
Proof. unfold entryf. induction m as [|m IH]; cbn [fold_up]; [reflexivity|]. rewrite IH. reflexivity. Qed.

Section Vol.
Context (rnd : R -> R) (ne nc : nat) (cie : nat -> nat -> nat) (detj : nat -> R) (gic : nat -> nat -> nat) (wt : nat -> nat -> R) (NC : nat -> nat -> nat) (X : nat -> nat -> R) (T0 : vol_tab).
Hypothesis inj : forall e l e' l', (e < ne)%nat -> (e' < ne)%nat -> (l < nc)%nat -> (l' < nc)%nat -> cie e l = cie e' l' -> e = e' /\ l = l'.
Definition cvolf (e lid : nat) : R := entryf rnd 8 (fun l => rnd (detj (gic (cie e lid) l) * wt lid l)).
Definition cellf_ok (T : vol_tab) (e lid : nat) : Prop :=
  v_cell T (cie e lid) = cvolf e lid /\ forall d, (d < 3)%nat -> v_cent T (cie e lid) d = rnd (entryf rnd 8 (fun l => X (NC (cie e lid) l) d) * rnd 0.125).

Lemma volf_all : let T := get_vol_jacobif rnd ne nc cie detj gic wt NC X T0 in
  (forall e l, (e < ne)%nat -> (l < nc)%nat -> cellf_ok T e l) /\ (forall e, (e < ne)%nat -> v_elem T e = entryf rnd nc (cvolf e)).
Proof.
  unfold get_vol_jacobif. set (body := fun e T => _ : vol_tab).
  assert (G : forall me, (me <= ne)%nat -> let T := fold_up me body T0 in
    (forall e l, (e < me)%nat -> (l < nc)%nat -> cellf_ok T e l) /\ (forall e, (e < me)%nat -> v_elem T e = entryf rnd nc (cvolf e))).
  { induction me as [|me IH]; intros Hme; cbn [fold_up]; [split; intros; lia|]. destruct (IH ltac:(lia)) as (P & Q). set (T := fold_up me body T0) in *. cbv zeta.
    unfold body at 1 2.
    set (ib := fun lid st => _).
    assert (I : forall ml, (ml <= nc)%nat -> let '(T1, ev) := fold_up ml ib (T, 0) in
      (forall e l, vdone nc me ml e l -> cellf_ok T1 e l) /\ v_elem T1 = v_elem T /\ ev = entryf rnd ml (cvolf me)).
    { unfold entryf at 1. induction ml as [|ml IHl]; intros Hml; cbn [fold_up].
      - split; [intros e l D; apply P; unfold vdone in D; lia|]. split; reflexivity.
      - specialize (IHl ltac:(lia)). destruct (fold_up ml ib (T, 0)) as [T1 ev]. destruct IHl as (A & B & C).
        unfold ib. rewrite vol_corner_sumf. split; [|split; [exact B|rewrite C; reflexivity]].
        intros e l D. unfold cellf_ok. cbn [v_cell v_cent].
        destruct (Nat.eq_dec e me) as [->|Ne]; [destruct (Nat.eq_dec l ml) as [->|Nl]|].
        + rewrite !fset_eq. split; [reflexivity|]. intros d Hd. unfold fset.
          destruct (Nat.eqb_spec d 2) as [->|]; [reflexivity|]. destruct (Nat.eqb_spec d 1) as [->|]; [reflexivity|].
          destruct (Nat.eqb_spec d 0) as [->|]; [reflexivity|lia].
        + assert (NE : cie me l <> cie me ml) by (intros E; apply inj in E; unfold vdone in *; lia). rewrite !(fset_neq _ (cie me l)) by exact NE. apply A. unfold vdone in *; lia.
        + assert (NE : cie e l <> cie me ml) by (intros E; apply inj in E; unfold vdone in *; lia). rewrite !(fset_neq _ (cie e l)) by exact NE. apply A. unfold vdone in *; lia. }
    specialize (I nc (le_n nc)). destruct (fold_up nc ib (T, 0)) as [T1 ev]. destruct I as (A & B & C). cbn [v_cell v_cent v_elem]. split.
    - intros e l He Hl. apply (A e l). unfold vdone. lia.
    - intros e He. destruct (Nat.eq_dec e me) as [->|Ne]; [rewrite fset_eq; exact C|]. rewrite fset_neq by exact Ne. rewrite B. apply Q. lia. }
  apply G. lia.
Qed.
End Vol.

Section Bounds.
Context (u : R) (Hu : 0 <= u < 1) (rnd : R -> R) (Hr : rounds u rnd).
Notation ap := (ap u).

Lemma entry_ap n k (a p pf : nat -> R) : (forall v, (v < n)%nat -> ap k (a v) (p v) (pf v)) -> ap (n + k) (rsum n a) (rsum n p) (entryf rnd n pf).
Proof. apply (ap_sum u Hu rnd Hr). Qed.
Lemma dot_ap n (f g : nat -> R) : ap (n + 1) (rsum n (fun v => Rabs (f v) * Rabs (g v))) (rsum n (fun v => f v * g v)) (entryf rnd n (fun v => rnd (f v * g v))).
Proof. apply entry_ap. intros v Hv. apply (ap_mul u Hu rnd Hr 0 0); apply ap_var. Qed.

(** ** get_vol_hex *)
Definition vol_abs (M : R) (x : nat -> R) : Prop := forall l, (l < 8)%nat -> Rabs (x l) <= M.
Lemma mvar M x : Rabs x <= M -> ap 0 M x x.
Proof. intros H. eapply (ap_a u Hu); [exact H|apply ap_var]. Qed.
Lemma vol_formula_ap M x y z : vol_abs M x -> vol_abs M y -> vol_abs M z -> ap 19 (12 * M ^ 3) (vol_formula x y z) (vol_formulaf rnd x y z).
Proof.
  intros Hx Hy Hz.
  assert (Ax : forall l, (l < 8)%nat -> ap 0 M (x l) (x l)) by (intros; apply mvar, Hx; assumption).
  assert (Ay : forall l, (l < 8)%nat -> ap 0 M (y l) (y l)) by (intros; apply mvar, Hy; assumption).
  assert (Az : forall l, (l < 8)%nat -> ap 0 M (z l) (z l)) by (intros; apply mvar, Hz; assumption).
  assert (At : ap 1 (1 / 12) (1 / 12) (rnd (1 / 12))).
  { apply (ap_rnd u Hu rnd Hr). eapply (ap_a u Hu); [|apply ap_var]. rewrite Rabs_pos_eq; lra. }
  unfold vol_formula, vol_formulaf. cbv zeta.
  match goal with |- ap _ ?b _ _ => assert (E : exists a, a = b) by (eexists; reflexivity); destruct E as (a & E); rewrite <- E end.
  assert (G : exists k b, (k <= 19)%nat /\ b = a /\ ap k b (vol_formula x y z) (vol_formulaf rnd x y z)).
  { unfold vol_formula, vol_formulaf. cbv zeta. eexists; eexists. split; [|split].
    3: { repeat first [exact At | apply (ap_mul u Hu rnd Hr) | apply (ap_sub u Hu rnd Hr) | apply (ap_add u Hu rnd Hr) | apply ap_opp | apply Ax; lia | apply Ay; lia | apply Az; lia]. }
    - cbn [Nat.max Nat.add]. lia.
    - rewrite E. field. }
  destruct G as (k & b & L & -> & G). exact (ap_le u Hu k 19 _ _ _ L G).
Qed.
Lemma gatherf_val X N cell d x0 l : (l < 8)%nat ->
  fst (gatherf rnd X N cell d x0) l = X (N cell (nth l [0; 1; 3; 2; 4; 5; 7; 6]%nat 0%nat)) d.
Proof.
  intros Hl. unfold gatherf. cbn [fold_up fst]. do 8 (destruct l as [|l]; [vm_compute; reflexivity|]). lia.
Qed.
Lemma vol_hex_ap X N cell x0 y0 z0 M : (forall l d, (l < 8)%nat -> (d < 3)%nat -> Rabs (X (N cell l) d) <= M) ->
  ap 19 (12 * M ^ 3) (hex_volume (fun l d => X (N cell l) d)) (fst (vol_hex_cellf rnd X N cell x0 y0 z0)).
Proof.
  intros HM. unfold vol_hex_cellf.
  assert (Gx := gatherf_val X N cell 0 x0). assert (Gy := gatherf_val X N cell 1 y0). assert (Gz := gatherf_val X N cell 2 z0).
  destruct (gatherf rnd X N cell 0 x0) as (x & sx). destruct (gatherf rnd X N cell 1 y0) as (y & sy). destruct (gatherf rnd X N cell 2 z0) as (z & sz).
  cbn [fst] in *. rewrite <- (vol_exact (fun l d => X (N cell l) d) x y z Gx Gy Gz).
  assert (Q : forall l, (l < 8)%nat -> (nth l [0; 1; 3; 2; 4; 5; 7; 6]%nat 0%nat < 8)%nat) by (intros l Hl; do 8 (destruct l as [|l]; [cbn; lia|]); lia).
  apply vol_formula_ap; intros l Hl; rewrite ?Gx, ?Gy, ?Gz by exact Hl; apply HM; try lia; apply Q; exact Hl.
Qed.
End Bounds.
