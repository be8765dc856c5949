(** get_vol_hex computes the exact volume of the trilinear hexahedron. *)
From Coq Require Import Reals List Arith Lra Lia.
From Coquelicot Require Import Coquelicot.
Import ListNotations.
Require Import Verif.RBase Verif.RSum Verif.Spec_Patch Verif.Spec_Vol Verif.Model_Geom Verif.Model_Vol.
Open Scope R_scope.

Definition quadr (f : R -> R) : Prop := exists a b c, forall t, f t = a + b * t + c * t ^ 2.
Lemma quad_int f : quadr f -> RInt f (-1) 1 = (f (-1) + 4 * f 0 + f 1) / 3.
Proof.
  intros (a & b & c & H). apply is_RInt_unique.
  apply (is_RInt_ext (fun t => a + b * t + c * t ^ 2)); [intros; symmetry; apply H|].
  rewrite !H.
  replace ((a + b * -1 + c * (-1) ^ 2 + 4 * (a + b * 0 + c * 0 ^ 2) + (a + b * 1 + c * 1 ^ 2)) / 3)
    with (minus (a * 1 + b * 1 ^ 2 / 2 + c * 1 ^ 3 / 3) (a * (-1) + b * (-1) ^ 2 / 2 + c * (-1) ^ 3 / 3)).
  2: { unfold minus, plus, opp. simpl. field. }
  apply (is_RInt_derive (fun t => a * t + b * t ^ 2 / 2 + c * t ^ 3 / 3)).
  - intros t _. auto_derive; [trivial|]. field.
  - intros t _. apply (ex_derive_continuous (fun t => a + b * t + c * t ^ 2)). auto_derive. trivial.
Qed.
Lemma quadr_ext f g : (forall t, f t = g t) -> quadr f -> quadr g.
Proof. intros E (a & b & c & H). exists a, b, c. intros t. rewrite <- E. apply H. Qed.
Lemma quadr_simpson (f : R -> R -> R) p q r : quadr (fun t => f t p) -> quadr (fun t => f t q) -> quadr (fun t => f t r) ->
  quadr (fun t => (f t p + 4 * f t q + f t r) / 3).
Proof.
  intros (a & b & c & H) (a' & b' & c' & H') (a'' & b'' & c'' & H'').
  exists ((a + 4 * a' + a'') / 3), ((b + 4 * b' + b'') / 3), ((c + 4 * c' + c'') / 3).
  intros t. rewrite H, H', H''. field.
Qed.

(** partial derivatives of the trilinear map in closed form *)
Definition gx (V : nat -> nat -> R) d (y z : R) : R :=
  ((V 1%nat d - V 0%nat d) * ((1 - y) * (1 - z)) + (V 3%nat d - V 2%nat d) * ((1 + y) * (1 - z))
 + (V 5%nat d - V 4%nat d) * ((1 - y) * (1 + z)) + (V 7%nat d - V 6%nat d) * ((1 + y) * (1 + z))) / 8.
Definition gy (V : nat -> nat -> R) d (x z : R) : R :=
  ((V 2%nat d - V 0%nat d) * ((1 - x) * (1 - z)) + (V 3%nat d - V 1%nat d) * ((1 + x) * (1 - z))
 + (V 6%nat d - V 4%nat d) * ((1 - x) * (1 + z)) + (V 7%nat d - V 5%nat d) * ((1 + x) * (1 + z))) / 8.
Definition gz (V : nat -> nat -> R) d (x y : R) : R :=
  ((V 4%nat d - V 0%nat d) * ((1 - x) * (1 - y)) + (V 5%nat d - V 1%nat d) * ((1 + x) * (1 - y))
 + (V 6%nat d - V 2%nat d) * ((1 - x) * (1 + y)) + (V 7%nat d - V 3%nat d) * ((1 + x) * (1 + y))) / 8.

Lemma hexmap_eq V d x y z : hexmap V d x y z =
  (V 0%nat d * ((1 - x) * (1 - y) * (1 - z)) + V 1%nat d * ((1 + x) * (1 - y) * (1 - z))
 + V 2%nat d * ((1 - x) * (1 + y) * (1 - z)) + V 3%nat d * ((1 + x) * (1 + y) * (1 - z))
 + V 4%nat d * ((1 - x) * (1 - y) * (1 + z)) + V 5%nat d * ((1 + x) * (1 - y) * (1 + z))
 + V 6%nat d * ((1 - x) * (1 + y) * (1 + z)) + V 7%nat d * ((1 + x) * (1 + y) * (1 + z))) / 8.
Proof. unfold hexmap. cbn [rsum]. unfold hat. vm_compute corner_coord. cbn [Nat.eqb]. field. Qed.

Lemma dx_eq V d x y z : dx V d x y z = gx V d y z.
Proof.
  unfold dx. erewrite Derive_ext; [|intros t; apply hexmap_eq].
  apply is_derive_unique. auto_derive; [trivial|]. unfold gx. field.
Qed.
Lemma dy_eq V d x y z : dy V d x y z = gy V d x z.
Proof.
  unfold dy. erewrite Derive_ext; [|intros t; apply hexmap_eq].
  apply is_derive_unique. auto_derive; [trivial|]. unfold gy. field.
Qed.
Lemma dz_eq V d x y z : dz V d x y z = gz V d x y.
Proof.
  unfold dz. erewrite Derive_ext; [|intros t; apply hexmap_eq].
  apply is_derive_unique. auto_derive; [trivial|]. unfold gz. field.
Qed.

Definition D (V : nat -> nat -> R) (x y z : R) : R :=
    gx V 0 y z * (gy V 1 x z * gz V 2 x y - gz V 1 x y * gy V 2 x z)
  - gy V 0 x z * (gx V 1 y z * gz V 2 x y - gz V 1 x y * gx V 2 y z)
  + gz V 0 x y * (gx V 1 y z * gy V 2 x z - gy V 1 x z * gx V 2 y z).
Lemma hexdet_eq V x y z : hexdet V x y z = D V x y z.
Proof. unfold hexdet, D. rewrite !dx_eq, !dy_eq, !dz_eq. reflexivity. Qed.

(** a product of two affine functions and a constant, combined as in D, is quadratic *)
Lemma quad_det (p q r p' q' r' k l m : R) (P P' Q Q' T T' : R -> R)
  (a0 a1 b0 b1 c0 c1 d0 d1 e0 e1 f0 f1 : R) :
  (forall t, P t = a0 + a1 * t) -> (forall t, Q t = b0 + b1 * t) -> (forall t, T t = c0 + c1 * t) ->
  (forall t, P' t = d0 + d1 * t) -> (forall t, Q' t = e0 + e1 * t) -> (forall t, T' t = f0 + f1 * t) ->
  quadr (fun t => P t * (Q' t * m - l * T' t) - P' t * (Q t * m - l * T t) + k * (Q t * T' t - Q' t * T t)).
Proof.
  intros HP HQ HT HP' HQ' HT'.
  exists (a0 * (e0 * m - l * f0) - d0 * (b0 * m - l * c0) + k * (b0 * f0 - e0 * c0)).
  exists (a1 * (e0 * m - l * f0) + a0 * (e1 * m - l * f1) - d1 * (b0 * m - l * c0) - d0 * (b1 * m - l * c1)
          + k * (b1 * f0 + b0 * f1 - e1 * c0 - e0 * c1)).
  exists (a1 * (e1 * m - l * f1) - d1 * (b1 * m - l * c1) + k * (b1 * f1 - e1 * c1)).
  intros t. rewrite HP, HQ, HT, HP', HQ', HT'. ring.
Qed.

Lemma gx_y V d z : exists a b, forall y, gx V d y z = a + b * y.
Proof. exists (gx V d 0 z), (gx V d 1 z - gx V d 0 z). intros. unfold gx. field. Qed.
Lemma gx_z V d y : exists a b, forall z, gx V d y z = a + b * z.
Proof. exists (gx V d y 0), (gx V d y 1 - gx V d y 0). intros. unfold gx. field. Qed.
Lemma gy_x V d z : exists a b, forall x, gy V d x z = a + b * x.
Proof. exists (gy V d 0 z), (gy V d 1 z - gy V d 0 z). intros. unfold gy. field. Qed.
Lemma gy_z V d x : exists a b, forall z, gy V d x z = a + b * z.
Proof. exists (gy V d x 0), (gy V d x 1 - gy V d x 0). intros. unfold gy. field. Qed.
Lemma gz_x V d y : exists a b, forall x, gz V d x y = a + b * x.
Proof. exists (gz V d 0 y), (gz V d 1 y - gz V d 0 y). intros. unfold gz. field. Qed.
Lemma gz_y V d x : exists a b, forall y, gz V d x y = a + b * y.
Proof. exists (gz V d x 0), (gz V d x 1 - gz V d x 0). intros. unfold gz. field. Qed.

Lemma D_z V x y : quadr (fun z => D V x y z).
Proof.
  destruct (gx_z V 0 y) as (? & ? & ?), (gx_z V 1 y) as (? & ? & ?), (gx_z V 2 y) as (? & ? & ?),
    (gy_z V 0 x) as (? & ? & ?), (gy_z V 1 x) as (? & ? & ?), (gy_z V 2 x) as (? & ? & ?).
  apply (quad_det 0 0 0 0 0 0 (gz V 0 x y) (gz V 1 x y) (gz V 2 x y) (gx V 0 y) (gy V 0 x) (gx V 1 y) (gy V 1 x) (gx V 2 y) (gy V 2 x)
    _ _ _ _ _ _ _ _ _ _ _ _ H H0 H1 H2 H3 H4).
Qed.
Lemma D_y V x z : quadr (fun y => D V x y z).
Proof.
  destruct (gz_y V 0 x) as (? & ? & ?), (gz_y V 1 x) as (? & ? & ?), (gz_y V 2 x) as (? & ? & ?),
    (gx_y V 0 z) as (? & ? & ?), (gx_y V 1 z) as (? & ? & ?), (gx_y V 2 z) as (? & ? & ?).
  eapply quadr_ext; [|apply (quad_det 0 0 0 0 0 0 (gy V 0 x z) (gy V 1 x z) (gy V 2 x z) (gz V 0 x) (fun y => gx V 0 y z) (gz V 1 x) (fun y => gx V 1 y z)
     (gz V 2 x) (fun y => gx V 2 y z) _ _ _ _ _ _ _ _ _ _ _ _ H H0 H1 H2 H3 H4)].
  intros t. unfold D. ring.
Qed.
Lemma D_x V y z : quadr (fun x => D V x y z).
Proof.
  destruct (gy_x V 0 z) as (? & ? & ?), (gy_x V 1 z) as (? & ? & ?), (gy_x V 2 z) as (? & ? & ?),
    (gz_x V 0 y) as (? & ? & ?), (gz_x V 1 y) as (? & ? & ?), (gz_x V 2 y) as (? & ? & ?).
  eapply quadr_ext; [|apply (quad_det 0 0 0 0 0 0 (gx V 0 y z) (gx V 1 y z) (gx V 2 y z) (fun x => gy V 0 x z) (fun x => gz V 0 x y) (fun x => gy V 1 x z)
     (fun x => gz V 1 x y) (fun x => gy V 2 x z) (fun x => gz V 2 x y) _ _ _ _ _ _ _ _ _ _ _ _ H H0 H1 H2 H3 H4)].
  intros t. unfold D. ring.
Qed.

Definition simp (f : R -> R) : R := (f (-1) + 4 * f 0 + f 1) / 3.
Lemma volume_simpson V : hex_volume V = simp (fun x => simp (fun y => simp (fun z => D V x y z))).
Proof.
  unfold hex_volume.
  rewrite (RInt_ext _ (fun x => simp (fun y => simp (fun z => D V x y z)))).
  - apply (quad_int (fun x => simp (fun y => simp (fun z => D V x y z)))). unfold simp.
    repeat first [apply D_x | apply (quadr_simpson (fun t p => (D V t p (-1) + 4 * D V t p 0 + D V t p 1) / 3))
          | apply (quadr_simpson (fun t p => D V t _ p))].
  - intros x _. rewrite (RInt_ext _ (fun y => simp (fun z => D V x y z))).
    + apply (quad_int (fun y => simp (fun z => D V x y z))). unfold simp.
      apply (quadr_simpson (fun t p => D V x t p)); apply D_y.
    + intros y _. rewrite (RInt_ext _ (fun z => D V x y z)) by (intros; apply hexdet_eq).
      apply (quad_int (fun z => D V x y z)). apply D_z.
Qed.

(** the scratch arrays after the gather loop do not depend on their previous content *)
Lemma gather_val X N cell d x0 l : (l < 8)%nat ->
  fst (gather X N cell d x0) l = X (N cell (nth l [0; 1; 3; 2; 4; 5; 7; 6]%nat 0%nat)) d.
Proof.
  intros Hl. unfold gather. cbn [fold_up fst]. do 8 (destruct l as [|l]; [vm_compute; reflexivity|]). lia.
Qed.

Lemma vol_exact (V : nat -> nat -> R) (x y z : nat -> R) :
  (forall l, (l < 8)%nat -> x l = V (nth l [0; 1; 3; 2; 4; 5; 7; 6]%nat 0%nat) 0%nat) ->
  (forall l, (l < 8)%nat -> y l = V (nth l [0; 1; 3; 2; 4; 5; 7; 6]%nat 0%nat) 1%nat) ->
  (forall l, (l < 8)%nat -> z l = V (nth l [0; 1; 3; 2; 4; 5; 7; 6]%nat 0%nat) 2%nat) ->
  vol_formula x y z = hex_volume V.
Proof.
  intros Hx Hy Hz. rewrite volume_simpson. unfold vol_formula. cbv zeta.
  rewrite !Hx, !Hy, !Hz by lia. cbn [nth]. clear Hx Hy Hz.
  unfold simp, D, gx, gy, gz.
  generalize (V 0%nat 0%nat) (V 1%nat 0%nat) (V 2%nat 0%nat) (V 3%nat 0%nat) (V 4%nat 0%nat) (V 5%nat 0%nat) (V 6%nat 0%nat) (V 7%nat 0%nat).
  generalize (V 0%nat 1%nat) (V 1%nat 1%nat) (V 2%nat 1%nat) (V 3%nat 1%nat) (V 4%nat 1%nat) (V 5%nat 1%nat) (V 6%nat 1%nat) (V 7%nat 1%nat).
  generalize (V 0%nat 2%nat) (V 1%nat 2%nat) (V 2%nat 2%nat) (V 3%nat 2%nat) (V 4%nat 2%nat) (V 5%nat 2%nat) (V 6%nat 2%nat) (V 7%nat 2%nat).
  intros. field.
Qed.

Lemma vol_hex_exact X N cell x0 y0 z0 :
  fst (vol_hex_cell X N cell x0 y0 z0) = hex_volume (fun l d => X (N cell l) d).
Proof.
  unfold vol_hex_cell.
  assert (Gx := gather_val X N cell 0 x0). assert (Gy := gather_val X N cell 1 y0). assert (Gz := gather_val X N cell 2 z0).
  destruct (gather X N cell 0 x0) as (x & sx). destruct (gather X N cell 1 y0) as (y & sy). destruct (gather X N cell 2 z0) as (z & sz).
  cbn [fst] in *. apply vol_exact; assumption.
Qed.

(** what the code stores as the centre: vertices 3 and 7 are missing, the previous content of scratch
    entries 2 and 6 is added instead *)
Lemma vol_hex_centre X N cell x0 y0 z0 d : (d < 3)%nat ->
  snd (vol_hex_cell X N cell x0 y0 z0) d =
  (X (N cell 0%nat) d + X (N cell 1%nat) d + X (N cell 2%nat) d + X (N cell 4%nat) d + X (N cell 5%nat) d + X (N cell 6%nat) d
   + (match d with 0%nat => x0 | 1%nat => y0 | _ => z0 end) 2%nat + (match d with 0%nat => x0 | 1%nat => y0 | _ => z0 end) 6%nat) / 8.
Proof.
  intros Hd. unfold vol_hex_cell, gather. cbn [fold_up].
  destruct d as [|[|[|d]]]; [| | |lia]; vm_compute c_con; cbn [fset Nat.eqb snd]; unfold fset; cbn [Nat.eqb]; field.
Qed.

Lemma vol_parallelepiped (o a b c : nat -> R) :
  hex_volume (fun l d => o d + INR (corner_coord l 0) * a d + INR (corner_coord l 1) * b d + INR (corner_coord l 2) * c d) =
    a 0%nat * (b 1%nat * c 2%nat - c 1%nat * b 2%nat)
  - b 0%nat * (a 1%nat * c 2%nat - c 1%nat * a 2%nat)
  + c 0%nat * (a 1%nat * b 2%nat - b 1%nat * a 2%nat).
Proof.
  rewrite volume_simpson. unfold simp, D, gx, gy, gz. vm_compute corner_coord. cbn [INR]. field.
Qed.
