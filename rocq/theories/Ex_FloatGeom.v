(** Determinants and a volume whose computed value has the wrong sign, in binary64. *)
From Coq Require Import Reals List Arith ZArith Lra Lia.
Import ListNotations.
From Flocq Require Import Core.
Require Import Verif.Base Verif.RBase Verif.RSum Verif.Spec_Mat Verif.Spec_Patch Verif.Model_Jac Verif.Model_Vol Verif.Spec_Vol Verif.Proof_Vol
  Verif.Spec_Float Verif.Float_Base Verif.Float_Eval Verif.Model_FloatLagrange Verif.Spec_FloatGeom Verif.Model_FloatGeom Verif.Proof_FloatGeom3 Verif.Prop_Geom.
Open Scope R_scope.

(** binary64 expressions evaluated by computation *)
Inductive fexp := FL (a : Z * Z) | FN (e : fexp) | FA (e f : fexp) | FS (e f : fexp) | FM (e f : fexp) | FD (e f : fexp).
Fixpoint fden (e : fexp) : R := match e with
  | FL a => val a | FN e => - fden e | FA e f => binary64 (fden e + fden f) | FS e f => binary64 (fden e - fden f)
  | FM e f => binary64 (fden e * fden f) | FD e f => binary64 (fden e / fden f) end.
Definition obind (x y : option (Z * Z)) (f : Z * Z -> Z * Z -> option (Z * Z)) : option (Z * Z) :=
  match x, y with Some a, Some b => f a b | _, _ => None end.
Fixpoint fev (e : fexp) : option (Z * Z) := match e with
  | FL a => Some a | FN e => match fev e with Some (m, k) => Some ((- m)%Z, k) | None => None end
  | FA e f => obind (fev e) (fev f) fadd | FS e f => obind (fev e) (fev f) fsub
  | FM e f => obind (fev e) (fev f) fmul | FD e f => obind (fev e) (fev f) fdiv end.
Lemma fev_ok e : forall c, fev e = Some c -> fden e = val c.
Proof.
  induction e as [a|e IH|e IHe f IHf|e IHe f IHf|e IHe f IHf|e IHe f IHf]; intros c; cbn [fev fden].
  - intros [= <-]. reflexivity.
  - destruct (fev e) as [(m, k)|] eqn:E; [|discriminate]. intros [= <-]. rewrite (IH _ eq_refl). unfold val. cbn [fst snd]. rewrite opp_IZR. ring.
  - unfold obind. destruct (fev e) as [a|] eqn:E1; [|discriminate]. destruct (fev f) as [b|] eqn:E2; [|discriminate]. intros H. rewrite (IHe _ eq_refl), (IHf _ eq_refl). apply fadd_ok. exact H.
  - unfold obind. destruct (fev e) as [a|] eqn:E1; [|discriminate]. destruct (fev f) as [b|] eqn:E2; [|discriminate]. intros H. rewrite (IHe _ eq_refl), (IHf _ eq_refl). apply fsub_ok. exact H.
  - unfold obind. destruct (fev e) as [a|] eqn:E1; [|discriminate]. destruct (fev f) as [b|] eqn:E2; [|discriminate]. intros H. rewrite (IHe _ eq_refl), (IHf _ eq_refl). apply fmul_ok. exact H.
  - unfold obind. destruct (fev e) as [a|] eqn:E1; [|discriminate]. destruct (fev f) as [b|] eqn:E2; [|discriminate]. intros H. rewrite (IHe _ eq_refl), (IHf _ eq_refl). exact (proj1 (fdiv_ok _ _ _ H)).
Qed.
Ltac freify t := match t with
  | binary64 (?a + ?b) => let x := freify a in let y := freify b in constr:(FA x y)
  | binary64 (?a - ?b) => let x := freify a in let y := freify b in constr:(FS x y)
  | binary64 (?a * ?b) => let x := freify a in let y := freify b in constr:(FM x y)
  | binary64 (?a / ?b) => let x := freify a in let y := freify b in constr:(FD x y)
  | - ?a => let x := freify a in constr:(FN x)
  | val ?a => constr:(FL a)
  end.
(** replace the left-hand side of [t = _] by its value *)
Ltac feval := match goal with |- ?t = _ =>
  let e := freify t in let c := eval vm_compute in (fev e) in
  match c with Some ?c' => change t with (fden e); rewrite (fev_ok e c') by (vm_compute; reflexivity) end end.

Lemma val_z m : val (m, 0%Z) = IZR m.
Proof. unfold val. cbn [fst snd]. change (bpow radix2 0) with 1. ring. Qed.
Definition fl (m e : Z) : R := val (m, e).

(** 1 + 2^-30 and 1 - 2^-30 *)
Definition above1 : R := fl (2 ^ 30 + 1) (-30).
Definition below1 : R := fl (2 ^ 30 - 1) (-30).
Lemma p30 : bpow radix2 (-30) = / 1073741824.
Proof. reflexivity. Qed.
Lemma p61 : bpow radix2 (-61) = / 1073741824 * / 1073741824 / 2.
Proof. replace (-61)%Z with (-30 + -30 + -1)%Z by lia. rewrite !bpow_plus, p30. change (bpow radix2 (-1)) with (/ 2). field. Qed.
Lemma above_v : above1 = 1 + / 1073741824.
Proof. unfold above1, fl, val. cbn [fst snd]. rewrite p30. replace (2 ^ 30 + 1)%Z with 1073741825%Z by reflexivity. field. Qed.
Lemma below_v : below1 = 1 - / 1073741824.
Proof. unfold below1, fl, val. cbn [fst snd]. rewrite p30. replace (2 ^ 30 - 1)%Z with 1073741823%Z by reflexivity. field. Qed.
(** a matrix with determinant -2^-60, computed as 0 *)
Definition m_sing : mat := rows [[1; 0; 0]; [0; above1; 1]; [0; 1; below1]].
(** a matrix with determinant -2^-61, computed as 2^-61 *)
Definition m_sign : mat := rows [[1; 0; 1]; [fl 1 (-61); above1; 1]; [0; 1; below1]].
Lemma m_sing_det : det3 m_sing < 0.
Proof. unfold m_sing, det3, rows. cbn [nth]. rewrite above_v, below_v. lra. Qed.
Lemma m_sign_det : det3 m_sign = - bpow radix2 (-61).
Proof. unfold m_sign, det3, rows. cbn [nth]. rewrite above_v, below_v. unfold fl, val. cbn [fst snd]. rewrite p61. field. Qed.
Lemma m_sing_comp : det_cofactorf binary64 m_sing = 0.
Proof.
  unfold det_cofactorf, m_sing, rows, above1, below1, fl. cbn [nth]. rewrite <- (val_z 1), <- (val_z 0). feval. reflexivity.
Qed.
Lemma m_sign_comp : det_cofactorf binary64 m_sign = bpow radix2 (-61).
Proof.
  replace (bpow radix2 (-61)) with (fl (2 ^ 52) (-113)).
  2: { unfold fl, val. cbn [fst snd]. replace (IZR (2 ^ 52)) with (bpow radix2 52) by (rewrite <- IZR_Zpower by lia; reflexivity). rewrite <- bpow_plus. reflexivity. }
  unfold det_cofactorf, m_sign, rows, above1, below1, fl. cbn [nth]. rewrite <- (val_z 1), <- (val_z 0). feval. reflexivity.
Qed.

(** a cube of side 1/128 at (2000000.1, 2000000.1, 2000000.1) *)
Definition c_lo : R := fl 4294967510748365 (-31).
Definition c_hi : R := fl 4294967527525581 (-31).
Definition cube_X (n d : nat) : R := if Nat.eqb (corner_coord n (Nat.min d 2)) 0 then c_lo else c_hi.
Definition cube_N (c l : nat) : nat := l.
Lemma c_lo_v : Rabs (c_lo - 20000001 / 10) <= / 10 ^ 9.
Proof. unfold c_lo, fl, val. cbn [fst snd]. change (bpow radix2 (-31)) with (/ 2147483648). apply Rabs_le. split; lra. Qed.
Lemma c_side : c_hi - c_lo = / 128.
Proof. unfold c_lo, c_hi, fl, val. cbn [fst snd]. change (bpow radix2 (-31)) with (/ 2147483648). lra. Qed.
Lemma cube_exact : hex_volume (fun l d => cube_X (cube_N 0 l) d) = / 128 ^ 3.
Proof.
  rewrite <- (vol_hex_exact cube_X cube_N 0%nat (fun _ => 0) (fun _ => 0) (fun _ => 0)).
  rewrite (C41_parallelepiped cube_X cube_N 0 _ _ _ (fun _ => c_lo) (fun d => if Nat.eqb d 0 then / 128 else 0) (fun d => if Nat.eqb d 1 then / 128 else 0) (fun d => if Nat.leb d 1 then 0 else / 128)).
  - cbn [Nat.eqb Nat.leb]. field.
  - intros l d. unfold cube_X, cube_N. replace c_hi with (c_lo + / 128) by (assert (E := c_side); lra).
    assert (B : forall k, (corner_coord l k = 0 \/ corner_coord l k = 1)%nat).
    { intros k. unfold corner_coord. assert ((l / 2 ^ k) mod 2 < 2)%nat by (apply Nat.mod_upper_bound; lia). lia. }
    destruct d as [|[|d]]; cbn [Nat.eqb Nat.leb Nat.min]; [| |rewrite Nat.min_0_r];
      destruct (B 0%nat) as [->| ->], (B 1%nat) as [->| ->], (B 2%nat) as [->| ->]; cbn [Nat.eqb INR]; lra.
Qed.
Lemma cube_computed : fst (vol_hex_cellf binary64 cube_X cube_N 0 (fun _ => 0) (fun _ => 0) (fun _ => 0)) < 0.
Proof.
  assert (E : exists m e, fst (vol_hex_cellf binary64 cube_X cube_N 0 (fun _ => 0) (fun _ => 0) (fun _ => 0)) = val (m, e) /\ (m < 0)%Z).
  2: { destruct E as (m & e & -> & H). unfold val. cbn [fst snd]. apply IZR_lt in H. assert (P := bpow_gt_0 radix2 e). nra. }
  unfold vol_hex_cellf.
  assert (Gx := gatherf_val binary64 cube_X cube_N 0 0 (fun _ => 0)). assert (Gy := gatherf_val binary64 cube_X cube_N 0 1 (fun _ => 0)). assert (Gz := gatherf_val binary64 cube_X cube_N 0 2 (fun _ => 0)).
  destruct (gatherf binary64 cube_X cube_N 0 0 _) as (x & sx). destruct (gatherf binary64 cube_X cube_N 0 1 _) as (y & sy). destruct (gatherf binary64 cube_X cube_N 0 2 _) as (z & sz).
  cbn [fst] in *. unfold vol_formulaf. cbv zeta. rewrite !Gx, !Gy, !Gz by lia. cbn [nth]. unfold cube_N, cube_X. cbn [Nat.min].
  assert (K : forall a b : Z, IZR a / IZR b = val (a, 0%Z) / val (b, 0%Z)) by (intros; rewrite !val_z; reflexivity). rewrite (K 1%Z 12%Z).
  unfold corner_coord. cbn [Nat.eqb Nat.pow Nat.mul Nat.add Nat.div Nat.modulo Nat.divmod Nat.sub fst snd]. unfold c_lo, c_hi, fl.
  eexists; eexists. split; [feval; reflexivity|]. lia.
Qed.
