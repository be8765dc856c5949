(** On grids of spacing a power of two the determinants and volumes are computed without rounding errors. *)
From Coq Require Import Reals List Arith ZArith Lra Lia.
Import ListNotations.
From Flocq Require Import Core.
Require Import Verif.Base Verif.RBase Verif.RSum Verif.NatSum Verif.Spec_Mat Verif.Det Verif.Model_Jac Verif.Proof_Jac Verif.Model_Vol Verif.Spec_Vol Verif.Proof_Vol
  Verif.Spec_Float Verif.Float_Base Verif.Model_FloatLagrange Verif.Spec_FloatGeom Verif.Model_FloatGeom Verif.Proof_FloatGeom Verif.Proof_FloatGeom2 Verif.Proof_FloatGeom3.
Open Scope R_scope.

(** the computed number is the exact one, and it is on the grid *)
Definition exg (e M : Z) (x xf : R) : Prop := xf = x /\ on_grid e M x.
Lemma grid_exact e M x : (M <= 2 ^ 53)%Z -> on_grid e M x -> binary64 x = x.
Proof.
  intros HM (n & Hn & ->). destruct (Z.eq_dec (Z.abs n) (2 ^ 53)) as [E|E].
  - unfold binary64. apply round_generic; [typeclasses eauto|].
    assert (S : IZR n * bpow radix2 e = bpow radix2 (53 + e) \/ IZR n * bpow radix2 e = - bpow radix2 (53 + e)).
    { rewrite bpow_plus. assert (P : bpow radix2 53 = IZR (2 ^ 53)) by (rewrite <- IZR_Zpower by lia; reflexivity). rewrite P.
      assert (n = 2 ^ 53 \/ n = - 2 ^ 53)%Z as [->| ->] by lia; [left; reflexivity|right; rewrite opp_IZR; ring]. }
    destruct S as [-> | ->]; [|apply generic_format_opp]; apply generic_format_bpow; unfold FLX_exp; lia.
  - unfold binary64. apply round_generic; [typeclasses eauto|]. apply generic_format_FLX. exists (Float radix2 n e); [reflexivity|]. cbn [Fnum]. change (radix2 : Z) with 2%Z. lia.
Qed.
Lemma exg_add e M M' x y xf yf : exg e M x xf -> exg e M' y yf -> (M + M' <= 2 ^ 53)%Z -> exg e (M + M') (x + y) (binary64 (xf + yf)).
Proof.
  intros (-> & (n & Hn & En)) (-> & (m & Hm & Em)) H.
  assert (G : on_grid e (M + M') (x + y)) by (exists (n + m)%Z; split; [lia|rewrite plus_IZR, En, Em; ring]).
  split; [exact (grid_exact e _ _ H G)|exact G].
Qed.
Lemma exg_opp e M x xf : exg e M x xf -> exg e M (- x) (- xf).
Proof. intros (-> & (n & Hn & En)). split; [reflexivity|]. exists (- n)%Z. split; [lia|rewrite opp_IZR, En; ring]. Qed.
Lemma exg_sub e M M' x y xf yf : exg e M x xf -> exg e M' y yf -> (M + M' <= 2 ^ 53)%Z -> exg e (M + M') (x - y) (binary64 (xf - yf)).
Proof. intros H1 H2 H. apply (exg_add e M M' x (- y) xf (- yf)); [exact H1|apply exg_opp; exact H2|exact H]. Qed.
Lemma exg_mul e e' M M' x y xf yf : exg e M x xf -> exg e' M' y yf -> (M * M' <= 2 ^ 53)%Z -> exg (e + e') (M * M') (x * y) (binary64 (xf * yf)).
Proof.
  intros (-> & (n & Hn & En)) (-> & (m & Hm & Em)) H.
  assert (G : on_grid (e + e') (M * M') (x * y)).
  { exists (n * m)%Z. split; [rewrite Z.abs_mul; apply Z.mul_le_mono_nonneg; lia|rewrite mult_IZR, En, Em, bpow_plus; ring]. }
  split; [exact (grid_exact _ _ _ H G)|exact G].
Qed.
Lemma exg_val e M x xf : exg e M x xf -> xf = x.
Proof. intros (H & _). exact H. Qed.

(** entries of at most 10^5 grid steps: 6 * 10^15 < 2^53 *)
Lemma det_grid e (m : mat) : (forall i j, (i < 3)%nat -> (j < 3)%nat -> on_grid e 100000 (m i j)) -> det_cofactorf binary64 m = det3 m.
Proof.
  intros H. rewrite <- det_cofactor_det3.
  assert (A : forall i j, (i < 3)%nat -> (j < 3)%nat -> exg e 100000 (m i j) (m i j)) by (intros; split; [reflexivity|apply H; assumption]).
  assert (G : exists M, exg (e + (e + e)) M (det_cofactor m) (det_cofactorf binary64 m)); [|destruct G as (M & G); exact (exg_val _ _ _ _ G)].
  unfold det_cofactor, det_cofactorf. eexists.
  repeat first [eapply exg_mul | eapply exg_sub | eapply exg_add | apply A; lia]; cbn; lia.
Qed.
(** coordinates of at most 2^15 grid steps: 144 * 2^45 < 2^53 *)
Lemma vol_grid e (x y z : nat -> R) : (forall l, (l < 8)%nat -> on_grid e (2 ^ 15) (x l) /\ on_grid e (2 ^ 15) (y l) /\ on_grid e (2 ^ 15) (z l)) ->
  vol_formulaf binary64 x y z = binary64 (12 * vol_formula x y z * binary64 (1 / 12)).
Proof.
  intros H.
  assert (Ax : forall l, (l < 8)%nat -> exg e (2 ^ 15) (x l) (x l)) by (intros; split; [reflexivity|apply H; assumption]).
  assert (Ay : forall l, (l < 8)%nat -> exg e (2 ^ 15) (y l) (y l)) by (intros; split; [reflexivity|apply H; assumption]).
  assert (Az : forall l, (l < 8)%nat -> exg e (2 ^ 15) (z l) (z l)) by (intros; split; [reflexivity|apply H; assumption]).
  unfold vol_formulaf, vol_formula. cbv zeta.
  match goal with |- binary64 (?a * _) = binary64 (12 * (?b * (1 / 12)) * _) => assert (G : exists M, exg (e + (e + e)) M b a) end.
  { eexists. repeat first [eapply exg_mul | eapply exg_sub | eapply exg_add | apply exg_opp | apply Ax; lia | apply Ay; lia | apply Az; lia]; cbn; lia. }
  destruct G as (M & G). apply exg_val in G. rewrite G.
  match goal with |- binary64 (?b * _) = binary64 (12 * (?b * (1 / 12)) * _) => replace (12 * (b * (1 / 12))) with b by field end. reflexivity.
Qed.
Lemma vol_hex_grid e X N cell x0 y0 z0 : (forall l d, (l < 8)%nat -> (d < 3)%nat -> on_grid e (2 ^ 15) (X (N cell l) d)) ->
  fst (vol_hex_cellf binary64 X N cell x0 y0 z0) = binary64 (12 * hex_volume (fun l d => X (N cell l) d) * binary64 (1 / 12)).
Proof.
  intros HM. unfold vol_hex_cellf.
  assert (Gx := gatherf_val binary64 X N cell 0 x0). assert (Gy := gatherf_val binary64 X N cell 1 y0). assert (Gz := gatherf_val binary64 X N cell 2 z0).
  destruct (gatherf binary64 X N cell 0 x0) as (x & sx). destruct (gatherf binary64 X N cell 1 y0) as (y & sy). destruct (gatherf binary64 X N cell 2 z0) as (z & sz).
  cbn [fst] in *. rewrite <- (vol_exact (fun l d => X (N cell l) d) x y z Gx Gy Gz).
  assert (Q : forall l, (l < 8)%nat -> (nth l [0; 1; 3; 2; 4; 5; 7; 6]%nat 0%nat < 8)%nat) by (intros l Hl; do 8 (destruct l as [|l]; [cbn; lia|]); lia).
  apply (vol_grid e). intros l Hl. rewrite Gx, Gy, Gz by exact Hl. repeat split; apply HM; try lia; apply Q; exact Hl.
Qed.
