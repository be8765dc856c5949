(** Refinement in rounded arithmetic: examples.  The first mesh: two elements that list a common face in different orders. *)
From Coq Require Import Reals List Arith ZArith Lra Lia.
From Flocq Require Import Core.
Import ListNotations.
Require Import Verif.Base Verif.RBase Verif.RSum Verif.Model_Quad Verif.Model_Geom Verif.Proof_Geom Verif.Model_Refine Verif.Model_Ref Verif.Model_High Verif.Spec_Quad Verif.Spec_High
  Verif.Proof_High2 Verif.Proof_High3 Verif.Proof_High Verif.Model_Full Verif.Spec_Full Verif.Proof_Full Verif.Prop_Full Verif.Prop_Full2
  Verif.Spec_Float Verif.Float_Base Verif.Spec_FloatPoly Verif.Proof_FloatPoly Verif.Float_Eval Verif.Model_FloatLagrange Verif.Model_FloatRefine Verif.Spec_FloatRefine Verif.Proof_FloatRefine Verif.Proof_FloatRefine2 Verif.Proof_FloatRefine3 Verif.Proof_FloatRefine4 Verif.Proof_FloatRefine5.
Local Open Scope R_scope.

(** node n = 4 L + i + 2 j: layer L at x = 112 L; y is about 1024 i, z = 1024 j *)
Definition tcoords : list (Z * Z) := [
  (0, 0); (0, 0); (0, 0);
  (0, 0); (1024, 0); (0, 0);
  (0, 0); (0, 0); (1024, 0);
  (0, 0); (1024, 0); (1024, 0);
  (112, 0); (6, -46); (0, 0);
  (112, 0); (1024, 0); (0, 0);
  (112, 0); (6, -46); (1024, 0);
  (112, 0); (4503599627370495, -42); (1024, 0);
  (224, 0); (6, -46); (0, 0);
  (224, 0); (1024, 0); (0, 0);
  (224, 0); (6, -46); (1024, 0);
  (224, 0); (4503599627370495, -42); (1024, 0)]%Z.
Definition tconn : list nat := [0; 4; 1; 5; 2; 6; 3; 7; 8; 4; 10; 6; 9; 5; 11; 7]%nat.
Definition tX (n d : nat) : R := val (nth (n * 3 + d) tcoords (0, 0)%Z).
Definition tN (e v : nat) : nat := nth (e * 8 + v) tconn 0%nat.
Definition tmesh : cmesh := CMesh 12 2 (map (fun a => Some (val a)) tcoords) (map Some tconn).

Lemma t_describes : cdescribes tmesh tN tX.
Proof.
  split.
  - intros e v He Hv. cbn [tmesh cm_cells] in He. unfold cm_node, getu, get. cbn [tmesh cm_conn cm_nodes]. rewrite nth_error_map.
    assert (e = 0 \/ e = 1)%nat as [-> | ->] by lia; do 8 (destruct v as [|v]; [split; [reflexivity|vm_compute; repeat constructor]|]); lia.
  - intros n d Hn Hd. cbn [tmesh cm_nodes] in Hn. unfold cm_coord, getu, get. cbn [tmesh cm_coords]. unfold tX.
    do 12 (destruct n as [|n]; [do 3 (destruct d as [|d]; [reflexivity|]); lia|]). lia.
Qed.
Lemma v_int k : val (k, 0%Z) = IZR k.
Proof. unfold val. cbn. ring. Qed.
Definition ya : R := val (6, -46)%Z.
Definition yd : R := val (4503599627370495, -42)%Z.
Lemma ya_range : 0 < ya < 1.
Proof. unfold ya, val. cbn [fst snd]. assert (P := bpow_gt_0 radix2 (-46)). split; [nra|]. apply Rmult_lt_reg_r with (bpow radix2 46); [apply bpow_gt_0|]. rewrite Rmult_assoc, <- bpow_plus. change (bpow radix2 (-46 + 46)) with 1. change (bpow radix2 46) with (IZR (2 ^ 46)). lra. Qed.
Lemma yd_range : 1023 < yd < 1024.
Proof.
  unfold yd, val. cbn [fst snd]. assert (P := bpow_gt_0 radix2 (-42)). assert (Q : bpow radix2 (-42) * IZR (2 ^ 42) = 1) by (change (IZR (2 ^ 42)) with (bpow radix2 42); rewrite <- bpow_plus; reflexivity).
  change (2 ^ 42)%Z with 4398046511104%Z in Q. split; nra.
Qed.
Lemma t_box : is_box 12 tX (fun _ => 0) (fun i => match i with O => 224 | _ => 1024 end).
Proof.
  assert (A := ya_range). assert (D := yd_range).
  intros i Hi. split; [|split].
  - intros n Hn. unfold tX. do 12 (destruct n as [|n]; [do 3 (destruct i as [|i]; [cbn [nth tcoords Nat.add Nat.mul]; rewrite ?v_int; fold ya yd; lra|]); lia|]). lia.
  - exists 0%nat. split; [lia|]. unfold tX. do 3 (destruct i as [|i]; [cbn [nth tcoords Nat.add Nat.mul]; rewrite ?v_int; reflexivity|]). lia.
  - destruct i as [|[|[|i]]]; [exists 8%nat|exists 1%nat|exists 2%nat|lia]; (split; [lia|]); unfold tX; cbn [nth tcoords Nat.add Nat.mul]; rewrite ?v_int; reflexivity.
Qed.

(** * distances *)
Section P.
Context (u : R) (rnd : R -> R).
Hypothesis HD : double_like u rnd.
Context (K : R).
Hypothesis K0 : 0 <= K.
Hypothesis KR : rnd K = K.
Hypothesis KK : rnd (K * K) = K * K.
Let mono := dl_mono u rnd HD.
Lemma rnd_nonneg x : 0 <= x -> 0 <= rnd x.
Proof. intros H. rewrite <- (dl_0 u rnd HD). apply mono, H. Qed.
Lemma sq_ge x : K <= Rabs x -> K * K <= rnd (rnd x * rnd x).
Proof.
  intros H. assert (E : K <= Rabs (rnd x)).
  { destruct (Rle_dec 0 x) as [P|P].
    - rewrite Rabs_right in H by lra. rewrite Rabs_right by (apply Rle_ge, rnd_nonneg, P). rewrite <- KR. apply mono, H.
    - rewrite Rabs_left in H by lra. apply Rle_trans with (rnd (- x)); [rewrite <- KR; apply mono, H|]. rewrite (dl_opp u rnd HD). rewrite <- Rabs_Ropp. apply Rle_abs. }
  rewrite <- KK. apply mono. replace (rnd x * rnd x) with (Rabs (rnd x) * Rabs (rnd x)) by (rewrite <- Rabs_mult; apply Rabs_right; nra). nra.
Qed.
Lemma sq_nonneg x : 0 <= rnd (rnd x * rnd x).
Proof. apply rnd_nonneg. nra. Qed.
Lemma ge_rnd x : K * K <= x -> K * K <= rnd x.
Proof. intros H. rewrite <- KK. apply mono, H. Qed.
Lemma node_distf_ge v a b d : (d < 3)%nat -> K <= Rabs (v b d - v a d) -> K <= node_distf rnd v a b.
Proof.
  intros Hd H. unfold node_distf. cbv zeta. apply sq_ge in H.
  assert (N := fun d => sq_nonneg (v b d - v a d)). set (s := fun d : nat => rnd (rnd (v b d - v a d) * rnd (v b d - v a d))) in *.
  change (K <= Rabs (rnd (sqrt (rnd (rnd (s 0%nat + s 1%nat) + s 2%nat))))).
  assert (Z0 := N 0%nat). assert (Z1 := N 1%nat). assert (Z2 := N 2%nat). fold (s 0%nat) in Z0. fold (s 1%nat) in Z1. fold (s 2%nat) in Z2. fold (s d) in H.
  assert (Q : K * K <= rnd (rnd (s 0%nat + s 1%nat) + s 2%nat)).
  { apply ge_rnd. assert (Q01 := rnd_nonneg (s 0%nat + s 1%nat) ltac:(lra)). destruct d as [|[|[|d]]]; [| | |lia].
    - assert (K * K <= rnd (s 0%nat + s 1%nat)) by (apply ge_rnd; lra). lra.
    - assert (K * K <= rnd (s 0%nat + s 1%nat)) by (apply ge_rnd; lra). lra.
    - lra. }
  eapply Rle_trans; [|apply Rle_abs]. rewrite <- KR at 1. apply mono. rewrite <- (sqrt_square K) by exact K0. apply sqrt_le_1_alt. exact Q.
Qed.
Lemma node_distf_eq v a b : v a 0%nat - v b 0%nat = K -> v b 1%nat = v a 1%nat -> v b 2%nat = v a 2%nat -> node_distf rnd v a b = K.
Proof.
  intros E0 E1 E2. unfold node_distf. cbv zeta. replace (v b 0%nat - v a 0%nat) with (- K) by lra. rewrite E1, E2, !Rminus_eq_0, (dl_opp u rnd HD), KR. replace (- K * - K) with (K * K) by ring. rewrite (dl_0 u rnd HD), Rmult_0_l, (dl_0 u rnd HD), !Rplus_0_r, !KK.
  rewrite sqrt_square, KR by exact K0. apply Rabs_right. lra.
Qed.
Lemma dist_min_eq start v : K <= start -> (forall a b, (a < b < 8)%nat -> exists d, (d < 3)%nat /\ K <= Rabs (v b d - v a d)) ->
  (exists a b, (a < b < 8)%nat /\ v a 0%nat - v b 0%nat = K /\ v b 1%nat = v a 1%nat /\ v b 2%nat = v a 2%nat) -> cell_dist_minf rnd start v = K.
Proof.
  intros Hs H (a & b & Hab & E). unfold cell_dist_minf. assert (In1 := pairs_complete a b Hab). assert (So := pairs_sound).
  assert (G : forall l s, (forall p, In p l -> K <= node_distf rnd v (fst p) (snd p)) -> K <= s -> K <= fold_left (fun m p => Rmin (node_distf rnd v (fst p) (snd p)) m) l s).
  { induction l as [|q l IH]; intros s Hl Hs0; cbn [fold_left]; [exact Hs0|]. apply IH; [intros q' Hq; apply Hl; right; exact Hq|]. apply Rmin_glb; [apply Hl; left; reflexivity|exact Hs0]. }
  assert (G2 : forall l s, (In (a, b) l \/ s <= K) -> fold_left (fun m p => Rmin (node_distf rnd v (fst p) (snd p)) m) l s <= K).
  { induction l as [|q l IH]; intros s Hl; cbn [fold_left]; [destruct Hl as [[]|Hl]; exact Hl|]. apply IH. destruct Hl as [[-> |Hl]|Hl]; [right|left; exact Hl|right].
    - cbn [fst snd]. rewrite node_distf_eq by apply E. apply Rmin_l.
    - eapply Rle_trans; [apply Rmin_r|exact Hl]. }
  apply Rle_antisym; [apply G2; left; exact In1|]. apply G; [|exact Hs]. intros (x, y) Hp. apply So in Hp. cbn [fst snd]. destruct (H x y Hp) as (d & Hd & Q). exact (node_distf_ge v x y d Hd Q).
Qed.
End P.
Lemma last_distf_v rnd m N X ne : cdescribes m N X -> cm_cells m = S ne ->
  exists v, (forall l d, (l < 8)%nat -> (d < 3)%nat -> v l d = X (N ne l) d) /\ last_distf rnd m = Ok (cell_dist_minf rnd (rnd (10 ^ 64)) v).
Proof.
  intros HM Ec. unfold last_distf. rewrite Ec.
  destruct (loop_inv (fun k (d : option R) => (0 < k)%nat -> exists v, (forall l d, (l < 8)%nat -> (d < 3)%nat -> v l d = X (N (k - 1)%nat l) d) /\ d = Some (cell_dist_minf rnd (rnd (10 ^ 64)) v)) (S ne)
    (fun c _ => do v <- cell_verts m c; Ok (Some (cell_dist_minf rnd (rnd (10 ^ 64)) v))) None) as (o & E & H).
  - lia.
  - intros c o Hc _. destruct (cell_verts_ok m N X c HM ltac:(lia)) as (v & -> & Hv). cbn [bind]. eexists. split; [reflexivity|]. intros _. exists v. split; [|reflexivity]. replace (S c - 1)%nat with c by lia. exact Hv.
  - rewrite E. cbn [bind]. destruct (H ltac:(lia)) as (v & Hv & ->). exists v. replace (S ne - 1)%nat with ne in Hv by lia. auto.
Qed.
Lemma keys_h u rnd p m pts (pos : nat -> nat -> R) ne mx mn d h : double_like u rnd -> let ng := (pts1 p ^ 3)%nat in
  cm_cells m = S ne -> mesh_box (rnd (10 ^ 16)) m = Ok (mx, mn) -> last_distf rnd m = Ok d -> rnd (d / rnd (7 * INR (Nat.max 1 p))) = h -> h <> 0 ->
  (forall g i, (g < S ne * ng)%nat -> (i < 3)%nat -> getu pts (g * 3 + i) = Ok (pos g i)) ->
  exists ks, refine_keysf rnd p m pts = Ok ks /\ length ks = (S ne * ng)%nat /\ forall g, (g < S ne * ng)%nat -> nth g ks 0%nat = Z.to_nat (keyf rnd h mn mx (pos g)).
Proof.
  intros HD ng Ec Eb Ed Eh Hh HP. unfold refine_keysf. rewrite Eb. cbn [bind]. rewrite Ed. cbn [bind]. rewrite sub_max, pts1_model, Ec.
  assert (U1 := dl_u1 u rnd HD). assert (M1 := max1_pos p). assert (Q := rnd_pos u U1 rnd (dl_r u rnd HD) (7 * INR (Nat.max 1 p)) ltac:(lra)). rewrite (rdivf_ok rnd) by lra. cbn [bind]. rewrite Eh.
  destruct (binsf_ok rnd h mx mn Hh) as (b & -> & Ebi). cbn [bind]. fold ng. rewrite (Nat.mul_comm ng).
  destruct (loop_inv (fun n (ks : list nat) => length ks = n /\ forall g, (g < n)%nat -> nth g ks 0%nat = Z.to_nat (keyf rnd h mn mx (pos g)))
    (S ne * ng) (fun g ks => do k <- point_keyf rnd h mn b pts g; Ok (ks ++ [k])) []) as (ks & E & L & H).
  - split; [reflexivity|intros; lia].
  - intros g ks Hg (L & H). cbn beta. rewrite (point_keyf_ok u rnd HD h mx mn b pts g (pos g)) by (exact Hh || exact Ebi || (intros i Hi; apply HP; assumption)). cbn [bind].
    eexists. split; [reflexivity|]. rewrite app_length, L. split; [cbn; lia|]. intros g' Hg'.
    destruct (Nat.eq_dec g' g) as [-> |]; [rewrite app_nth2, L, Nat.sub_diag by lia; reflexivity|]. rewrite app_nth1 by lia. apply H. lia.
  - exists ks. auto.
Qed.

(** * the example *)
Ltac fstep :=
  match goal with
  | |- context [binary64 (val ?a - val ?b)] => let c := eval vm_compute in (fsub a b) in match c with Some ?c' => rewrite (fsub_ok a b c' eq_refl) end
  | |- context [binary64 (val ?a + val ?b)] => let c := eval vm_compute in (fadd a b) in match c with Some ?c' => rewrite (fadd_ok a b c' eq_refl) end
  | |- context [binary64 (val ?a * val ?b)] => let c := eval vm_compute in (fmul a b) in match c with Some ?c' => rewrite (fmul_ok a b c' eq_refl) end
  | |- context [binary64 (val ?a / val ?b)] => let c := eval vm_compute in (fdiv a b) in match c with Some ?c' => rewrite (proj1 (fdiv_ok a b c' eq_refl)) end
  end.
Lemma fac0 s : fac binary64 0 s = 1.
Proof. unfold fac. rewrite Rmult_0_l, (dl_0 _ _ double_like_b64), Rplus_0_r. apply (dl_1 _ _ double_like_b64). Qed.
Lemma face_mid x : face_val binary64 0 0 x = binary64 (binary64 (binary64 (binary64 (x 0%nat 0%nat / 4) + binary64 (x 1%nat 0%nat / 4)) + binary64 (x 0%nat 1%nat / 4)) + binary64 (x 1%nat 1%nat / 4)).
Proof.
  unfold face_val, face_term. rewrite !fac0, Rmult_1_r, (dl_1 _ _ double_like_b64).
  replace (1 / 4 * x 0%nat 0%nat) with (x 0%nat 0%nat / 4) by field. replace (1 / 4 * x 1%nat 0%nat) with (x 1%nat 0%nat / 4) by field. replace (1 / 4 * x 0%nat 1%nat) with (x 0%nat 1%nat / 4) by field. replace (1 / 4 * x 1%nat 1%nat) with (x 1%nat 1%nat / 4) by field. reflexivity.
Qed.
Lemma lob3 : lobf binary64 3 1 = 0.
Proof. unfold lobf. cbn. replace (dec 0 0) with 0 by (unfold dec; cbn; lra). apply (dl_0 _ _ double_like_b64). Qed.
Lemma v4 : 4 = val (4, 0)%Z. Proof. rewrite v_int. reflexivity. Qed.
(** the middle of the common face, as computed in the two elements *)
Definition mid0 (i : nat) : R := match i with O => val (112, 0)%Z | 1%nat => val (9007199254740991, -44)%Z | _ => val (512, 0)%Z end.
Definition mid1 (i : nat) : R := match i with O => val (112, 0)%Z | _ => val (512, 0)%Z end.
Lemma val_scale m e k m' e' : (0 <= k)%Z -> m = (m' * 2 ^ k)%Z -> (e + k)%Z = e' -> val (m, e) = val (m', e').
Proof. intros Hk -> <-. unfold val. cbn [fst snd]. rewrite mult_IZR, bpow_plus, <- (IZR_Zpower radix2 k) by exact Hk. cbn [radix_val radix2]. ring. Qed.
Ltac norm := match goal with |- val (?m, ?e) = val (?m', ?e') =>
  first [reflexivity | let k := eval vm_compute in (e' - e)%Z in apply (val_scale m e k m' e'); [lia|reflexivity|reflexivity]] end.
Lemma pos14 i : (i < 3)%nat -> tri_posf binary64 1 tN tX 14 i = mid0 i.
Proof.
  intros Hi. change 14%nat with (0 * pts1 1 ^ 3 + at3 (pts1 1) 0 (1 * Spec_Full.sub1 1) 1 1)%nat.
  rewrite (face_pos _ _ double_like_b64 1 tN tX ltac:(lia) 0 0 1 1 1 i) by (cbn; lia). change (pts1 1) with 3%nat. rewrite lob3, face_mid, v4. unfold tX, tN, at3.
  destruct i as [|[|[|i]]]; [| | |lia]; cbn [nth tcoords tconn Nat.add Nat.mul mid0]; repeat fstep; norm.
Qed.
Lemma pos41 i : (i < 3)%nat -> tri_posf binary64 1 tN tX 41 i = mid1 i.
Proof.
  intros Hi. change 41%nat with (1 * pts1 1 ^ 3 + at3 (pts1 1) 0 (1 * Spec_Full.sub1 1) 1 1)%nat.
  rewrite (face_pos _ _ double_like_b64 1 tN tX ltac:(lia) 1 0 1 1 1 i) by (cbn; lia). change (pts1 1) with 3%nat. rewrite lob3, face_mid, v4. unfold tX, tN, at3.
  destruct i as [|[|[|i]]]; [| | |lia]; cbn [nth tcoords tconn Nat.add Nat.mul mid1]; repeat fstep; norm.
Qed.

Lemma b64_112 : binary64 112 = 112.
Proof. apply b64_ints. reflexivity. Qed.
Lemma t_dist : last_distf binary64 tmesh = Ok 112.
Proof.
  destruct (last_distf_v binary64 tmesh tN tX 1 t_describes eq_refl) as (v & Hv & ->). f_equal.
  assert (A := ya_range). assert (D := yd_range).
  apply (dist_min_eq u64 binary64 double_like_b64 112); [lra|exact b64_112|replace (112 * 112) with 12544 by ring; apply b64_ints; reflexivity| | |].
  - rewrite <- b64_112 at 1. apply (dl_mono _ _ double_like_b64). apply Rle_trans with (10 ^ 3); [lra|]. apply Rle_pow; [lra|lia].
  - intros a b Hab.
    assert (G : forall d x y, (d < 3)%nat -> v b d = x -> v a d = y -> 112 <= x - y \/ 112 <= y - x -> exists d, (d < 3)%nat /\ 112 <= Rabs (v b d - v a d)).
    { intros d x y Hd Ex Ey Q. exists d. split; [exact Hd|]. rewrite Ex, Ey. destruct Q as [Q|Q]; [eapply Rle_trans; [exact Q|apply Rle_abs]|]. rewrite Rabs_minus_sym. eapply Rle_trans; [exact Q|apply Rle_abs]. }
    assert (H8 : forall l d, (l < 8)%nat -> (d < 3)%nat -> v l d = tX (tN 1 l) d) by exact Hv.
    do 8 (destruct b as [|b]; [try (exfalso; lia);
      do 8 (destruct a as [|a]; [try (exfalso; lia);
        (eapply (G 0%nat); [lia|apply H8; lia|apply H8; lia|unfold tX, tN; cbn [nth tcoords tconn Nat.add Nat.mul]; rewrite !v_int; lra]) ||
        (eapply (G 2%nat); [lia|apply H8; lia|apply H8; lia|unfold tX, tN; cbn [nth tcoords tconn Nat.add Nat.mul]; rewrite !v_int; lra]) ||
        (eapply (G 1%nat); [lia|apply H8; lia|apply H8; lia|unfold tX, tN; cbn [nth tcoords tconn Nat.add Nat.mul]; rewrite ?v_int; fold ya yd; lra])|]); exfalso; lia|]). exfalso; lia.
  - exists 0%nat, 1%nat. split; [lia|]. rewrite !Hv by lia. unfold tX, tN; cbn [nth tcoords tconn Nat.add Nat.mul]; rewrite !v_int. repeat split; lra.
Qed.
Lemma e14 : binary64 (/ 10 ^ 14) = val (6338253001141147, -99)%Z.
Proof.
  replace (/ 10 ^ 14) with (IZR 1 / IZR (10 ^ 14) * bpow radix2 0) by (change (bpow radix2 0) with 1; rewrite Rmult_1_r; unfold Rdiv; rewrite Rmult_1_l; f_equal; rewrite pow_IZR; reflexivity).
  apply fr_ok; [reflexivity|reflexivity].
Qed.


Lemma v0 : 0 = val (0, 0)%Z. Proof. rewrite v_int. reflexivity. Qed.
Lemma v16 : 16 = val (16, 0)%Z. Proof. rewrite v_int. reflexivity. Qed.
Lemma y_bins mn : mn 1%nat = 0 -> ibin binary64 (scaled binary64 16 mn mid0 1) = 31%Z /\ ibin binary64 (scaled binary64 16 mn mid1 1) = 32%Z.
Proof.
  intros E. unfold ibin, scaled. rewrite E, e14, v0, v16. cbn [mid0 mid1]. repeat fstep.
  assert (S := small_lt1 u64 binary64 double_like_b64).
  assert (Q1 : val (9007199254740991, -48)%Z = 32 - bpow radix2 (-48)).
  { unfold val. cbn [fst snd]. change 9007199254740991%Z with (2 ^ 53 - 1)%Z. rewrite minus_IZR. change (IZR (2 ^ 53)) with (bpow radix2 53). rewrite Rmult_minus_distr_r, <- bpow_plus. change (bpow radix2 (53 + -48)) with 32. lra. }
  assert (B : 0 < bpow radix2 (-48) < 1) by (split; [apply bpow_gt_0|]; change 1 with (bpow radix2 0); apply bpow_lt; lia).
  split.
  - rewrite Q1. rewrite Rmax_right by lra. apply trunc_unique; lra.
  - match goal with |- context [val ?a] => replace (val a) with (val (32, 0)%Z) by (symmetry; norm) end. rewrite v_int, Rmax_right by lra. apply trunc_unique; lra.
Qed.
Lemma x_bins mn mx : mn 0%nat = 0 -> mx 0%nat = 224 -> (1 <= ibin binary64 (scaledb binary64 16 mn mx 0))%Z.
Proof.
  intros E0 E1. unfold ibin, scaledb. rewrite E0, E1. replace (224 - 0) with 224 by ring. rewrite (b64_ints 224%Z) by reflexivity. replace (224 + 1) with 225 by ring. rewrite (b64_ints 225%Z) by reflexivity.
  assert (P := rnd_pos u64 (dl_u1 _ _ double_like_b64) binary64 (dl_r _ _ double_like_b64) (/ 10 ^ 14) (inv_pow_pos 14)).
  assert (Q : 225 <= binary64 (225 + binary64 (/ 10 ^ 14))) by (rewrite <- (b64_ints 225%Z) at 1 by reflexivity; apply (dl_mono _ _ double_like_b64); lra).
  assert (Q2 : 1 <= binary64 (binary64 (225 + binary64 (/ 10 ^ 14)) / 16)) by (rewrite <- (dl_1 _ _ double_like_b64) at 1; apply (dl_mono _ _ double_like_b64); lra).
  set (f := binary64 (binary64 (225 + binary64 (/ 10 ^ 14)) / 16)) in *. assert (M := Rmax_r (binary64 (/ 10 ^ 16)) f).
  assert (T := trunc_bounds (Rmax (binary64 (/ 10 ^ 16)) f) ltac:(lra)). assert (0 < trunc (Rmax (binary64 (/ 10 ^ 16)) f))%Z by (apply lt_IZR; lra). lia.
Qed.
Lemma t_spacing : corner_spacing tN tX 1 112.
Proof.
  assert (A := ya_range). assert (D := yd_range). split.
  - assert (G : forall x y z, 112 * 112 <= x ^ 2 + y ^ 2 + z ^ 2 -> 112 <= sqrt (x ^ 2 + y ^ 2 + z ^ 2)) by (intros x y z H; rewrite <- (sqrt_square 112) by lra; apply sqrt_le_1_alt; exact H).
    intros a b Ha Hb Ne. apply G.
    do 8 (destruct a as [|a]; [do 8 (destruct b as [|b]; [try (exfalso; lia); unfold tX, tN; cbn [nth tcoords tconn Nat.add Nat.mul]; rewrite ?v_int; fold ya yd; try nra|]); exfalso; lia|]). exfalso; lia.
  - exists 0%nat, 1%nat. repeat (split; [lia|]). unfold tX, tN; cbn [nth tcoords tconn Nat.add Nat.mul]; rewrite !v_int. rewrite <- (sqrt_square 112) at 1 by lra. f_equal. ring.
Qed.
Lemma t_doubles n d : binary64 (tX n d) = tX n d.
Proof.
  unfold tX. assert (Q : forall a, In a tcoords -> binary64 (val a) = val a).
  { intros a Ha. unfold tcoords in Ha. cbn [In] in Ha.
    assert (G : forall m e, (Z.abs m < 2 ^ 53)%Z -> binary64 (val (m, e)) = val (m, e)).
    { intros m e H. unfold binary64. apply round_generic; [typeclasses eauto|]. apply generic_format_FLX. exists (Float radix2 m e); [reflexivity|exact H]. }
    repeat (destruct Ha as [<- |Ha]; [apply G; reflexivity|]). contradiction. }
  destruct (nth_in_or_default (n * 3 + d) tcoords (0, 0)%Z) as [I| ->]; [apply Q, I|]. rewrite v_int. apply (dl_0 _ _ double_like_b64).
Qed.
Lemma t_exact i : (i < 3)%nat -> tri_pos 1 tN tX 14 i = tri_pos 1 tN tX 41 i.
Proof.
  intros Hi. rewrite <- !tri_posf_id.
  assert (Q : forall e, (e < 2)%nat -> tri_posf idr 1 tN tX (e * 27 + 14) i = face_val idr (lobf idr 3 1) (lobf idr 3 1) (fun a b => tX (tN e (at3 2 0 1 a b)) i)) by (intros e He; exact (face_pos _ _ id_double_like 1 tN tX ltac:(lia) e 0 1 1 1 i ltac:(lia) ltac:(lia) ltac:(cbn; lia) ltac:(cbn; lia))).
  assert (Q0 := Q 0%nat ltac:(lia)). assert (Q1 := Q 1%nat ltac:(lia)). cbn [Nat.mul Nat.add] in Q0, Q1. rewrite Q0, Q1. change (pts1 1) with 3%nat.
  assert (L : lobf idr 3 1 = 0) by (unfold lobf; cbn; unfold idr, dec; cbn; lra). rewrite L.
  unfold face_val, face_term, fac, idr. rewrite !Rmult_0_l, !Rplus_0_r. unfold tN, at3. cbn [nth tconn Nat.add Nat.mul]. ring.
Qed.

(** two elements with a common face whose corners they list in different orders (element 1 has the two directions of the face swapped) *)
Theorem transposed_face : exists r r' ve v v',
  refine_cells 1 tmesh = Ok r /\ node_in_gauss (rf_merged r) 14 = Ok ve /\ node_in_gauss (rf_merged r) 41 = Ok ve /\
  refine_cellsf binary64 1 tmesh = Ok r' /\ node_in_gauss (rf_merged r') 14 = Ok v /\ node_in_gauss (rf_merged r') 41 = Ok v' /\ v <> v'.
Proof.
  assert (H64 : 0 < 112 <= 10 ^ 64) by (split; [lra|]; apply Rle_trans with (10 ^ 3); [lra|]; apply Rle_pow; [lra|lia]).
  destruct (C61_refined_mesh 1 tmesh tN tX 112 1 ltac:(lia) t_describes eq_refl t_spacing H64) as (r & nd & Er & H). cbv zeta in H. change (2 * pts1 1 ^ 3)%nat with 54%nat in H. destruct H as (_ & _ & Hnd & _ & _ & Hs & _).
  destruct (refine_pointsf_ok binary64 1 tmesh tN tX ltac:(lia) t_describes) as (pts & Epts & Gpts).
  destruct (box_is (binary64 (10 ^ 16)) tmesh tN tX _ _ t_describes t_box) as (mx & mn & Ebox & Hbox).
  { intros n i Hn Hi. assert (Q := t_box i Hi). destruct Q as (Q & _). specialize (Q n Hn). assert (X1 : Rabs (tX n i) <= 1024) by (apply Rabs_le; destruct i; lra). eapply Rle_trans; [exact X1|].
    rewrite <- (b64_ints 1024%Z) by reflexivity. apply (dl_mono _ _ double_like_b64). apply Rle_trans with (10 ^ 4); [lra|]. apply Rle_pow; [lra|lia]. }
  destruct (keys_h u64 binary64 1 tmesh pts (tri_posf binary64 1 tN tX) 1 mx mn 112 16 double_like_b64 eq_refl Ebox t_dist) as (ks & Eks & Lks & Hks); [|lra|exact Gpts|].
  { change (INR (Nat.max 1 1)) with 1. rewrite Rmult_1_r, (b64_ints 7%Z) by reflexivity. replace (112 / 7) with 16 by field. apply b64_ints. reflexivity. }
  destruct (refine_tail_ok 1 1 pts ks _ ltac:(lia) Gpts Lks) as (r' & nd' & own & Er' & H'). cbv zeta in H'. change (2 * pts1 1 ^ 3)%nat with 54%nat in H', Hks. destruct H' as (_ & _ & _ & Hnd' & _ & _ & _ & Hkey & _).
  exists r, r', (nd 14%nat), (nd' 14%nat), (nd' 41%nat). split; [exact Er|]. split; [apply Hnd; lia|].
  split; [rewrite (Hs 14%nat 41%nat ltac:(lia) ltac:(lia) t_exact); apply Hnd; lia|].
  split; [rewrite refine_cellsf_tail, Epts; cbn [bind]; rewrite Eks; exact Er'|]. split; [apply Hnd'; lia|]. split; [apply Hnd'; lia|].
  intros Q. apply Hkey in Q; [|lia|lia]. rewrite !Hks in Q by lia. apply Z2Nat.inj in Q; try apply (keyf_nonneg u64 binary64 double_like_b64).
  destruct (Hbox 0%nat ltac:(lia)) as (M0 & X0). destruct (Hbox 1%nat ltac:(lia)) as (M1 & X1). destruct (y_bins mn M1) as (Y0 & Y1). assert (B0 := x_bins mn mx M0 X0).
  unfold keyf, key3 in Q.
  assert (S0 : forall i, (i < 3)%nat -> scaled binary64 16 mn (tri_posf binary64 1 tN tX 14) i = scaled binary64 16 mn mid0 i) by (intros i Hi; unfold scaled; rewrite pos14 by exact Hi; reflexivity).
  assert (S1 : forall i, (i < 3)%nat -> scaled binary64 16 mn (tri_posf binary64 1 tN tX 41) i = scaled binary64 16 mn mid1 i) by (intros i Hi; unfold scaled; rewrite pos41 by exact Hi; reflexivity).
  rewrite !S0, !S1, Y0, Y1 in Q by lia. change (scaled binary64 16 mn mid1 0) with (scaled binary64 16 mn mid0 0) in Q. change (scaled binary64 16 mn mid1 2) with (scaled binary64 16 mn mid0 2) in Q. lia.
Qed.

(** * the unit cube at order 1: rounding does not change the numbering *)
Lemma cube_box : is_box 8 cube_x (fun _ => 0) (fun _ => 1).
Proof.
  intros i Hi. split; [|split].
  - intros n Hn. unfold cube_x. do 8 (destruct n as [|n]; [do 3 (destruct i as [|i]; [cbn; lra|]); lia|]). lia.
  - exists 0%nat. split; [lia|]. do 3 (destruct i as [|i]; [cbn; reflexivity|]). lia.
  - exists 7%nat. split; [lia|]. do 3 (destruct i as [|i]; [cbn; reflexivity|]). lia.
Qed.
Lemma cube_pos g i : (g < 27)%nat -> (i < 3)%nat -> tri_pos 1 (fun _ l => l) cube_x g i = 0 \/ tri_pos 1 (fun _ l => l) cube_x g i = / 2 \/ tri_pos 1 (fun _ l => l) cube_x g i = 1.
Proof.
  intros Hg Hi. rewrite tri_pos_map. change (pts1 1) with 3%nat.
  assert (L : forall k, (k < 3)%nat -> lob 3 k = -1 \/ lob 3 k = 0 \/ lob 3 k = 1) by (intros k Hk; unfold lob; do 3 (destruct k as [|k]; [cbn; unfold dec; cbn; lra|]); lia).
  assert (L' := L (grid 3 g i) (grid_lt 3 g i ltac:(lia))). set (q := fun j => lob 3 (grid 3 g j)). fold (q i) in L'.
  assert (E : tri_map (fun v => cube_x v i) q = (1 + q i) / 2) by (unfold tri_map, tri_basis, ref_vert, cube_x; destruct i as [|[|[|i]]]; [| | |lia]; cbn; field).
  rewrite E. lra.
Qed.
Lemma gamma_small m : (m <= 16)%nat -> 0 <= gamma u64 m <= (INR m + 1) * u64.
Proof.
  intros Hm. unfold gamma. assert (B := u64_range). assert (S : u64 <= / 1024) by (unfold u64; apply Rinv_le_contravar; [lra|]; apply Rle_trans with (2 ^ 10); [lra|]; apply Rle_pow; [lra|lia]).
  assert (I : 0 <= INR m <= 16) by (split; [apply pos_INR|]; apply (le_INR m 16) in Hm; cbn [INR] in Hm; lra). set (x := INR m) in *.
  assert (P : 0 < 1 - x * u64) by nra. split; [apply Rmult_le_pos; [nra|apply Rlt_le, Rinv_0_lt_compat, P]|].
  apply Rmult_le_reg_r with (1 - x * u64); [exact P|]. unfold Rdiv. rewrite Rmult_assoc, Rinv_l, Rmult_1_r by lra.
  replace ((x + 1) * u64 * (1 - x * u64)) with (x * u64 + u64 * (1 - (x + 1) * (x * u64))) by ring. assert ((x + 1) * (x * u64) <= 17 * (16 * / 1024)) by (apply Rmult_le_compat; nra). nra.
Qed.
Lemma u_e14 : 80 * u64 <= / 10 ^ 14.
Proof.
  unfold u64. apply Rmult_le_reg_r with (2 ^ 53 * 10 ^ 14); [apply Rmult_lt_0_compat; apply pow_lt; lra|].
  replace (80 * / 2 ^ 53 * (2 ^ 53 * 10 ^ 14)) with (80 * 10 ^ 14) by (field; apply pow_nonzero; lra). replace (/ 10 ^ 14 * (2 ^ 53 * 10 ^ 14)) with (2 ^ 53) by (field; apply pow_nonzero; lra).
  rewrite (pow_IZR 10 14), (pow_IZR 2 53), <- mult_IZR. apply IZR_le. vm_compute. discriminate.
Qed.
Lemma clear_near eta t k f : 0 <= f -> 0 <= eta -> t = IZR k + f -> eta < f -> eta < 1 - f -> clear eta t.
Proof.
  intros Hf He -> H1 H2 n Hn. destruct (Z.le_gt_cases n k) as [L|L].
  - apply IZR_le in L. rewrite Rabs_right by lra. lra.
  - assert (k + 1 <= n)%Z as L2 by lia. apply IZR_le in L2. rewrite plus_IZR in L2. rewrite Rabs_left by lra. lra.
Qed.
Theorem cube_same : exists r r', refine_cells 1 (csingle cube_x) = Ok r /\ refine_cellsf binary64 1 (csingle cube_x) = Ok r' /\ rf_merged r' = rf_merged r.
Proof.
  assert (H64 : 0 < 1 <= 10 ^ 64) by (split; [lra|apply pow_R1_Rle; lra]). assert (B := u64_range). assert (U := u_e14).
  assert (G15 := gamma_small 15 ltac:(lia)). assert (G12 := gamma_small 12 ltac:(lia)). assert (G3 := gamma_small 3 ltac:(lia)). cbn [INR] in G15, G12, G3.
  assert (S : / 10 ^ 14 <= / 1000) by (apply Rinv_le_contravar; [lra|]; apply Rle_trans with (10 ^ 3); [lra|]; apply Rle_pow; [lra|lia]).
  assert (Eh : forall x, x / node_bin 1 1 = x * 7) by (intros x; unfold node_bin; change (INR (Nat.max 1 1)) with 1; field).
  set (e := / 10 ^ 14) in *. set (E := gamma u64 15 * 1 + 3 / 2 * gamma u64 3 * 1).
  assert (HE : 0 <= E <= 22 * u64) by (unfold E; lra).
  assert (He : (E + gamma u64 12 * (1 + E + e)) * 7 < 7 * e) by nra. assert (He0 : 0 <= (E + gamma u64 12 * (1 + E + e)) * 7) by nra.
  assert (He' : gamma u64 12 * (1 + 1 + e) * 7 < 7 * e) by nra. assert (He0' : 0 <= gamma u64 12 * (1 + 1 + e) * 7) by nra.
  destruct (same_numbering u64 binary64 1 (csingle cube_x) (fun _ l => l) cube_x 1 0 (fun _ => 0) (fun _ => 1) 1 1 double_like_b64 ltac:(lia)) as (r & r' & A1 & A2 & A3 & _).
  - cbn [INR]. assert (S0 : u64 <= / 1024) by (unfold u64; apply Rinv_le_contravar; [lra|]; apply Rle_trans with (2 ^ 10); [lra|]; apply Rle_pow; [lra|lia]). lra.
  - apply csingle_describes.
  - reflexivity.
  - exact cube_spacing.
  - exact H64.
  - exact cube_box.
  - intros; lra.
  - intros n i Hn Hi. destruct (cube_box i Hi) as (Q & _). specialize (Q n Hn). apply Rabs_le. lra.
  - apply pow_R1_Rle; lra.
  - change (1 * pts1 1 ^ 3)%nat with 27%nat. intros g i Hg Hi. fold e E. rewrite !Eh. destruct (cube_pos g i Hg Hi) as [-> |[-> | ->]].
    + apply (clear_near _ _ 0 (7 * e)); lra.
    + apply (clear_near _ _ 3 (/ 2 + 7 * e)); lra.
    + apply (clear_near _ _ 7 (7 * e)); lra.
  - intros i Hi. fold e. rewrite !Eh. apply (clear_near _ _ 14 (7 * e)); lra.
  - exists r, r'. auto.
Qed.

