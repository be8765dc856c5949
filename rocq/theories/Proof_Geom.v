(** Proofs about Model_Geom: centres, trilinear map, hash spacing and keys. *)
From Coq Require Import Reals List Arith ZArith Lra Lia.
Import ListNotations.
Require Import Verif.Base Verif.RBase Verif.Spec_Patch Verif.Model_Geom.
Open Scope R_scope.

(** ---- truncation ---- *)
Lemma trunc_bounds x : 0 <= x -> IZR (trunc x) <= x < IZR (trunc x) + 1.
Proof.
  intros H. unfold trunc. destruct (Rle_dec 0 x); [|contradiction].
  destruct (base_Int_part x) as (A & B). lra.
Qed.
Lemma trunc_nonneg x : 0 <= x -> (0 <= trunc x)%Z.
Proof.
  intros H. assert (B := trunc_bounds x H). assert (-1 < trunc x)%Z by (apply lt_IZR; simpl; lra). lia.
Qed.
Lemma trunc_unique x z : 0 <= x -> IZR z <= x < IZR z + 1 -> trunc x = z.
Proof.
  intros H Hz. assert (B := trunc_bounds x H).
  assert (trunc x < z + 1)%Z by (apply lt_IZR; rewrite plus_IZR; lra).
  assert (z < trunc x + 1)%Z by (apply lt_IZR; rewrite plus_IZR; lra). lia.
Qed.
Lemma trunc_apart x y : 0 <= x -> x + 1 <= y -> trunc x <> trunc y.
Proof.
  intros H L E. assert (Bx := trunc_bounds x H). assert (By := trunc_bounds y ltac:(lra)). rewrite E in Bx. lra.
Qed.

(** ---- minimum over the box ---- *)
Lemma coord_min_le big nn X d n : (n < nn)%nat -> coord_min big nn X d <= X n d.
Proof.
  unfold coord_min. induction nn as [|m IH]; intros H; [lia|]. simpl.
  destruct (Nat.eq_dec n m) as [->|Ne]; [apply Rmin_r|].
  eapply Rle_trans; [apply Rmin_l|]. apply IH. lia.
Qed.
Lemma coord_max_ge big nn X d n : (n < nn)%nat -> X n d <= coord_max big nn X d.
Proof.
  unfold coord_max. induction nn as [|m IH]; intros H; [lia|]. simpl.
  destruct (Nat.eq_dec n m) as [->|Ne]; [apply Rmax_r|].
  eapply Rle_trans; [|apply Rmax_l]. apply IH. lia.
Qed.
(** it is attained once some coordinate is below the start value *)
Lemma coord_min_exact big nn X d lo : lo <= big -> (forall n, (n < nn)%nat -> lo <= X n d) ->
  (exists n, (n < nn)%nat /\ X n d = lo) -> coord_min big nn X d = lo.
Proof.
  intros Hb Hl (n & Hn & E). apply Rle_antisym.
  - rewrite <- E. apply coord_min_le. exact Hn.
  - clear n Hn E. unfold coord_min. induction nn as [|m IH]; simpl; [exact Hb|].
    apply Rmin_glb; [apply IH; intros; apply Hl; lia|apply Hl; lia].
Qed.
Lemma coord_max_exact big nn X d hi : - big <= hi -> (forall n, (n < nn)%nat -> X n d <= hi) ->
  (exists n, (n < nn)%nat /\ X n d = hi) -> coord_max big nn X d = hi.
Proof.
  intros Hb Hl (n & Hn & E). apply Rle_antisym.
  - clear n Hn E. unfold coord_max. induction nn as [|m IH]; simpl; [exact Hb|].
    apply Rmax_lub; [apply IH; intros; apply Hl; lia|apply Hl; lia].
  - rewrite <- E. apply coord_max_ge. exact Hn.
Qed.

(** ---- the 28 pairs ---- *)
Definition pair_mem (a b : nat) : bool := existsb (fun p => Nat.eqb (fst p) a && Nat.eqb (snd p) b)%bool pairs28.
Lemma pairs_complete : forall a b, (a < b < 8)%nat -> In (a, b) pairs28.
Proof.
  assert (F : forallb (fun b => forallb (fun a => pair_mem a b) (seq 0 b)) (seq 0 8) = true) by (vm_compute; reflexivity).
  intros a b H. rewrite forallb_forall in F. specialize (F b). rewrite in_seq in F. specialize (F ltac:(lia)).
  rewrite forallb_forall in F. specialize (F a). rewrite in_seq in F. specialize (F ltac:(lia)).
  unfold pair_mem in F. apply existsb_exists in F. destruct F as ((x & y) & Hin & E). apply andb_prop in E.
  destruct E as (E1 & E2). apply Nat.eqb_eq in E1. apply Nat.eqb_eq in E2. simpl in *. subst. exact Hin.
Qed.
Lemma pairs_sound : forall a b, In (a, b) pairs28 -> (a < b < 8)%nat.
Proof.
  assert (F : forallb (fun p => Nat.ltb (fst p) (snd p) && Nat.ltb (snd p) 8)%bool pairs28 = true) by (vm_compute; reflexivity).
  intros a b H. rewrite forallb_forall in F. specialize (F _ H). simpl in F. apply andb_prop in F.
  destruct F as (A & B). apply Nat.ltb_lt in A. apply Nat.ltb_lt in B. lia.
Qed.

Lemma node_dist_sym v a b : node_dist v a b = node_dist v b a.
Proof. unfold node_dist. f_equal. f_equal. ring. Qed.

(** [m] is the smallest distance between two different nodes of a cell *)
Definition least_dist (v : nat -> nat -> R) (m : R) : Prop :=
  (forall a b, (a < 8)%nat -> (b < 8)%nat -> a <> b ->
     m <= sqrt ((v a 0%nat - v b 0%nat) ^ 2 + (v a 1%nat - v b 1%nat) ^ 2 + (v a 2%nat - v b 2%nat) ^ 2)) /\
  (exists a b, (a < 8)%nat /\ (b < 8)%nat /\ a <> b /\
     m = sqrt ((v a 0%nat - v b 0%nat) ^ 2 + (v a 1%nat - v b 1%nat) ^ 2 + (v a 2%nat - v b 2%nat) ^ 2)).

Lemma node_dist_eq v a b : node_dist v a b =
  sqrt ((v a 0%nat - v b 0%nat) ^ 2 + (v a 1%nat - v b 1%nat) ^ 2 + (v a 2%nat - v b 2%nat) ^ 2).
Proof. rewrite node_dist_sym. unfold node_dist. rewrite Rabs_right; [reflexivity|]. apply Rle_ge, sqrt_pos. Qed.

Lemma fold_min_spec (f : nat * nat -> R) l : forall s,
  let m := fold_left (fun m p => Rmin (f p) m) l s in
  (forall p, In p l -> m <= f p) /\ m <= s /\ (m = s \/ exists p, In p l /\ m = f p).
Proof.
  induction l as [|p l IH]; intros s; simpl.
  - split; [intros p []|]. split; [lra|auto].
  - destruct (IH (Rmin (f p) s)) as (A & B & C). split; [|split].
    + intros q [<-|Hq]; [eapply Rle_trans; [exact B|apply Rmin_l]|auto].
    + eapply Rle_trans; [exact B|apply Rmin_r].
    + destruct C as [C|(q & Hq & C)]; [|right; exists q; auto].
      rewrite C. destruct (Rle_dec (f p) s) as [L|L].
      * right. exists p. rewrite Rmin_left by exact L. auto.
      * left. apply Rmin_right. lra.
Qed.

Lemma cell_dist_min_spec start v : (exists a b, (a < 8)%nat /\ (b < 8)%nat /\ a <> b /\ node_dist v a b <= start) ->
  least_dist v (cell_dist_min start v).
Proof.
  intros (a0 & b0 & Ha0 & Hb0 & Ne0 & Hs). unfold cell_dist_min.
  destruct (fold_min_spec (fun p => node_dist v (fst p) (snd p)) pairs28 start) as (A & B & C).
  assert (A' : forall a b, (a < 8)%nat -> (b < 8)%nat -> a <> b ->
     fold_left (fun m p => Rmin (node_dist v (fst p) (snd p)) m) pairs28 start <= node_dist v a b).
  { intros a b Ha Hb Ne. destruct (Nat.lt_total a b) as [L|[L|L]]; [|contradiction|].
    - apply (A (a, b)). apply pairs_complete. lia.
    - rewrite node_dist_sym. apply (A (b, a)). apply pairs_complete. lia. }
  split.
  - intros a b Ha Hb Ne. rewrite <- node_dist_eq. apply A'; assumption.
  - destruct C as [C|((a & b) & Hin & C)].
    + exists a0, b0. repeat (split; [assumption|]). rewrite <- node_dist_eq.
      assert (D := A' a0 b0 Ha0 Hb0 Ne0). apply Rle_antisym; [exact D|]. rewrite C. exact Hs.
    + apply pairs_sound in Hin. exists a, b. do 2 (split; [lia|]). split; [lia|]. rewrite <- node_dist_eq. exact C.
Qed.

Lemma least_dist_unique v m m' : least_dist v m -> least_dist v m' -> m = m'.
Proof.
  intros (A & (a & b & Ha & Hb & Ne & E)) (A' & (a' & b' & Ha' & Hb' & Ne' & E')).
  apply Rle_antisym; [rewrite E'; apply A; assumption|rewrite E; apply A'; assumption].
Qed.

(** ---- spacing: only the last cell counts ---- *)
Lemma patch_spacing_last nc X N : patch_spacing (S nc) X N =
  Ok (Rmin (10 ^ 64) (cell_dist_min (node_dist (fun l d => X (N nc l) d) 0 1) (fun l d => X (N nc l) d)) / 3).
Proof. reflexivity. Qed.
Lemma refine_spacing_last p nc X N : refine_spacing p (S nc) X N =
  Ok (cell_dist_min (10 ^ 64) (fun l d => X (N nc l) d) / (7 * (if Nat.eqb p 0 then 1 else INR p))).
Proof. reflexivity. Qed.

Lemma spacing_last_cell nc X N p :
  (forall a b, (a < 8)%nat -> (b < 8)%nat -> node_dist (fun l d => X (N nc l) d) a b <= 10 ^ 64) ->
  exists m, least_dist (fun l d => X (N nc l) d) m /\
    patch_spacing (S nc) X N = Ok (m / 3) /\
    refine_spacing p (S nc) X N = Ok (m / (7 * (if Nat.eqb p 0 then 1 else INR p))).
Proof.
  intros H. set (v := fun l d => X (N nc l) d) in *.
  assert (L1 : least_dist v (cell_dist_min (node_dist v 0 1) v)).
  { apply cell_dist_min_spec. exists 0%nat, 1%nat. repeat (split; [lia|]). lra. }
  assert (L2 : least_dist v (cell_dist_min (10 ^ 64) v)).
  { apply cell_dist_min_spec. exists 0%nat, 1%nat. repeat (split; [lia|]). apply H; lia. }
  exists (cell_dist_min (10 ^ 64) v). split; [exact L2|]. split.
  - rewrite patch_spacing_last. fold v. rewrite (least_dist_unique _ _ _ L1 L2).
    rewrite Rmin_right; [reflexivity|]. destruct L2 as (A & _). eapply Rle_trans; [apply (A 0%nat 1%nat); lia|].
    rewrite <- node_dist_eq. apply H; lia.
  - rewrite refine_spacing_last. reflexivity.
Qed.

(** ---- refine keys ---- *)
Lemma inv_pow_pos n : 0 < / 10 ^ n.
Proof. apply Rinv_0_lt_compat, pow_lt. lra. Qed.

Definition in_box (mn mx c : nat -> R) : Prop := forall d, (d < 3)%nat -> mn d <= c d <= mx d.

Section Key.
  Variables (h : R) (mn mx : nat -> R).
  Hypothesis Hh : 0 < h.

  Definition bin (c : nat -> R) (d : nat) : Z := trunc (Rmax (/ 10 ^ 16) ((c d - mn d + / 10 ^ 14) / h)).
  Definition bins (d : nat) : Z := trunc (Rmax (/ 10 ^ 16) ((mx d - mn d + 1 + / 10 ^ 14) / h)).

  Lemma refine_key_eq c : refine_key h mn mx c =
    Ok (bin c 0 + bin c 1 * bins 0 + bin c 2 * bins 0 * bins 1)%Z.
  Proof. unfold refine_key, int_bins, int_idx. rewrite !rdiv_ok by lra. reflexivity. Qed.

  Lemma max_pos x : 0 <= Rmax (/ 10 ^ 16) x.
  Proof. eapply Rle_trans; [|apply Rmax_l]. left. apply inv_pow_pos. Qed.

  Lemma bin_nonneg c d : (0 <= bin c d)%Z.
  Proof. apply trunc_nonneg, max_pos. Qed.
  Lemma bins_nonneg d : (0 <= bins d)%Z.
  Proof. apply trunc_nonneg, max_pos. Qed.

  Lemma idx_nonneg c d : mn d <= c d -> 0 <= (c d - mn d + / 10 ^ 14) / h.
  Proof.
    intros H. assert (P := inv_pow_pos 14). apply Rmult_le_pos; [lra|]. left. apply Rinv_0_lt_compat. exact Hh.
  Qed.

  Lemma bin_spec c d : mn d <= c d -> bin c d = trunc ((c d - mn d + / 10 ^ 14) / h).
  Proof.
    intros H. assert (N := idx_nonneg c d H). unfold bin.
    destruct (Rle_dec (/ 10 ^ 16) ((c d - mn d + / 10 ^ 14) / h)) as [L|L].
    - rewrite Rmax_right by exact L. reflexivity.
    - rewrite Rmax_left by lra. assert (/ 10 ^ 16 < 1).
      { rewrite <- Rinv_1. apply Rinv_lt_contravar; [|apply Rlt_pow_R1; [lra|lia]]. rewrite Rmult_1_l. apply pow_lt. lra. }
      assert (P := inv_pow_pos 16).
      rewrite (trunc_unique (/ 10 ^ 16) 0) by (simpl; lra). symmetry. apply trunc_unique; simpl; lra.
  Qed.

  Lemma bin_lt c d : h <= 1 -> mn d <= c d <= mx d -> (bin c d < bins d)%Z.
  Proof.
    intros H1 Hc. apply lt_IZR. rewrite bin_spec by lra.
    assert (A := trunc_bounds _ (idx_nonneg c d (proj1 Hc))).
    assert (B := trunc_bounds _ (max_pos ((mx d - mn d + 1 + / 10 ^ 14) / h))). fold (bins d) in B.
    assert (Q : (c d - mn d + / 10 ^ 14) / h + 1 <= (mx d - mn d + 1 + / 10 ^ 14) / h).
    { apply (Rmult_le_reg_r h); [exact Hh|].
      replace (((c d - mn d + / 10 ^ 14) / h + 1) * h) with (c d - mn d + / 10 ^ 14 + h) by (field; lra).
      replace ((mx d - mn d + 1 + / 10 ^ 14) / h * h) with (mx d - mn d + 1 + / 10 ^ 14) by (field; lra). lra. }
    assert (M := Rmax_r (/ 10 ^ 16) ((mx d - mn d + 1 + / 10 ^ 14) / h)).
    apply Rnot_le_lt. intros K. apply le_IZR in K.
    assert (K1 : (bins d + 1 <= trunc ((c d - mn d + / 10 ^ 14) / h) + 1)%Z) by lia.
    apply IZR_le in K1. rewrite !plus_IZR in K1. lra.
  Qed.

  (** with h <= 1 the key determines the three bins *)
  Lemma key_inj c c' : h <= 1 -> in_box mn mx c -> in_box mn mx c' ->
    refine_key h mn mx c = refine_key h mn mx c' -> forall d, (d < 3)%nat -> bin c d = bin c' d.
  Proof.
    intros H1 Hc Hc' E. rewrite !refine_key_eq in E. injection E as E.
    assert (B : forall x d, in_box mn mx x -> (d < 3)%nat -> (0 <= bin x d < bins d)%Z).
    { intros x d Hx Hd. split; [apply bin_nonneg|]. apply bin_lt; [exact H1|apply Hx; exact Hd]. }
    assert (B0 := B c 0%nat Hc ltac:(lia)). assert (B0' := B c' 0%nat Hc' ltac:(lia)).
    assert (B1 := B c 1%nat Hc ltac:(lia)). assert (B1' := B c' 1%nat Hc' ltac:(lia)).
    assert (E0 : bin c 0 = bin c' 0).
    { replace (bin c 0 + bin c 1 * bins 0 + bin c 2 * bins 0 * bins 1)%Z with (bin c 0 + (bin c 1 + bin c 2 * bins 1) * bins 0)%Z in E by ring.
      replace (bin c' 0 + bin c' 1 * bins 0 + bin c' 2 * bins 0 * bins 1)%Z with (bin c' 0 + (bin c' 1 + bin c' 2 * bins 1) * bins 0)%Z in E by ring.
      apply (f_equal (fun z => z mod bins 0)%Z) in E. rewrite !Z.mod_add, !Z.mod_small in E by lia. exact E. }
    assert (E1 : (bin c 1 + bin c 2 * bins 1 = bin c' 1 + bin c' 2 * bins 1)%Z).
    { apply (Z.mul_reg_r _ _ (bins 0)); [lia|]. rewrite E0 in E. nia. }
    assert (E2 : bin c 1 = bin c' 1).
    { apply (f_equal (fun z => z mod bins 1)%Z) in E1. rewrite !Z.mod_add, !Z.mod_small in E1 by lia. exact E1. }
    assert (E3 : bin c 2 = bin c' 2) by (apply (Z.mul_reg_r _ _ (bins 1)); lia).
    intros d Hd. destruct d as [|[|[|d]]]; [assumption|assumption|assumption|lia].
  Qed.

  Lemma bin_close c c' d : mn d <= c d -> mn d <= c' d -> bin c d = bin c' d -> Rabs (c d - c' d) < h.
  Proof.
    intros Hc Hc' E. rewrite !bin_spec in E by assumption.
    assert (A := trunc_bounds _ (idx_nonneg c d Hc)). assert (A' := trunc_bounds _ (idx_nonneg c' d Hc')).
    rewrite E in A.
    assert (D : Rabs ((c d - mn d + / 10 ^ 14) / h - (c' d - mn d + / 10 ^ 14) / h) < 1) by (apply Rabs_def1; lra).
    replace ((c d - mn d + / 10 ^ 14) / h - (c' d - mn d + / 10 ^ 14) / h) with ((c d - c' d) * / h) in D by (field; lra).
    rewrite Rabs_mult, Rabs_inv, (Rabs_right h) in D by lra.
    apply (Rmult_lt_compat_r h) in D; [|exact Hh]. rewrite Rmult_assoc, Rinv_l, Rmult_1_r, Rmult_1_l in D by lra. exact D.
  Qed.

  Lemma key_nonneg c z : refine_key h mn mx c = Ok z -> (0 <= z)%Z.
  Proof.
    rewrite refine_key_eq. intros E. injection E as <-.
    assert (N := bin_nonneg c). assert (M := bins_nonneg).
    assert (0 <= bin c 1 * bins 0)%Z by (apply Z.mul_nonneg_nonneg; auto).
    assert (0 <= bin c 2 * bins 0 * bins 1)%Z by (repeat apply Z.mul_nonneg_nonneg; auto). specialize (N 0%nat). lia.
  Qed.
End Key.

Lemma refine_key_ext h mn mx c c' : (forall d, (d < 3)%nat -> c d = c' d) -> refine_key h mn mx c = refine_key h mn mx c'.
Proof. intros H. unfold refine_key, int_idx. rewrite !H by lia. reflexivity. Qed.

(** ---- patch keys ---- *)
Section PatchKey.
  Variables (delta : R) (mn mx : nat -> R).
  Hypothesis Hd : 0 < delta.

  Definition nb (d : nat) : R := (mx d - mn d + / 10 ^ 12) / delta.
  Definition qi (c : nat -> R) (d : nat) : R := Rmax (/ 10 ^ 16) ((c d - mn d + / 10 ^ 12) / delta).
  Definition flat (c : nat -> R) : R := qi c 0 + qi c 1 * nb 0 + qi c 2 * nb 0 * nb 1.

  Lemma patch_key_eq c : patch_key delta mn mx c = Ok (trunc (flat c)).
  Proof. unfold patch_key. rewrite !rdiv_ok by lra. reflexivity. Qed.

  Lemma patch_key_ext c c' : (forall d, (d < 3)%nat -> c d = c' d) -> patch_key delta mn mx c = patch_key delta mn mx c'.
  Proof. intros H. unfold patch_key. rewrite !H by lia. reflexivity. Qed.

  Lemma qi_pos c d : 0 < qi c d.
  Proof. unfold qi. eapply Rlt_le_trans; [|apply Rmax_l]. apply inv_pow_pos. Qed.

  (** separated centres: in each direction equal or at least 3/2 delta apart *)
  Definition sep (c c' : nat -> R) (d : nat) : Prop := c d = c' d \/ 3 / 2 * delta <= Rabs (c d - c' d).

  Lemma qi_sep c c' d : mn d <= c d <= mx d -> mn d <= c' d <= mx d -> 3 * delta <= mx d - mn d -> sep c c' d ->
    (c d = c' d /\ qi c d = qi c' d) \/
    (c d < c' d /\ qi c d + 149 / 100 <= qi c' d /\ qi c' d <= qi c d + nb d) \/
    (c' d < c d /\ qi c' d + 149 / 100 <= qi c d /\ qi c d <= qi c' d + nb d).
  Proof.
    assert (P := inv_pow_pos 12). assert (P' := inv_pow_pos 16).
    assert (E16 : / 10 ^ 16 < 1 / 100).
    { unfold Rdiv. rewrite Rmult_1_l. apply Rinv_lt_contravar; [apply Rmult_lt_0_compat; [lra|apply pow_lt; lra]|].
      replace 100 with (10 ^ 2) by lra. apply Rlt_pow; [lra|lia]. }
    (* one-sided version *)
    assert (G : forall x y, mn d <= x -> y <= mx d -> x + 3 / 2 * delta <= y ->
      Rmax (/ 10 ^ 16) ((x - mn d + / 10 ^ 12) / delta) + 149 / 100 <= Rmax (/ 10 ^ 16) ((y - mn d + / 10 ^ 12) / delta) /\
      Rmax (/ 10 ^ 16) ((y - mn d + / 10 ^ 12) / delta) <= Rmax (/ 10 ^ 16) ((x - mn d + / 10 ^ 12) / delta) + nb d).
    { intros x y Hx Hy Hxy.
      assert (Q : (x - mn d + / 10 ^ 12) / delta + 3 / 2 <= (y - mn d + / 10 ^ 12) / delta).
      { apply (Rmult_le_reg_r delta); [exact Hd|].
        replace (((x - mn d + / 10 ^ 12) / delta + 3 / 2) * delta) with (x - mn d + / 10 ^ 12 + 3 / 2 * delta) by (field; lra).
        replace ((y - mn d + / 10 ^ 12) / delta * delta) with (y - mn d + / 10 ^ 12) by (field; lra). lra. }
      assert (Q0 : 0 <= (x - mn d + / 10 ^ 12) / delta).
      { apply Rmult_le_pos; [lra|]. left. apply Rinv_0_lt_compat. exact Hd. }
      assert (Q1 : (y - mn d + / 10 ^ 12) / delta <= nb d).
      { unfold nb, Rdiv. apply Rmult_le_compat_r; [left; apply Rinv_0_lt_compat; exact Hd|lra]. }
      rewrite (Rmax_right (/ 10 ^ 16) ((y - mn d + / 10 ^ 12) / delta)) by lra.
      split.
      - apply Rmax_case; lra.
      - assert (H := Rmax_r (/ 10 ^ 16) ((x - mn d + / 10 ^ 12) / delta)). lra. }
    intros Hc Hc' Hw [E|S].
    - left. split; [exact E|]. unfold qi. rewrite E. reflexivity.
    - right. destruct (Rle_dec (c d) (c' d)) as [L|L].
      + left. rewrite Rabs_left1 in S by lra. split; [lra|]. apply G; lra.
      + right. rewrite Rabs_right in S by lra. split; [lra|]. apply G; lra.
  Qed.

  Lemma patch_key_sep c c' : in_box mn mx c -> in_box mn mx c' ->
    (forall d, (d < 3)%nat -> 3 * delta <= mx d - mn d) ->
    (forall d, (d < 3)%nat -> sep c c' d) ->
    (exists d, (d < 3)%nat /\ c d <> c' d) -> patch_key delta mn mx c <> patch_key delta mn mx c'.
  Proof.
    intros Hc Hc' Hw Hs Hne. rewrite !patch_key_eq. intros E. injection E as E. revert E.
    assert (N : forall d, (d < 3)%nat -> 3 <= nb d).
    { intros d Hl. assert (P := inv_pow_pos 12). unfold nb. apply (Rmult_le_reg_r delta); [exact Hd|].
      replace ((mx d - mn d + / 10 ^ 12) / delta * delta) with (mx d - mn d + / 10 ^ 12) by (field; lra).
      specialize (Hw d Hl). lra. }
    assert (N0 := N 0%nat ltac:(lia)). assert (N1 := N 1%nat ltac:(lia)). clear N.
    assert (S0 := qi_sep c c' 0 (Hc 0%nat ltac:(lia)) (Hc' 0%nat ltac:(lia)) (Hw 0%nat ltac:(lia)) (Hs 0%nat ltac:(lia))).
    assert (S1 := qi_sep c c' 1 (Hc 1%nat ltac:(lia)) (Hc' 1%nat ltac:(lia)) (Hw 1%nat ltac:(lia)) (Hs 1%nat ltac:(lia))).
    assert (S2 := qi_sep c c' 2 (Hc 2%nat ltac:(lia)) (Hc' 2%nat ltac:(lia)) (Hw 2%nat ltac:(lia)) (Hs 2%nat ltac:(lia))).
    assert (F : forall x, 0 <= flat x).
    { intros x. unfold flat. assert (A := qi_pos x 0). assert (B := qi_pos x 1). assert (C := qi_pos x 2).
      assert (0 <= qi x 1 * nb 0) by (apply Rmult_le_pos; lra).
      assert (0 <= qi x 2 * nb 0 * nb 1) by (apply Rmult_le_pos; [apply Rmult_le_pos|]; lra). lra. }
    (* it suffices that the flattened values are 1 apart *)
    assert (K : flat c + 1 <= flat c' \/ flat c' + 1 <= flat c).
    2: { intros E. destruct K as [K|K]; [exact (trunc_apart _ _ (F c) K E)|exact (trunc_apart _ _ (F c') K (eq_sym E))]. }
    clear F. unfold flat.
    assert (M1 : forall x y, x + 149 / 100 <= y -> x * nb 0 + 149 / 100 * nb 0 <= y * nb 0).
    { intros x y H. assert (0 <= (y - x - 149 / 100) * nb 0) by (apply Rmult_le_pos; lra). lra. }
    assert (M2 : forall x y, x <= y + nb 1 -> x * nb 0 <= y * nb 0 + nb 0 * nb 1).
    { intros x y H. assert (0 <= (y + nb 1 - x) * nb 0) by (apply Rmult_le_pos; lra). lra. }
    assert (P9 : 3 * nb 0 <= nb 0 * nb 1).
    { assert (0 <= nb 0 * (nb 1 - 3)) by (apply Rmult_le_pos; lra). lra. }
    assert (M3 : forall x y, x + 149 / 100 <= y -> x * nb 0 * nb 1 + 149 / 100 * (nb 0 * nb 1) <= y * nb 0 * nb 1).
    { intros x y H. assert (0 <= (y - x - 149 / 100) * (nb 0 * nb 1)) by (apply Rmult_le_pos; lra). lra. }
    destruct S2 as [(D2 & E2)|[(D2 & A2 & B2)|(D2 & A2 & B2)]].
    - rewrite E2. destruct S1 as [(D1 & E1)|[(D1 & A1 & B1)|(D1 & A1 & B1)]].
      + rewrite E1. destruct S0 as [(D0 & E0)|[(D0 & A0 & B0)|(D0 & A0 & B0)]].
        * exfalso. destruct Hne as (d & Hl & Ne). destruct d as [|[|[|d]]]; [congruence..|lia].
        * left. lra.
        * right. lra.
      + left. apply M1 in A1. destruct S0 as [(D0 & E0)|[(D0 & A0 & B0)|(D0 & A0 & B0)]]; lra.
      + right. apply M1 in A1. destruct S0 as [(D0 & E0)|[(D0 & A0 & B0)|(D0 & A0 & B0)]]; lra.
    - left. apply M3 in A2.
      assert (Y : qi c 1 * nb 0 <= qi c' 1 * nb 0 + nb 0 * nb 1).
      { apply M2. destruct S1 as [(D1 & E1)|[(D1 & A1 & B1)|(D1 & A1 & B1)]]; lra. }
      assert (Z : qi c 0 <= qi c' 0 + nb 0) by (destruct S0 as [(D0 & E0)|[(D0 & A0 & B0)|(D0 & A0 & B0)]]; lra). lra.
    - right. apply M3 in A2.
      assert (Y : qi c' 1 * nb 0 <= qi c 1 * nb 0 + nb 0 * nb 1).
      { apply M2. destruct S1 as [(D1 & E1)|[(D1 & A1 & B1)|(D1 & A1 & B1)]]; lra. }
      assert (Z : qi c' 0 <= qi c 0 + nb 0) by (destruct S0 as [(D0 & E0)|[(D0 & A0 & B0)|(D0 & A0 & B0)]]; lra). lra.
  Qed.
End PatchKey.
