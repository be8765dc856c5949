(** Order, bounds and rest of the rounded cycles (C80). *)
From Coq Require Import Reals List Arith ZArith Lra Lia Bool Classical.
From Flocq Require Import Core.
Import ListNotations.
Require Import Verif.Base Verif.NatSum Verif.RBase Verif.RSum Verif.Spec_Patch Verif.Spec_Full Verif.Model_Conn Verif.Model_Refine Verif.Model_Full Verif.Model_Average
  Verif.Spec_Average Verif.Proof_Average Verif.Proof_Average2 Verif.Proof_Average3 Verif.Proof_Average5 Verif.Spec_Float Verif.Float_Base Verif.Float_Eval Verif.Spec_FloatGeom Verif.Ex_FloatGeom
  Verif.Spec_FloatRefine Verif.Proof_FloatRefine Verif.Proof_FloatRefine5
  Verif.Model_FloatAverage Verif.Spec_FloatAverage Verif.Proof_FloatAverage Verif.Proof_FloatAverage2 Verif.Model_Patch.
Local Open Scope nat_scope.

Section Mono.
Variable (rnd : R -> R).
Hypothesis Hmono : monotone rnd.

Lemma sumf_le K g h : (forall j, j < K -> (g j <= h j)%R) -> (sumf rnd K g <= sumf rnd K h)%R.
Proof. induction K as [|K IH]; intros H; cbn [sumf]; [lra|]. apply Hmono. apply Rplus_le_compat; [apply IH; intros; apply H; lia|apply H; lia]. Qed.
Lemma meanf_le K g h : (forall j, j < K -> (g j <= h j)%R) -> (meanf rnd K g <= meanf rnd K h)%R.
Proof.
  intros H. unfold meanf. apply sumf_le. intros j Hj. apply Hmono. unfold Rdiv. apply Rmult_le_compat_r; [|apply H; exact Hj]. apply Rlt_le, Rinv_0_lt_compat, lt_0_INR. lia.
Qed.

Section Mesh.
  Variables (sv : solver) (N : nat -> nat -> nat) (X : nat -> nat -> R) (A : nat -> list nat) (L : nat -> list nat) (Q : nat -> nat -> nat).
  Hypothesis HM : mesh_sound sv N X.
  Hypothesis HA : lists_around sv A.
  Let nn := cm_nodes (sv_mesh sv).
  Let nc := cm_cells (sv_mesh sv).
  Local Notation Tf := (Tf rnd N L Q A).
  Local Notation itf := (itf rnd N L Q A).
  Let NI := HN sv N X HM.

  Lemma smoothedf_le f g n : n < nn -> (forall m, m < nn -> (f m <= g m)%R) -> (smoothedf rnd N A f n <= smoothedf rnd N A g n)%R.
  Proof.
    intros Hn H. unfold smoothedf, node_meanf. apply meanf_le. intros j Hj. unfold cell_meanf. apply meanf_le. intros l Hl. apply H. apply NI; [|exact Hl]. apply (A_facts sv N X A HM HA n Hn), nth_In, Hj.
  Qed.
  Lemma Tf_le f g n : n < nn -> (forall m, m < nn -> (f m <= g m)%R) -> (Tf f n <= Tf g n)%R.
  Proof. intros Hn H. unfold Proof_FloatAverage.Tf. destruct (hit (L 0) Q n); [lra|]. destruct (hit (L 3) Q n); [lra|]. apply smoothedf_le; assumption. Qed.
  Lemma itf_le k f g : (forall m, m < nn -> (f m <= g m)%R) -> forall n, n < nn -> (itf k f n <= itf k g n)%R.
  Proof. intros H. induction k as [|k IH]; [exact H|]. intros n Hn. change (Tf (itf k f) n <= Tf (itf k g) n)%R. apply Tf_le; assumption. Qed.

  Lemma smoothedf_const x n : smoothedf rnd N A (fun _ => x) n = meanf rnd (length (A n)) (fun _ => meanf rnd 8 (fun _ => x)).
  Proof. reflexivity. Qed.
  Lemma Tf_bounds lo hi f n : n < nn -> (lo <= 0)%R -> (10 <= hi)%R -> keeps_below rnd (corner_count N nc n) lo -> keeps_above rnd (corner_count N nc n) hi ->
    (forall m, m < nn -> (lo <= f m <= hi)%R) -> (lo <= Tf f n <= hi)%R.
  Proof.
    intros Hn Hlo Hhi Kl Kh H. unfold Proof_FloatAverage.Tf. destruct (hit (L 0) Q n); [lra|]. destruct (hit (L 3) Q n); [lra|].
    destruct (A_facts sv N X A HM HA n Hn) as (_ & _ & Len). fold nc in Len. rewrite <- Len in Kl, Kh. unfold keeps_below, keeps_above in *. rewrite <- smoothedf_const in Kl, Kh.
    split; [apply (Rle_trans _ _ _ Kl)|refine (Rle_trans _ _ _ _ Kh)]; apply smoothedf_le; try exact Hn; intros m Hm'; apply H; exact Hm'.
  Qed.
  Lemma itf_bounds lo hi f k : (lo <= 0)%R -> (10 <= hi)%R -> (forall n, n < nn -> keeps_below rnd (corner_count N nc n) lo /\ keeps_above rnd (corner_count N nc n) hi) ->
    (forall m, m < nn -> (lo <= f m <= hi)%R) -> forall n, n < nn -> (lo <= itf k f n <= hi)%R.
  Proof.
    intros Hlo Hhi K H. induction k as [|k IH]; [exact H|]. intros n Hn. change (lo <= Tf (itf k f) n <= hi)%R. apply Tf_bounds; try assumption; apply K; exact Hn.
  Qed.
  Lemma itf_rising f : (forall n, n < nn -> (f n <= Tf f n)%R) -> forall k n, n < nn -> (itf k f n <= itf (S k) f n)%R.
  Proof. intros H k. induction k as [|k IH]; [exact H|]. intros n Hn. change (Tf (itf k f) n <= Tf (itf (S k) f) n)%R. apply Tf_le; [exact Hn|]. exact IH. Qed.
End Mesh.
End Mono.

(** ---- binary64 ---- *)

Lemma b64_mono : monotone binary64.
Proof. intros x y H. apply (dl_mono _ _ double_like_b64). exact H. Qed.
Lemma b64_0 : binary64 0 = 0%R.
Proof. apply (dl_0 _ _ double_like_b64). Qed.

Fixpoint sume (K : nat) (e : fexp) : fexp := match K with 0 => FL (0, 0)%Z | S k => FA (sume k e) e end.
Lemma sume_ok K e : fden (sume K e) = sumf binary64 K (fun _ => fden e).
Proof. induction K as [|K IH]; cbn [sume fden sumf]; [apply val_z|]. rewrite IH. reflexivity. Qed.
Definition meane (K : nat) (e : fexp) : fexp := sume K (FD e (FL (Z.of_nat K, 0%Z))).
Lemma meane_ok K e : fden (meane K e) = meanf binary64 K (fun _ => fden e).
Proof. unfold meane, meanf. rewrite sume_ok. cbn [fden]. rewrite val_z, <- INR_IZR_INZ. reflexivity. Qed.
Definition tens (K : nat) : fexp := meane K (meane 8 (FL (10, 0)%Z)).
Lemma tens_ok K : fden (tens K) = meanf binary64 K (fun _ => meanf binary64 8 (fun _ => 10%R)).
Proof. unfold tens. rewrite !meane_ok. assert (E : fden (FL (10, 0)%Z) = 10%R) by apply val_z. rewrite E. reflexivity. Qed.
Lemma val_49 z : Float_Eval.val (z, (-49)%Z) = (IZR z / 562949953421312)%R.
Proof. unfold Float_Eval.val. cbn [fst snd]. change (bpow radix2 (-49)) with (/ 562949953421312)%R. reflexivity. Qed.
Lemma ten_kept k : k <= 8 -> 0 < k -> meanf binary64 k (fun _ => meanf binary64 8 (fun _ => 10%R)) = 10%R.
Proof.
  intros H8 H0. rewrite <- tens_ok. rewrite (fev_ok (tens k) (5629499534213120, -49)%Z).
  - rewrite val_49. field.
  - do 9 (destruct k as [|k]; [first [lia|vm_compute; reflexivity]|]). lia.
Qed.
Lemma ten_above k : k <= 8 -> keeps_above binary64 k 10.
Proof. intros H. unfold keeps_above. destruct k as [|k]; [unfold meanf; cbn [sumf]; lra|]. rewrite ten_kept by lia. lra. Qed.
Lemma sumf_0 K : sumf binary64 K (fun _ => 0%R) = 0%R.
Proof. induction K as [|K IH]; [reflexivity|]. cbn [sumf]. rewrite IH, Rplus_0_r. apply b64_0. Qed.
Lemma zero_below k : keeps_below binary64 k 0.
Proof.
  unfold keeps_below. assert (Z : forall K, meanf binary64 K (fun _ => 0%R) = 0%R).
  { intros K. unfold meanf. unfold Rdiv. rewrite Rmult_0_l, b64_0. apply sumf_0. }
  rewrite (Z 8), Z. lra.
Qed.
Lemma ten_13 : (10 < meanf binary64 13 (fun _ => meanf binary64 8 (fun _ => 10%R)))%R.
Proof. rewrite <- tens_ok, (fev_ok (tens 13) (5629499534213121, -49)%Z) by (vm_compute; reflexivity). rewrite val_49. lra. Qed.
Lemma ten_9 : (meanf binary64 9 (fun _ => meanf binary64 8 (fun _ => 10%R)) < 10)%R.
Proof. rewrite <- tens_ok, (fev_ok (tens 9) (5629499534213119, -49)%Z) by (vm_compute; reflexivity). rewrite val_49. lra. Qed.

Lemma b64_idem x : binary64 (binary64 x) = binary64 x.
Proof. apply (dl_idem _ _ double_like_b64). Qed.
Lemma sumf_b64 K g : binary64 (sumf binary64 K g) = sumf binary64 K g.
Proof. destruct K; cbn [sumf]; [apply b64_0|apply b64_idem]. Qed.

(** positive binary64 numbers from x on are multiples of a power of two *)
Lemma b64_multiple x : (0 < x)%R -> exists e, forall y, (x <= y)%R -> binary64 y = y -> exists n : Z, y = (IZR n * bpow radix2 e)%R.
Proof.
  intros Hx. exists (cexp radix2 (FLX_exp 53) x). intros y Hy E. set (e := cexp radix2 (FLX_exp 53) x).
  assert (Le : (e <= cexp radix2 (FLX_exp 53) y)%Z). { unfold e, cexp, FLX_exp. assert (Z := mag_le radix2 x y Hx Hy). lia. }
  unfold binary64, round, F2R in E. cbn [Fnum Fexp] in E. set (c := cexp radix2 (FLX_exp 53) y) in *. set (m := ZnearestE (scaled_mantissa radix2 (FLX_exp 53) y)) in *.
  exists (m * 2 ^ (c - e))%Z. rewrite <- E, mult_IZR. replace c with ((c - e) + e)%Z at 1 by lia. rewrite bpow_plus, <- Rmult_assoc. f_equal. f_equal.
  rewrite <- IZR_Zpower by lia. reflexivity.
Qed.
Lemma monotone_seq (v : nat -> R) : (forall k, (v k <= v (S k))%R) -> forall i j, i <= j -> (v i <= v j)%R.
Proof. intros H i j Hj. induction Hj as [|j Hj IH]; [lra|]. assert (Z := H j). lra. Qed.
Lemma settles (v : nat -> R) B : (forall k, (v k <= v (S k))%R) -> (forall k, (0 <= v k <= B)%R) -> (forall k, binary64 (v k) = v k) -> exists K, forall k, K <= k -> v k = v K.
Proof.
  intros Hm Hb Hf. destruct (classic (exists j, (0 < v j)%R)) as [(j & Hj)|No].
  2: { exists 0. intros k _. assert (Z : forall i, v i = 0%R). { intros i. destruct (Hb i) as (P & _). destruct P as [P|P]; [exfalso; apply No; exists i; exact P|symmetry; exact P]. } rewrite !Z. reflexivity. }
  destruct (b64_multiple (v j) Hj) as (e & He). assert (Pe := bpow_gt_0 radix2 e). set (s := bpow radix2 e) in *.
  assert (Step : forall k k', j <= k -> j <= k' -> (v k < v k')%R -> (v k + s <= v k')%R).
  { intros k k' Hk Hk' Lt. destruct (He (v k) (monotone_seq v Hm j k Hk) (Hf k)) as (n & En). destruct (He (v k') (monotone_seq v Hm j k' Hk') (Hf k')) as (n' & En'). rewrite En, En' in *.
    assert (n < n')%Z. { apply lt_IZR. apply Rmult_lt_reg_r with s; assumption. } assert (IZR (n + 1) <= IZR n')%R by (apply IZR_le; lia). rewrite plus_IZR in *. nra. }
  assert (Ind : forall D k, j <= k -> (B < v k + INR D * s)%R -> exists K, forall i, K <= i -> v i = v K).
  { induction D as [|D IH]; intros k Hk HB; [exfalso; assert (Z := Hb k); cbn [INR] in HB; lra|].
    destruct (classic (exists i, k <= i /\ v i <> v k)) as [(i & Hi & Ne)|Nx].
    - apply (IH i ltac:(lia)). assert (Lt : (v k < v i)%R). { destruct (monotone_seq v Hm k i Hi) as [Z|Z]; [exact Z|exfalso; apply Ne; symmetry; exact Z]. }
      assert (Z := Step k i Hk ltac:(lia) Lt). rewrite S_INR in HB. lra.
    - exists k. intros i Hi. apply NNPP. intros Ne. apply Nx. exists i. auto. }
  destruct (archimed ((B + 1) / s)) as (Up & _). set (D := Z.to_nat (up ((B + 1) / s))).
  assert (B0 : (0 <= B)%R) by (assert (Z := Hb 0); lra).
  apply (Ind D j ltac:(lia)). assert (E : (INR D = IZR (up ((B + 1) / s)))%R).
  { unfold D. rewrite INR_IZR_INZ, Z2Nat.id; [reflexivity|]. apply le_IZR. assert (0 < (B + 1) / s)%R by (apply Rdiv_lt_0_compat; lra). lra. }
  rewrite E. assert (((B + 1) / s) * s < IZR (up ((B + 1) / s)) * s)%R by (apply Rmult_lt_compat_r; [exact Pe|lra]). unfold Rdiv in H. rewrite Rmult_assoc, Rinv_l, Rmult_1_r in H by lra. unfold Rdiv. lra.
Qed.
Lemma settles_all nn (v : nat -> nat -> R) B : (forall k n, n < nn -> (v k n <= v (S k) n)%R) -> (forall k n, n < nn -> (0 <= v k n <= B)%R) -> (forall k n, n < nn -> binary64 (v k n) = v k n) ->
  exists K, forall k n, K <= k -> n < nn -> v k n = v K n.
Proof.
  intros H1 H2 H3. assert (G : forall m, m <= nn -> exists K, forall k n, K <= k -> n < m -> v k n = v K n).
  { induction m as [|m IH]; intros Hm; [exists 0; intros; lia|]. destruct (IH ltac:(lia)) as (K & HK). destruct (settles (fun k => v k m) B) as (K' & HK'); [intros; apply H1; lia|intros; apply H2; lia|intros; apply H3; lia|].
    cbv beta in HK'. exists (Nat.max K K'). intros k n Hk Hn. destruct (Nat.eq_dec n m) as [->|].
    - rewrite (HK' k), (HK' (Nat.max K K')) by lia. reflexivity.
    - rewrite (HK k), (HK (Nat.max K K')) by lia. reflexivity. }
  apply (G nn). lia.
Qed.
