(** Proofs about 32-bit ints: the checked run agrees with the unbounded one or overflows; exactly when the
    node keys fit. *)
From Coq Require Import Reals List Arith ZArith Lra Lia Bool.
Import ListNotations.
Require Import Verif.Base Verif.RBase Verif.Model_Geom Verif.Proof_Geom Verif.Model_Vtk Verif.Model_Refine Verif.Model_Conn Verif.Model_Ref Verif.Model_High Verif.Model_Full Verif.Model_Int Verif.Spec_High Verif.Spec_Full Verif.Spec_Int Verif.Model_Patch.
Local Open Scope nat_scope.

(** * range checks *)
Lemma i32_ok z : (- 2147483648 <= z <= 2147483647)%Z -> i32 z = Ok z.
Proof. intros H. unfold i32. destruct (Z.leb_spec (-2147483648) z), (Z.leb_spec z 2147483647); try lia. reflexivity. Qed.
Lemma i32_inv z y : i32 z = Ok y -> y = z /\ (- 2147483648 <= z <= 2147483647)%Z.
Proof. unfold i32. destruct (Z.leb_spec (-2147483648) z), (Z.leb_spec z 2147483647); cbn; intros Q; inversion Q; subst; lia. Qed.
Lemma i32_cases z : i32 z = Ok z \/ i32 z = Err Overflow.
Proof. unfold i32. destruct (_ && _)%bool; auto. Qed.
Lemma i32_big z : (2147483647 < z)%Z -> i32 z = Err Overflow.
Proof. intros H. unfold i32. destruct (Z.leb_spec z 2147483647); [lia|]. rewrite andb_false_r. reflexivity. Qed.
Lemma fits_ok n : (Z.of_nat n <= 2147483647)%Z -> fits n = Ok n.
Proof. intros H. unfold fits. rewrite i32_ok by lia. reflexivity. Qed.
Lemma fits_inv n y : fits n = Ok y -> (Z.of_nat n <= 2147483647)%Z.
Proof. unfold fits. intros H. destruct (i32 (Z.of_nat n)) eqn:E; [|discriminate]. apply i32_inv in E. lia. Qed.
Lemma fits_cases n : fits n = Ok n \/ fits n = Err Overflow.
Proof. unfold fits. destruct (i32_cases (Z.of_nat n)) as [-> | ->]; auto. Qed.

(** * agreement *)
Lemma so_refl {A} (r : res A) : same_or_overflow r r.
Proof. left. reflexivity. Qed.
Lemma so_bind {A B} (m m' : res A) (f f' : A -> res B) : same_or_overflow m m' -> (forall a, m' = Ok a -> same_or_overflow (f a) (f' a)) ->
  same_or_overflow (bind m f) (bind m' f').
Proof. intros [-> | ->] H; [|right; reflexivity]. destruct m' as [a|e]; [apply H; reflexivity|left; reflexivity]. Qed.
Lemma so_fits {B} n (f : nat -> res B) r : same_or_overflow (f n) r -> same_or_overflow (bind (fits n) f) r.
Proof. intros H. destruct (fits_cases n) as [-> | ->]; [exact H|right; reflexivity]. Qed.
Lemma so_i32 {B} z (f : Z -> res B) r : same_or_overflow (f z) r -> same_or_overflow (bind (i32 z) f) r.
Proof. intros H. destruct (i32_cases z) as [-> | ->]; [exact H|right; reflexivity]. Qed.
Lemma so_loop {S} n (f f' : nat -> S -> res S) s : (forall i s, same_or_overflow (f i s) (f' i s)) -> same_or_overflow (loop n f s) (loop n f' s).
Proof.
  intros H. unfold loop. generalize 0. revert s. induction n as [|n IH]; intros s lo; cbn [loop_from]; [apply so_refl|].
  apply so_bind; [apply H|]. intros a _. apply IH.
Qed.

Lemma so_bins h mx mn : same_or_overflow (bins32 h mx mn) (high_bins h mx mn).
Proof. unfold bins32, high_bins. apply so_loop. intros i b. apply so_bind; [apply so_refl|]. intros f _. unfold cast32. apply so_i32. apply so_refl. Qed.
Lemma so_key h mn b pts g : same_or_overflow (key32 h mn b pts g) (high_key h mn b pts g).
Proof.
  unfold key32, high_key. apply so_bind.
  - apply so_loop. intros i idx. apply so_bind; [apply so_refl|]. intros c _. apply so_bind; [apply so_refl|]. intros f _. unfold cast32. apply so_i32, so_refl.
  - intros idx _. cbv zeta. do 5 apply so_i32. apply so_refl.
Qed.
Lemma so_keys n h mx mn pts : same_or_overflow (keys32 n h mx mn pts)
  (do b <- high_bins h mx mn; loop n (fun g ks => do k <- high_key h mn b pts g; Ok (ks ++ [k])) []).
Proof.
  unfold keys32. apply so_bind; [apply so_bins|]. intros b _.
  set (L := loop n (fun g ks => do k <- high_key h mn b pts g; Ok (ks ++ [k])) []).
  replace L with (bind L (fun ks => Ok ks)) by (destruct L; reflexivity).
  apply so_bind; [|intros ks _; apply so_fits, so_refl].
  apply so_loop. intros g ks. apply so_bind; [apply so_key|]. intros k _. apply so_refl.
Qed.
Lemma so_refine_keys p m pts : same_or_overflow (refine_keys32 p m pts) (refine_keys p m pts).
Proof.
  unfold refine_keys32, refine_keys. apply so_bind; [apply so_refl|]. intros (mx, mn) _. apply so_bind; [apply so_refl|]. intros d _. apply so_keys.
Qed.
Ltac so_same := apply so_bind; [apply so_refl|]; intros; try apply so_refl.
Theorem so_refine_cells p m : same_or_overflow (refine_cells32 p m) (refine_cells p m).
Proof.
  unfold refine_cells32, refine_cells. cbv zeta. do 2 apply so_fits. so_same. apply so_bind; [apply so_refine_keys|]. intros ks _. apply so_refl.
Qed.
Lemma so_patch_key delta mn mx c : same_or_overflow (patch_key32 delta mn mx c) (patch_key delta mn mx c).
Proof. unfold patch_key32, patch_key. do 5 so_same. unfold cast32. destruct (i32_cases (trunc (Rmax (/ 10 ^ 16) a1 + Rmax (/ 10 ^ 16) a2 * a + Rmax (/ 10 ^ 16) a3 * a * a0))) as [-> | ->]; [left|right]; reflexivity. Qed.
Lemma so_face_keys m nodes : same_or_overflow (face_keys32 m nodes) (face_keys m nodes).
Proof.
  unfold face_keys32, face_keys. apply so_bind; [apply so_refl|]. intros (mx, mn) _. so_same. cbv zeta. apply so_fits.
  match goal with |- same_or_overflow (bind _ _) ?L => replace L with (bind L (fun ks => Ok ks)) by (destruct L; reflexivity) end.
  apply so_bind; [|intros ks _; apply so_fits, so_refl].
  apply so_loop. intros c ks. apply so_loop. intros s ks'. so_same. apply so_bind; [apply so_patch_key|]. intros k _. apply so_refl.
Qed.
(** [count_pairs] is run a first time by the builder that follows it *)
Lemma so_pairs {B} K nc nodes a (f : nat -> res B) r : (forall e, count_pairs K nc nodes a = Err e -> r = Err e) ->
  (forall t, same_or_overflow (f t) r) ->
  same_or_overflow (do (_, pairs) <- count_pairs K nc nodes a; do _ <- fits pairs; f pairs) r.
Proof.
  intros H1 H2. destruct (count_pairs K nc nodes a) as [(x, t)|e]; cbn [bind]; [apply so_fits, H2|]. rewrite (H1 e eq_refl). apply so_refl.
Qed.
Theorem so_build_connectivity G ne gauss m : same_or_overflow (build_connectivity32 G ne gauss m) (build_connectivity G ne gauss m).
Proof.
  unfold build_connectivity32, build_connectivity. cbv zeta. so_same. so_same. apply so_fits. so_same.
  apply (so_pairs 8 _ _ _ (fun _ => _)); [intros e Q; unfold build_cell_cell; rewrite Q; reflexivity|]. intros _.
  so_same. apply so_bind; [apply so_face_keys|]. intros ks _. so_same. apply so_fits. so_same. apply so_bind; [apply so_refl|]. intros (en, nie) _. apply so_fits.
  apply (so_pairs G _ _ _ (fun _ => _)); [intros e Q; unfold build_elem_elem; rewrite Q; reflexivity|]. intros _. apply so_refl.
Qed.
Theorem so_refine_mesh p m : same_or_overflow (refine_mesh32 p m) (refine_mesh p m).
Proof.
  unfold refine_mesh32, refine_mesh. apply so_bind; [apply so_refine_cells|]. intros r _. apply so_bind; [apply so_build_connectivity|]. intros; apply so_refl.
Qed.
Lemma so_high_keys m pts : same_or_overflow (high_keys32 m pts) (high_keys m pts).
Proof. unfold high_keys32, high_keys. apply so_bind; [apply so_refl|]. intros (mx, mn) _. so_same. apply so_keys. Qed.
Theorem so_refine_high Z0 w0 m : same_or_overflow (refine_high_order_mesh32 Z0 w0 m) (refine_high_order_mesh Z0 w0 m).
Proof.
  unfold refine_high_order_mesh32, refine_high_order_mesh. cbv zeta. do 2 apply so_fits. so_same. apply so_bind; [apply so_high_keys|]. intros ks _. apply so_refl.
Qed.

(** * when the node keys fit *)
Section Keys.
  Variables (h : R) (mn mx : nat -> R).
  Hypotheses (Hh : (0 < h)%R) (Hb : forall d, d < 3 -> (0 < bins h mn mx d)%Z).
  Notation B := (bins h mn mx).
  Notation b := (bin h mn).
  Definition nkey (c : nat -> R) : Z := (b c 0%nat + b c 1%nat * B 0%nat + b c 2%nat * B 0%nat * B 1%nat)%Z.

  Lemma nkey_parts c : (0 <= b c 0%nat /\ 0 <= b c 1%nat /\ 0 <= b c 2%nat /\ b c 1%nat <= b c 1%nat * B 0%nat /\ b c 2%nat <= b c 2%nat * B 0%nat /\ b c 2%nat * B 0%nat <= b c 2%nat * B 0%nat * B 1%nat)%Z.
  Proof.
    assert (A0 := bin_nonneg h mn c 0). assert (A1 := bin_nonneg h mn c 1). assert (A2 := bin_nonneg h mn c 2).
    assert (B0 := Hb 0 ltac:(lia)). assert (B1 := Hb 1 ltac:(lia)). assert (0 <= b c 2%nat * B 0%nat)%Z by (apply Z.mul_nonneg_nonneg; lia). repeat split; nia.
  Qed.

  Lemma bins32_fit : (forall d, d < 3 -> (B d <= 2147483647)%Z) -> exists bb, bins32 h mx mn = Ok bb /\ forall d, d < 3 -> bb d = B d.
  Proof.
    intros H. unfold bins32, loop. cbn [loop_from bind]. rewrite !rdiv_ok by lra. cbn [bind]. unfold cast32.
    assert (H0 := H 0 ltac:(lia)). assert (H1 := H 1 ltac:(lia)). assert (H2 := H 2 ltac:(lia)).
    assert (N0 := Hb 0 ltac:(lia)). assert (N1 := Hb 1 ltac:(lia)). assert (N2 := Hb 2 ltac:(lia)). unfold bins in H0, H1, H2, N0, N1, N2.
    rewrite !i32_ok by lia. cbn [bind]. eexists. split; [reflexivity|]. intros d Hd. assert (D : d = 0 \/ d = 1 \/ d = 2) by lia. destruct D as [-> | [-> | ->]]; reflexivity.
  Qed.
  Lemma bins32_val bb : bins32 h mx mn = Ok bb -> forall d, d < 3 -> bb d = B d /\ (B d <= 2147483647)%Z.
  Proof.
    unfold bins32, loop. cbn [loop_from bind]. rewrite !rdiv_ok by lra. cbn [bind]. unfold cast32. intros H.
    destruct (i32 (trunc (Rmax (/ 10 ^ 16) ((mx 0%nat - mn 0%nat + 1 + / 10 ^ 14) / h)))) eqn:E0; [|discriminate]. apply i32_inv in E0. destruct E0 as (-> & E0). cbn [bind] in H.
    destruct (i32 (trunc (Rmax (/ 10 ^ 16) ((mx 1%nat - mn 1%nat + 1 + / 10 ^ 14) / h)))) eqn:E1; [|discriminate]. apply i32_inv in E1. destruct E1 as (-> & E1). cbn [bind] in H.
    destruct (i32 (trunc (Rmax (/ 10 ^ 16) ((mx 2%nat - mn 2%nat + 1 + / 10 ^ 14) / h)))) eqn:E2; [|discriminate]. apply i32_inv in E2. destruct E2 as (-> & E2). cbn [bind] in H. injection H as <-.
    intros d Hd. assert (D : d = 0 \/ d = 1 \/ d = 2) by lia. destruct D as [-> | [-> | ->]]; (split; [reflexivity|unfold bins; lia]).
  Qed.
  Lemma key32_fit bb pts g c : (forall d, d < 3 -> bb d = B d) -> (forall d, d < 3 -> getu pts (g * 3 + d) = Ok (c d)) -> (nkey c <= 2147483647)%Z ->
    key32 h mn bb pts g = Ok (Z.to_nat (nkey c)).
  Proof.
    intros Eb Hc Hk. assert (P := nkey_parts c). unfold nkey in *. unfold key32, loop. cbn [loop_from bind]. rewrite !Hc by lia. cbn [bind]. rewrite !rdiv_ok by lra. cbn [bind]. unfold cast32.
    change (trunc (Rmax (/ 10 ^ 16) ((c 0%nat - mn 0%nat + / 10 ^ 14) / h))) with (b c 0%nat). change (trunc (Rmax (/ 10 ^ 16) ((c 1%nat - mn 1%nat + / 10 ^ 14) / h))) with (b c 1%nat). change (trunc (Rmax (/ 10 ^ 16) ((c 2%nat - mn 2%nat + / 10 ^ 14) / h))) with (b c 2%nat).
    rewrite (i32_ok (b c 0%nat)) by lia. cbn [bind]. rewrite (i32_ok (b c 1%nat)) by lia. cbn [bind]. rewrite (i32_ok (b c 2%nat)) by lia. cbn [bind]. unfold fset. cbn [Nat.eqb]. rewrite !Eb by lia.
    rewrite (i32_ok (b c 1%nat * B 0%nat)) by lia. cbn [bind]. rewrite (i32_ok (b c 0%nat + b c 1%nat * B 0%nat)) by lia. cbn [bind].
    rewrite (i32_ok (b c 2%nat * B 0%nat)) by lia. cbn [bind]. rewrite (i32_ok (b c 2%nat * B 0%nat * B 1%nat)) by lia. cbn [bind]. rewrite i32_ok by lia. cbn [bind].
    match goal with |- context [Z.ltb ?k 0] => destruct (Z.ltb_spec k 0); [lia|reflexivity] end.
  Qed.
  Lemma key32_val bb pts g c k : (forall d, d < 3 -> bb d = B d) -> (forall d, d < 3 -> getu pts (g * 3 + d) = Ok (c d)) -> key32 h mn bb pts g = Ok k ->
    k = Z.to_nat (nkey c) /\ (nkey c <= 2147483647)%Z.
  Proof.
    intros Eb Hc. assert (P := nkey_parts c). unfold nkey in *. unfold key32, loop. cbn [loop_from bind]. rewrite !Hc by lia. cbn [bind]. rewrite !rdiv_ok by lra. cbn [bind]. unfold cast32.
    change (trunc (Rmax (/ 10 ^ 16) ((c 0%nat - mn 0%nat + / 10 ^ 14) / h))) with (b c 0%nat). change (trunc (Rmax (/ 10 ^ 16) ((c 1%nat - mn 1%nat + / 10 ^ 14) / h))) with (b c 1%nat). change (trunc (Rmax (/ 10 ^ 16) ((c 2%nat - mn 2%nat + / 10 ^ 14) / h))) with (b c 2%nat).
    destruct (i32_cases (b c 0%nat)) as [-> | ->]; cbn [bind]; [|discriminate]. destruct (i32_cases (b c 1%nat)) as [-> | ->]; cbn [bind]; [|discriminate]. destruct (i32_cases (b c 2%nat)) as [-> | ->]; cbn [bind]; [|discriminate].
    unfold fset. cbn [Nat.eqb]. rewrite !Eb by lia.
    destruct (i32_cases (b c 1%nat * B 0%nat)) as [-> | ->]; cbn [bind]; [|discriminate]. destruct (i32_cases (b c 0%nat + b c 1%nat * B 0%nat)) as [-> | ->]; cbn [bind]; [|discriminate].
    destruct (i32_cases (b c 2%nat * B 0%nat)) as [-> | ->]; cbn [bind]; [|discriminate]. destruct (i32_cases (b c 2%nat * B 0%nat * B 1%nat)) as [-> | ->]; cbn [bind]; [|discriminate].
    destruct (i32 (b c 0%nat + b c 1%nat * B 0%nat + b c 2%nat * B 0%nat * B 1%nat)) eqn:Ek; cbn [bind]; [|discriminate]. apply i32_inv in Ek. destruct Ek as (-> & Ek).
    match goal with |- context [Z.ltb ?k 0] => destruct (Z.ltb_spec k 0); [lia|] end. intros Q. injection Q as <-. split; [reflexivity|lia].
  Qed.

  (** the whole list of keys *)
  Variables (n : nat) (pts : list (option R)) (c : nat -> nat -> R).
  Hypothesis (Hc : forall g d, g < n -> d < 3 -> getu pts (g * 3 + d) = Ok (c g d)).

  Lemma max_key_le (l : list nat) M : (forall k, In k l -> k <= M) -> max_key l <= M.
  Proof.
    unfold max_key. intros H. assert (G : forall l a, a <= M -> (forall k, In k l -> k <= M) -> fold_left Nat.max l a <= M).
    { clear. induction l as [|x l IH]; intros a Ha H; [exact Ha|]. cbn [fold_left]. apply IH; [|intros k Hk; apply H; right; exact Hk]. specialize (H x (or_introl eq_refl)). lia. }
    apply G; [lia|exact H].
  Qed.
  Lemma max_key_ge (l : list nat) k : In k l -> k <= max_key l.
  Proof.
    unfold max_key. generalize 0. induction l as [|x l IH]; intros a H; [destruct H|]. cbn [fold_left]. destruct H as [->|H]; [|apply IH; exact H].
    clear. assert (G : forall l a, a <= fold_left Nat.max l a) by (clear; induction l as [|y l IH]; intros a; cbn [fold_left]; [lia|specialize (IH (Nat.max a y)); lia]). specialize (G l (Nat.max a k)). lia.
  Qed.

  Lemma keys32_fit : (forall d, d < 3 -> (B d <= 2147483647)%Z) -> (forall g, g < n -> (nkey (c g) + 10 <= 2147483647)%Z) ->
    exists ks, keys32 n h mx mn pts = Ok ks.
  Proof.
    intros H1 H2. unfold keys32. destruct (bins32_fit H1) as (bb & -> & Eb). cbn [bind].
    edestruct (loop_inv (fun q (ks : list nat) => forall k, In k ks -> k <= Z.to_nat 2147483637) n) as (ks & -> & Hks).
    3:{ cbn [bind]. rewrite fits_ok; [cbn [bind]; eauto|]. assert (Q := max_key_le ks _ Hks). lia. }
    - intros k [].
    - intros g ks Hg H. cbn beta. rewrite (key32_fit bb pts g (c g) Eb) by (try (intros; apply Hc; assumption); specialize (H2 g Hg); lia). cbn [bind]. eexists. split; [reflexivity|].
      intros k Hk. apply in_app_or in Hk. destruct Hk as [Hk|[<-|[]]]; [apply H; exact Hk|]. specialize (H2 g Hg). assert (P := nkey_parts (c g)). unfold nkey in *. lia.
  Qed.
  Lemma keys32_val ks : keys32 n h mx mn pts = Ok ks -> (forall d, d < 3 -> (B d <= 2147483647)%Z) /\ forall g, g < n -> (nkey (c g) + 10 <= 2147483647)%Z.
  Proof.
    unfold keys32. intros H. destruct (bins32 h mx mn) as [bb|] eqn:Eb; [|discriminate]. cbn [bind] in H. assert (Vb := bins32_val bb Eb).
    split; [intros d Hd; apply Vb; exact Hd|].
    destruct (loop n _ []) as [ks'|] eqn:EL; [|discriminate]. cbn [bind] in H. destruct (fits (max_key ks' + 10)) eqn:Ef; [|discriminate]. apply fits_inv in Ef.
    assert (G : forall q acc r, (forall i, i < q -> q <= n) -> loop_from (n - q) q (fun g ks => do k <- key32 h mn bb pts g; Ok (ks ++ [k])) acc = Ok r ->
        (forall k, In k acc -> In k r) /\ forall g, n - q <= g < n -> q <= n -> In (Z.to_nat (nkey (c g))) r).
    { induction q as [|q IH]; intros acc r Hq; cbn [loop_from]; [intros Q; injection Q as <-; split; [auto|intros g Hg; lia]|].
      assert (Hqn : S q <= n) by (apply (Hq 0); lia).
      destruct (key32 h mn bb pts (n - S q)) as [k|] eqn:Ek; cbn [bind]; [|discriminate]. replace (S (n - S q)) with (n - q) by lia.
      intros Q. destruct (IH _ _ ltac:(intros; lia) Q) as (Q1 & Q2). split; [intros k' Hk'; apply Q1, in_or_app; left; exact Hk'|].
      intros g Hg _. destruct (Nat.eq_dec g (n - S q)) as [->|]; [|apply Q2; lia]. apply Q1, in_or_app. right. left.
      apply (key32_val bb pts (n - S q) (c (n - S q))) in Ek; [apply Ek|intros d Hd; apply Vb; exact Hd|intros d Hd; apply Hc; lia]. }
    unfold loop in EL. replace 0 with (n - n) in EL by lia. destruct (G n [] ks' ltac:(intros; lia) EL) as (_ & Q). intros g Hg. specialize (Q g ltac:(lia) ltac:(lia)). apply max_key_ge in Q. lia.
  Qed.
End Keys.
