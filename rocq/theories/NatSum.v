(** Sums of naturals, filtered index ranges, and flattening of nested loops. *)
From Coq Require Import List Arith Lia Sorted.
Import ListNotations.
Require Import Verif.Base.

Fixpoint nsum (n : nat) (f : nat -> nat) : nat :=
  match n with 0 => 0 | S m => nsum m f + f m end.

Lemma nsum_ext n f g : (forall i, i < n -> f i = g i) -> nsum n f = nsum n g.
Proof.
  induction n as [|n IH]; simpl; intros H; [reflexivity|].
  rewrite IH by (intros; apply H; lia). rewrite H by lia. reflexivity.
Qed.
Lemma nsum_plus n f g : nsum n (fun i => f i + g i) = nsum n f + nsum n g.
Proof. induction n as [|n IH]; simpl; lia. Qed.
Lemma nsum_zero n f : (forall i, i < n -> f i = 0) -> nsum n f = 0.
Proof. induction n as [|n IH]; simpl; intros H; [reflexivity|]. rewrite IH, H by (intros; try apply H; lia). reflexivity. Qed.
Lemma nsum_single n k f : k < n -> (forall i, i < n -> i <> k -> f i = 0) -> nsum n f = f k.
Proof.
  intros Hk H. induction n as [|n IH]; [lia|]. simpl. destruct (Nat.eq_dec k n) as [->|E].
  - rewrite nsum_zero by (intros; apply H; lia). lia.
  - rewrite IH by (try lia; intros; apply H; lia). rewrite (H n) by lia. lia.
Qed.
Lemma nsum_mono n m f : n <= m -> nsum n f <= nsum m f.
Proof. intros H. induction H; [lia|]. simpl. lia. Qed.
Lemma nsum_le n f g : (forall i, i < n -> f i <= g i) -> nsum n f <= nsum n g.
Proof.
  induction n as [|n IH]; simpl; intros H; [lia|].
  assert (nsum n f <= nsum n g) by (apply IH; intros; apply H; lia). specialize (H n). lia.
Qed.

(** positions below a bound satisfying a test, in increasing order *)
Definition poss (n : nat) (p : nat -> bool) : list nat := filter p (seq 0 n).
Lemma poss_S n p : poss (S n) p = poss n p ++ (if p n then [n] else []).
Proof. unfold poss. rewrite seq_S, filter_app. simpl. reflexivity. Qed.
Lemma poss_In n p q : In q (poss n p) <-> q < n /\ p q = true.
Proof. unfold poss. rewrite filter_In, in_seq. intuition lia. Qed.
Lemma poss_NoDup n p : NoDup (poss n p).
Proof. apply NoDup_filter, seq_NoDup. Qed.
Lemma poss_len_le n p : length (poss n p) <= n.
Proof. induction n as [|n IH]; [reflexivity|]. rewrite poss_S, app_length. destruct (p n); simpl; lia. Qed.
Lemma poss_ext n p p' : (forall q, q < n -> p q = p' q) -> poss n p = poss n p'.
Proof. intros H. unfold poss. apply filter_ext_in. intros q Hq. apply in_seq in Hq. apply H. lia. Qed.
Lemma poss_len_mono n m p : n <= m -> length (poss n p) <= length (poss m p).
Proof. intros H. induction H; [lia|]. rewrite poss_S, app_length. lia. Qed.

(** ---- loops ---- *)
Lemma loop_from_app {S} (lo a b : nat) (f : nat -> S -> res S) s :
  loop_from lo (a + b) f s = bind (loop_from lo a f s) (fun s' => loop_from (lo + a) b f s').
Proof.
  revert lo s. induction a as [|a IH]; intros lo s; simpl.
  - rewrite Nat.add_0_r. reflexivity.
  - destruct (f lo s) as [s1|e]; simpl; [|reflexivity].
    rewrite IH. replace (lo + Datatypes.S a) with (Datatypes.S lo + a) by lia. reflexivity.
Qed.

Lemma loop_from_shift {S} (d lo n : nat) (f : nat -> S -> res S) s :
  loop_from (d + lo) n f s = loop_from lo n (fun i => f (d + i)) s.
Proof.
  revert lo s. induction n as [|n IH]; intros lo s; simpl; [reflexivity|].
  destruct (f (d + lo) s) as [s1|e]; simpl; [|reflexivity].
  rewrite <- IH. f_equal. lia.
Qed.

Lemma loop_nested {S} (n K : nat) (f : nat -> nat -> S -> res S) s :
  loop n (fun c s => loop K (fun l s => f c l s) s) s =
  loop (n * K) (fun p s => f (p / K) (p mod K) s) s.
Proof.
  destruct (Nat.eq_dec K 0) as [->|HK].
  { rewrite Nat.mul_0_r. unfold loop. simpl. generalize 0. revert s.
    induction n as [|n IH]; intros s lo; simpl; [reflexivity|]. apply IH. }
  unfold loop at 1 3.
  assert (G : forall m lo s, loop_from lo m (fun c s => loop K (fun l s => f c l s) s) s =
     loop_from (lo * K) (m * K) (fun p s => f (p / K) (p mod K) s) s).
  { induction m as [|m IH]; intros lo s0; simpl; [reflexivity|].
    rewrite loop_from_app. unfold loop at 1.
    rewrite (loop_from_ext 0 K (fun l s => f lo l s)
              (fun i s => f ((lo * K + i) / K) ((lo * K + i) mod K) s)).
    2: { intros i s' Hi. rewrite Nat.add_comm, Nat.div_add, Nat.mod_add by exact HK.
         rewrite Nat.div_small, Nat.mod_small by lia. reflexivity. }
    rewrite <- (loop_from_shift (lo * K) 0 K (fun p s => f (p / K) (p mod K) s)).
    rewrite Nat.add_0_r.
    destruct (loop_from (lo * K) K _ s0) as [s1|e]; simpl; [|reflexivity].
    rewrite IH. simpl. replace (K + lo * K) with (lo * K + K) by lia. reflexivity. }
  rewrite G. reflexivity.
Qed.

Lemma divmod_pos p K n : p < n * K -> p / K < n /\ p mod K < K /\ p / K * K + p mod K = p.
Proof.
  intros H. assert (K <> 0) by (intros ->; lia).
  split; [apply Nat.div_lt_upper_bound; lia|]. split; [apply Nat.mod_upper_bound; assumption|].
  rewrite Nat.mul_comm. symmetry. apply Nat.div_mod. assumption.
Qed.

Lemma loop_inv_ok {S} (P : nat -> S -> Prop) n body s0 s :
  loop n body s0 = Ok s -> P 0 s0 ->
  (forall i s s', i < n -> P i s -> body i s = Ok s' -> P (Datatypes.S i) s') -> P n s.
Proof.
  intros E H0 Hs. unfold loop in E.
  assert (G : forall m lo s0, lo + m <= n -> loop_from lo m body s0 = Ok s -> P lo s0 -> P (lo + m) s).
  { induction m as [|m IH]; intros lo s1 Hlo E1 P1; simpl in E1.
    - inversion E1; subst. rewrite Nat.add_0_r. exact P1.
    - apply bind_ok in E1. destruct E1 as (s2 & E2 & E3).
      replace (lo + Datatypes.S m) with (Datatypes.S lo + m) by lia.
      apply (IH (Datatypes.S lo) s2); [lia|exact E3|]. apply (Hs lo s1); [lia|exact P1|exact E2]. }
  apply (G n 0 s0); [lia|exact E|exact H0].
Qed.

Lemma loop4 {S} (a b c d : nat) (f : nat -> nat -> nat -> nat -> S -> res S) s :
  loop a (fun e s => loop b (fun k s => loop c (fun j s => loop d (fun i s => f e k j i s) s) s) s) s =
  loop (a * b * c * d) (fun p s => f (p / d / c / b) (p / d / c mod b) (p / d mod c) (p mod d) s) s.
Proof.
  rewrite (loop_nested a b (fun e k s => loop c (fun j s => loop d (fun i s => f e k j i s) s) s)).
  rewrite (loop_nested (a * b) c (fun p j s => loop d (fun i s => f (p / b) (p mod b) j i s) s)).
  rewrite (loop_nested (a * b * c) d (fun p i s => f (p / c / b) (p / c mod b) (p mod c) i s)).
  reflexivity.
Qed.

Lemma loop3 {S} (b c d : nat) (f : nat -> nat -> nat -> S -> res S) s :
  loop b (fun k s => loop c (fun j s => loop d (fun i s => f k j i s) s) s) s =
  loop (b * c * d) (fun p s => f (p / d / c) (p / d mod c) (p mod d) s) s.
Proof.
  rewrite (loop_nested b c (fun k j s => loop d (fun i s => f k j i s) s)).
  rewrite (loop_nested (b * c) d (fun p i s => f (p / c) (p mod c) i s)).
  reflexivity.
Qed.

(** digits of a position *)
Lemma digit_lo K q r : r < K -> (q * K + r) mod K = r /\ (q * K + r) / K = q.
Proof.
  intros H. rewrite (Nat.add_comm (q * K)). rewrite Nat.mod_add, Nat.div_add by lia.
  rewrite Nat.mod_small, Nat.div_small by lia. auto.
Qed.
