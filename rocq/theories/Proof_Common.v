From Coq Require Import List NArith ZArith Lia Bool.
Import ListNotations.
Require Import Verif.Base Verif.Model_Common Verif.Spec_Common.
Open Scope N_scope.

Lemma w64_lt x : w64 x < two64.
Proof. apply N.mod_lt. discriminate. Qed.

Lemma w64_small x : x < two64 -> w64 x = x.
Proof. apply N.mod_small. Qed.

Lemma prodN_pos b : Forall (fun r => 0 < r) b -> 0 < prodN b.
Proof. induction 1; cbn [prodN]; [reflexivity|]. apply N.mul_pos_pos; assumption. Qed.

Lemma encode_digits b x :
  Forall (fun r => 0 < r) b ->
  exists y, base_10_to_mixed_radix b x = Ok y /\ digits_ok b y /\ positional b y = x mod prodN b.
Proof.
  intros Hb. revert x. induction Hb as [|b0 bs H0 Hbs IH]; intros x; cbn [base_10_to_mixed_radix].
  - exists []. split; [reflexivity|]. split; [constructor|]. cbn. symmetry. apply N.mod_1_r.
  - destruct (N.eqb_spec b0 0) as [->|_]; [lia|].
    destruct (IH (x / b0)) as (y & E & D & P). rewrite E. cbn [bind].
    exists (x mod b0 :: y). split; [reflexivity|]. split.
    + constructor; [apply N.mod_lt; lia|exact D].
    + cbn [positional prodN]. rewrite P.
      pose proof (prodN_pos bs Hbs).
      rewrite N.mod_mul_r by lia. reflexivity.
Qed.

Lemma encode_zero_radix b x : In 0 b -> base_10_to_mixed_radix b x = Err DivZero.
Proof.
  revert x. induction b as [|b0 bs IH]; intros x H; [destruct H|].
  cbn [base_10_to_mixed_radix]. destruct (N.eqb_spec b0 0) as [->|n]; [reflexivity|].
  destruct H as [H|H]; [congruence|]. rewrite (IH _ H). reflexivity.
Qed.

Lemma w64_add_l a b : w64 (w64 a + b) = w64 (a + b).
Proof. unfold w64. apply N.add_mod_idemp_l. discriminate. Qed.
Lemma w64_add_r a b : w64 (a + w64 b) = w64 (a + b).
Proof. unfold w64. apply N.add_mod_idemp_r. discriminate. Qed.
Lemma w64_mul_l a b : w64 (w64 a * b) = w64 (a * b).
Proof. unfold w64. apply N.mul_mod_idemp_l. discriminate. Qed.
Lemma w64_mul_r a b : w64 (a * w64 b) = w64 (a * b).
Proof. unfold w64. apply N.mul_mod_idemp_r. discriminate. Qed.
Lemma w64_w64 a : w64 (w64 a) = w64 a.
Proof. unfold w64. apply N.mod_mod. discriminate. Qed.

Lemma mixed_loop_value b d y z y' z' :
  length b = length d -> y = w64 y' -> z = w64 z' ->
  mixed_radix_loop b d y z = Ok (w64 (y' + z' * positional b d)).
Proof.
  revert d y z y' z'.
  induction b as [|b0 bs IH]; intros [|d0 ds] y z y' z' HL Hy Hz; try discriminate;
    cbn [mixed_radix_loop positional].
  - rewrite N.mul_0_r, N.add_0_r. subst. reflexivity.
  - erewrite (IH ds _ _ (y' + d0 * z') (z' * b0)).
    + f_equal. f_equal. lia.
    + cbn in HL. lia.
    + subst. rewrite w64_add_l, w64_add_r.
      rewrite <- (w64_add_r y'), w64_mul_r, w64_add_r. reflexivity.
    + subst. rewrite w64_mul_l. reflexivity.
Qed.

Lemma mixed_value b d :
  length b = length d -> mixed_radix_to_base_10 b d = Ok (w64 (positional b d)).
Proof.
  intros H. unfold mixed_radix_to_base_10.
  rewrite (mixed_loop_value b d 0 1 0 1 H); [|reflexivity|reflexivity].
  f_equal. f_equal. lia.
Qed.

Lemma digits_length b d : digits_ok b d -> length b = length d.
Proof. induction 1; cbn; congruence. Qed.

Lemma positional_lt b d : digits_ok b d -> positional b d < prodN b.
Proof.
  induction 1 as [|b0 d0 bs ds H0 _ IH]; cbn [positional prodN]; [reflexivity|]. nia.
Qed.

Lemma encode_positional b d : digits_ok b d -> base_10_to_mixed_radix b (positional b d) = Ok d.
Proof.
  induction 1 as [|b0 d0 bs ds H0 _ IH]; cbn [positional base_10_to_mixed_radix]; [reflexivity|].
  destruct (N.eqb_spec b0 0) as [->|n]; [lia|].
  replace ((d0 + b0 * positional bs ds) / b0) with (positional bs ds).
  2:{ rewrite N.mul_comm, N.div_add by lia. rewrite N.div_small by lia. reflexivity. }
  replace ((d0 + b0 * positional bs ds) mod b0) with d0.
  2:{ rewrite N.mul_comm, N.mod_add by lia. rewrite N.mod_small by lia. reflexivity. }
  rewrite IH. reflexivity.
Qed.

Lemma round_trip_number b x :
  Forall (fun r => 0 < r) b -> x < two64 ->
  exists y, base_10_to_mixed_radix b x = Ok y /\ digits_ok b y /\
            mixed_radix_to_base_10 b y = Ok (x mod prodN b).
Proof.
  intros Hb Hx. destruct (encode_digits b x Hb) as (y & E & D & P).
  exists y. split; [exact E|]. split; [exact D|].
  rewrite mixed_value by (apply digits_length; exact D). rewrite P.
  rewrite w64_small; [reflexivity|].
  pose proof (prodN_pos b Hb). eapply N.le_lt_trans; [|exact Hx]. apply N.mod_le. lia.
Qed.

Lemma round_trip_digits b d :
  digits_ok b d -> prodN b <= two64 ->
  exists v, mixed_radix_to_base_10 b d = Ok v /\ v = positional b d /\ v < prodN b /\
            base_10_to_mixed_radix b v = Ok d.
Proof.
  intros D HP. exists (positional b d). rewrite mixed_value by (apply digits_length; exact D).
  pose proof (positional_lt b d D).
  rewrite w64_small by lia. auto using encode_positional.
Qed.

Lemma mixed_injective b d1 d2 :
  digits_ok b d1 -> digits_ok b d2 -> prodN b <= two64 ->
  mixed_radix_to_base_10 b d1 = mixed_radix_to_base_10 b d2 -> d1 = d2.
Proof.
  intros D1 D2 HP E.
  destruct (round_trip_digits b d1 D1 HP) as (v1 & E1 & _ & _ & B1).
  destruct (round_trip_digits b d2 D2 HP) as (v2 & E2 & _ & _ & B2).
  congruence.
Qed.

Lemma mixed_surjective b v :
  Forall (fun r => 0 < r) b -> prodN b <= two64 -> v < prodN b ->
  exists d, digits_ok b d /\ mixed_radix_to_base_10 b d = Ok v.
Proof.
  intros Hb HP Hv. destruct (round_trip_number b v Hb) as (y & _ & D & E); [lia|].
  exists y. split; [exact D|]. rewrite E. rewrite N.mod_small by exact Hv. reflexivity.
Qed.

(** ---- derivative encoding ---- *)

Lemma decode_bound fuel e p nx ny nz r :
  decode_loop fuel e p nx ny nz = Ok r ->
  p + N.of_nat fuel < two64 ->
  forall K, nx + N.of_nat fuel * K < two64 -> ny + N.of_nat fuel * K < two64 ->
            nz + N.of_nat fuel * K < two64 -> p + N.of_nat fuel <= K ->
  (fst (fst r) <= nx + N.of_nat fuel * K /\ snd (fst r) <= ny + N.of_nat fuel * K
   /\ snd r <= nz + N.of_nat fuel * K).
Proof.
  revert e p nx ny nz. induction fuel as [|f IH]; intros e p nx ny nz E Hp K Hx Hy Hz HK;
    cbn [decode_loop] in E; destruct (N.eqb_spec e 0); try discriminate.
  1,2: inversion E; subst; cbn [fst snd]; lia.
  apply IH with (K := K) in E.
  - revert E. repeat match goal with |- context [w64 ?a] => rewrite (w64_small a) end;
    repeat match goal with |- context [if ?c then _ else _] => destruct c end; lia.
  - rewrite w64_small; lia.
  - rewrite w64_small; destruct (0 <? N.land e 1); lia.
  - rewrite w64_small; destruct (0 <? N.land e 2); lia.
  - rewrite w64_small; destruct (0 <? N.land e 4); lia.
  - rewrite w64_small; lia.
Qed.

Lemma decode_small e a b c : decode_partial_derivative e = Ok (a, b, c) -> a <= 506 /\ b <= 506 /\ c <= 506.
Proof.
  intros E. unfold decode_partial_derivative in E.
  assert (H := decode_bound 22 e 1 0 0 0 (a, b, c) E).
  change (N.of_nat 22) with 22 in H. unfold two64 in H.
  specialize (H ltac:(reflexivity) 23 ltac:(reflexivity) ltac:(reflexivity) ltac:(reflexivity) ltac:(discriminate)).
  cbn [fst snd] in H. lia.
Qed.

Definition range (n : nat) : list N := map N.of_nat (seq 0 n).
Lemma in_range n x : x < N.of_nat n -> In x (range n).
Proof.
  intros H. unfold range. apply in_map_iff. exists (N.to_nat x). split; [lia|].
  apply in_seq. lia.
Qed.

Definition triple_eqb (r : res (N * N * N)) (a b c : N) : bool :=
  match r with Ok (x, y, z) => (x =? a) && (y =? b) && (z =? c) | Err _ => false end.
Definition rt_ok (a b c : N) : bool :=
  match encode_partial_derivative a b c with
  | Ok e => triple_eqb (decode_partial_derivative e) a b c
  | Err _ => false
  end.
Definition in_box (a b c : N) : bool :=
  (1 <=? a) && (a <=? 11) && (1 <=? b) && (b <=? 10) && (1 <=? c) && (c <=? 10).

Lemma sweep : forallb (fun a => forallb (fun b => forallb (fun c => Bool.eqb (rt_ok a b c) (in_box a b c))
                        (range 12)) (range 12)) (range 12) = true.
Proof. vm_compute. reflexivity. Qed.

Lemma rt_ok_spec a b c :
  rt_ok a b c = true <->
  exists e, encode_partial_derivative a b c = Ok e /\ decode_partial_derivative e = Ok (a, b, c).
Proof.
  unfold rt_ok. destruct (encode_partial_derivative a b c) as [e|er] eqn:E.
  - split.
    + intros H. exists e. split; [reflexivity|].
      destruct (decode_partial_derivative e) as [[[x y] z]|]; cbn in H; [|discriminate].
      apply andb_true_iff in H as [H Hz]. apply andb_true_iff in H as [Hx Hy].
      apply N.eqb_eq in Hx, Hy, Hz. congruence.
    + intros (e' & E' & D). inversion E'; subst. rewrite D. cbn. rewrite !N.eqb_refl. reflexivity.
  - split; [discriminate|]. intros (e' & E' & _). discriminate.
Qed.

Lemma shl_ok bit amt v : shl_int bit amt = Ok v -> amt < 32.
Proof. unfold shl_int. destruct (N.leb_spec 32 amt); [discriminate|auto]. Qed.

Lemma amount_small off n : off <= 2 -> n <= 506 -> shift_amount off n < 32 -> 1 <= n <= 11.
Proof.
  unfold shift_amount. intros Ho Hn H.
  destruct (N.eq_dec n 0) as [->|Hz].
  - exfalso. revert H.
    assert (off = 0 \/ off = 1 \/ off = 2) as [-> | [-> | ->]] by lia; vm_compute; discriminate.
  - assert (E : w64 (n + two64 - 1) = n - 1).
    { unfold w64. replace (n + two64 - 1) with ((n - 1) + 1 * two64) by lia.
      rewrite N.mod_add by discriminate. apply N.mod_small. unfold two64. lia. }
    rewrite E in H. rewrite (w64_small (3 * (n - 1))) in H by (unfold two64; lia).
    rewrite w64_small in H by (unfold two64; lia). lia.
Qed.

Lemma encode_round_trip_iff a b c :
  (exists e, encode_partial_derivative a b c = Ok e /\ decode_partial_derivative e = Ok (a, b, c))
  <-> (1 <= a <= 11 /\ 1 <= b <= 10 /\ 1 <= c <= 10).
Proof.
  assert (S : forall a b c, a < 12 -> b < 12 -> c < 12 -> rt_ok a b c = in_box a b c).
  { intros x y z Hx Hy Hz. pose proof sweep as H.
    rewrite forallb_forall in H. specialize (H x (in_range 12 x Hx)).
    rewrite forallb_forall in H. specialize (H y (in_range 12 y Hy)).
    rewrite forallb_forall in H. specialize (H z (in_range 12 z Hz)).
    apply eqb_prop in H. exact H. }
  split.
  - intros (e & E & D).
    destruct (decode_small _ _ _ _ D) as (Ha & Hb & Hc).
    pose proof E as E0. unfold encode_partial_derivative in E0.
    apply bind_ok in E0 as (va & Ea & E0). apply bind_ok in E0 as (vb & Eb & E0).
    apply bind_ok in E0 as (vc & Ec & _).
    apply shl_ok in Ea, Eb, Ec.
    apply amount_small in Ea; [|lia|lia]. apply amount_small in Eb; [|lia|lia].
    apply amount_small in Ec; [|lia|lia].
    assert (R : rt_ok a b c = true) by (apply rt_ok_spec; eauto).
    rewrite S in R by lia. unfold in_box in R.
    repeat (apply andb_true_iff in R as [R ?]).
    repeat match goal with H : (_ <=? _) = true |- _ => apply N.leb_le in H end. lia.
  - intros (Ha & Hb & Hc). apply rt_ok_spec. rewrite S by lia. unfold in_box.
    repeat (apply andb_true_iff; split); apply N.leb_le; lia.
Qed.

Lemma encode_zero_order a b c :
  a = 0 \/ b = 0 \/ c = 0 -> exists er, encode_partial_derivative a b c = Err er.
Proof.
  assert (Z0 : shl_int (0 <? 0) (shift_amount 0 0) = Err BadShift) by reflexivity.
  assert (Z1 : shl_int (0 <? 0) (shift_amount 1 0) = Err BadShift) by reflexivity.
  assert (Z2 : shl_int (0 <? 0) (shift_amount 2 0) = Err BadShift) by reflexivity.
  intros H. unfold encode_partial_derivative.
  destruct H as [-> | [-> | ->]].
  - rewrite Z0. cbn. eauto.
  - rewrite Z1. destruct (shl_int (0 <? a) (shift_amount 0 a)); cbn; eauto.
  - rewrite Z2. destruct (shl_int (0 <? a) (shift_amount 0 a)); cbn; eauto.
    destruct (shl_int (0 <? b) (shift_amount 1 b)); cbn; eauto.
Qed.
