(** Patch numbering of the reference element (C37). *)
From Coq Require Import List Arith ZArith Lia Bool Reals.
Import ListNotations.
Require Import Verif.Base Verif.NatSum Verif.Model_Ref Verif.Spec_Ref Verif.Proof_Ref Verif.Proof_Ref2.

Definition enc (n i j k s : nat) : nat := s + rid n i j k * 6.
Lemma enc_dec n i j k s : i < n -> j < n -> s < 6 ->
  enc n i j k s mod 6 = s /\ enc n i j k s / 6 mod n = i /\ enc n i j k s / 6 / n mod n = j /\ enc n i j k s / 6 / n / n = k.
Proof.
  intros Hi Hj Hs. unfold enc. rewrite Nat.add_comm. destruct (digit_lo 6 (rid n i j k) s Hs) as (-> & ->).
  destruct (rid_dec n i j k Hi Hj) as (-> & -> & ->). auto.
Qed.
Lemma enc_inj n i j k s i' j' k' s' : i < n -> j < n -> s < 6 -> i' < n -> j' < n -> s' < 6 ->
  enc n i j k s = enc n i' j' k' s' -> i = i' /\ j = j' /\ k = k' /\ s = s'.
Proof.
  intros H1 H2 H3 H4 H5 H6 E. destruct (enc_dec n i j k s H1 H2 H3) as (A & B & C & D).
  destruct (enc_dec n i' j' k' s' H4 H5 H6) as (A' & B' & C' & D'). rewrite E in *. lia.
Qed.
Lemma enc_lt n i j k s : i < n -> j < n -> k < n -> s < 6 -> enc n i j k s < n * n * n * 6.
Proof. intros. unfold enc. pose proof (rid_lt n i j k). lia. Qed.
Lemma pos6 n q : q < n * n * n * 6 -> exists i j k s, i < n /\ j < n /\ k < n /\ s < 6 /\ q = enc n i j k s.
Proof.
  intros H. destruct (divmod_pos q 6 (n * n * n) H) as (A1 & A2 & A3).
  destruct (pos3 n (q / 6) A1) as (B1 & B2 & B3 & B4).
  exists (q / 6 mod n), (q / 6 / n mod n), (q / 6 / n / n), (q mod 6). repeat (split; [assumption|]).
  unfold enc. rewrite <- B4. lia.
Qed.

(** canonical side of a face: the first one met *)
Definition ctup (n i j k s : nat) : nat :=
  match s with
  | 0 => match i with 0 => enc n i j k 0 | S i' => enc n i' j k 1 end
  | 2 => match j with 0 => enc n i j k 2 | S j' => enc n i j' k 3 end
  | 4 => match k with 0 => enc n i j k 4 | S k' => enc n i j k' 5 end
  | _ => enc n i j k s
  end.
Definition ntup (i j k s : nat) : bool :=
  match s with 0 => i =? 0 | 2 => j =? 0 | 4 => k =? 0 | _ => true end.
Definition canon (n q : nat) : nat := ctup n (q / 6 mod n) (q / 6 / n mod n) (q / 6 / n / n) (q mod 6).
Definition isnew (n q : nat) : bool := ntup (q / 6 mod n) (q / 6 / n mod n) (q / 6 / n / n) (q mod 6).

Lemma canon_enc n i j k s : i < n -> j < n -> s < 6 -> canon n (enc n i j k s) = ctup n i j k s.
Proof. intros H1 H2 H3. unfold canon. destruct (enc_dec n i j k s H1 H2 H3) as (-> & -> & -> & ->). reflexivity. Qed.
Lemma isnew_enc n i j k s : i < n -> j < n -> s < 6 -> isnew n (enc n i j k s) = ntup i j k s.
Proof. intros H1 H2 H3. unfold isnew. destruct (enc_dec n i j k s H1 H2 H3) as (-> & -> & -> & ->). reflexivity. Qed.

Ltac six s := let C := fresh "C" in
  assert (C : s = 0 \/ s = 1 \/ s = 2 \/ s = 3 \/ s = 4 \/ s = 5) by lia;
  destruct C as [C|[C|[C|[C|[C|C]]]]]; subst s.
Lemma enc_le_i n j k i : enc n i j k 1 < enc n (S i) j k 0.
Proof. unfold enc, rid. lia. Qed.
Lemma enc_le_j n i k : i < n -> forall j, enc n i j k 3 < enc n i (S j) k 2.
Proof. intros H j. unfold enc, rid. nia. Qed.
Lemma enc_le_k n i j : i < n -> forall k, enc n i j k 5 < enc n i j (S k) 4.
Proof. intros H k. unfold enc, rid. nia. Qed.

Lemma canon_facts n q : q < n * n * n * 6 ->
  canon n q <= q /\ (isnew n q = true -> canon n q = q) /\ (isnew n q = false -> canon n q < q) /\ isnew n (canon n q) = true.
Proof.
  intros H. destruct (pos6 n q H) as (i & j & k & s & Hi & Hj & Hk & Hs & ->).
  rewrite canon_enc, isnew_enc by assumption.
  six s; cbn [ctup ntup]; try (rewrite isnew_enc by (assumption || lia); cbn [ntup];
     repeat split; solve [lia | reflexivity | congruence]).
  - destruct i as [|i]; cbn [Nat.eqb]; rewrite isnew_enc by lia; cbn [ntup Nat.eqb];
      try pose proof (enc_le_i n j k i); repeat split; solve [lia | reflexivity | congruence].
  - destruct j as [|j]; cbn [Nat.eqb]; rewrite isnew_enc by lia; cbn [ntup Nat.eqb];
      try pose proof (enc_le_j n i k Hi j); repeat split; solve [lia | reflexivity | congruence].
  - destruct k as [|k]; cbn [Nat.eqb]; rewrite isnew_enc by lia; cbn [ntup Nat.eqb];
      try pose proof (enc_le_k n i j Hi k); repeat split; solve [lia | reflexivity | congruence].
Qed.

(** two sides have the same canonical side iff they are the same face *)
Ltac inj H := apply enc_inj in H; [|lia..].
Lemma ctup_face n i j k s i' j' k' s' :
  i < n -> j < n -> k < n -> s < 6 -> i' < n -> j' < n -> k' < n -> s' < 6 ->
  ctup n i j k s = ctup n i' j' k' s' <-> side_face s i j k = side_face s' i' j' k'.
Proof.
  intros H1 H2 H3 H4 H5 H6 H7 H8. unfold side_face.
  six s; six s'; cbn [ctup Nat.eqb Nat.div Nat.divmod fst];
  repeat match goal with |- context [match ?x with 0 => _ | S _ => _ end] => is_var x; destruct x end;
  split; intros E; first [
    inj E; first [lia | repeat match goal with |- (_, _) = (_, _) => f_equal end; lia ]
  | injection E; intros; subst; first [ lia | f_equal; lia | f_equal ] 
  | discriminate E ].
Qed.

Definition cnt (n q : nat) : nat := nsum q (fun x => b2n (isnew n x)).
Lemma cnt_S n q : cnt n (S q) = cnt n q + b2n (isnew n q).
Proof. reflexivity. Qed.
Lemma cnt_mono n q q' : q <= q' -> cnt n q <= cnt n q'.
Proof. apply nsum_mono. Qed.
Lemma cnt_lt n q q' : isnew n q = true -> q < q' -> cnt n q < cnt n q'.
Proof. intros N H. pose proof (cnt_mono n (S q) q' H). rewrite cnt_S, N in H0. simpl in H0. lia. Qed.
Lemma cnt_inj n q q' : isnew n q = true -> isnew n q' = true -> cnt n q = cnt n q' -> q = q'.
Proof.
  intros A B E. destruct (Nat.lt_trichotomy q q') as [L|[L|L]]; [|exact L|];
  [pose proof (cnt_lt n q q' A L)|pose proof (cnt_lt n q' q B L)]; lia.
Qed.
Lemma cnt_surj n N r : r < cnt n N -> exists q, q < N /\ isnew n q = true /\ cnt n q = r.
Proof.
  induction N as [|N IH]; [unfold cnt; simpl; lia|]. rewrite cnt_S. intros H.
  destruct (isnew n N) eqn:E; simpl in H.
  - destruct (Nat.eq_dec r (cnt n N)) as [->|Ne]; [exists N; auto|].
    destruct IH as (q & A & B & C); [lia|]. exists q. auto.
  - destruct IH as (q & A & B & C); [lia|]. exists q. auto.
Qed.
Lemma cnt_total n : cnt n (n * n * n * 6) = (n + 1) * (n * n) * 3.
Proof.
  unfold cnt. rewrite nsum_mul.
  rewrite (nsum_ext _ _ (fun c => 3 + (b2n (c mod n =? 0) * 1 * 1 + (1 * b2n (c / n mod n =? 0) * 1 + 1 * 1 * b2n (c / n / n =? 0))))).
  - rewrite nsum_plus, nsum_const, nsum_plus, nsum_plus.
    rewrite (nsum_grid n (fun i => b2n (i =? 0)) (fun _ => 1) (fun _ => 1)).
    rewrite (nsum_grid n (fun _ => 1) (fun i => b2n (i =? 0)) (fun _ => 1)).
    rewrite (nsum_grid n (fun _ => 1) (fun _ => 1) (fun i => b2n (i =? 0))).
    rewrite !nsum_const. destruct (Nat.eq_dec n 0) as [->|Hn]; [reflexivity|].
    assert (Z : nsum n (fun i => b2n (i =? 0)) = 1).
    { rewrite (nsum_single n 0); [reflexivity|lia|]. intros i _ Hi. destruct (Nat.eqb_spec i 0); [lia|reflexivity]. }
    rewrite Z. lia.
  - intros c Hc. destruct (pos3 n c Hc) as (P1 & P2 & P3 & P4).
    rewrite P4. set (i := c mod n) in *. set (j := c / n mod n) in *. set (k := c / n / n) in *.
    destruct (rid_dec n i j k P3 P2) as (-> & -> & ->).
    assert (G : forall s, s < 6 -> isnew n (rid n i j k * 6 + s) = ntup i j k s).
    { intros s Hs. rewrite Nat.add_comm. apply isnew_enc; assumption. }
    unfold nsum. rewrite !G by lia. cbn [ntup]. simpl b2n. lia.
Qed.

(** the neighbour the code finds is the other side of the same face *)
Lemma neighbour_facts n i j k s : i < n -> j < n -> k < n -> s < 6 -> ntup i j k s = true ->
  match patch_neighbour n s i j k with
  | None => forall q, q < n * n * n * 6 -> canon n q = enc n i j k s -> q = enc n i j k s
  | Some nb => nb < n * n * n /\ exists ns, get patch_rlid_cell_neighbor s = Ok ns /\ ns + nb * 6 < n * n * n * 6 /\
       ns + nb * 6 <> enc n i j k s /\ canon n (ns + nb * 6) = enc n i j k s /\
       forall q, q < n * n * n * 6 -> canon n q = enc n i j k s -> q = enc n i j k s \/ q = ns + nb * 6
  end.
Proof.
  intros Hi Hj Hk Hs N.
  assert (NO : forall q, q < n * n * n * 6 -> canon n q = enc n i j k s ->
     (s = 1 -> ~ S i < n) -> (s = 3 -> ~ S j < n) -> (s = 5 -> ~ S k < n) -> q = enc n i j k s).
  { intros q Hq E A B C. destruct (pos6 n q Hq) as (i' & j' & k' & s' & Hi' & Hj' & Hk' & Hs' & ->).
    rewrite canon_enc in E by assumption. clear Hq N.
    six s'; cbn [ctup] in E; try exact E;
    repeat match type of E with context [match ?x with 0 => _ | S _ => _ end] => is_var x; destruct x end;
    try exact E; inj E; destruct E as (? & ? & ? & ?); subst; exfalso; lia. }
  assert (YES : forall ns nb, ns + nb * 6 < n * n * n * 6 -> canon n (ns + nb * 6) = enc n i j k s ->
     ns + nb * 6 <> enc n i j k s -> forall q, q < n * n * n * 6 -> canon n q = enc n i j k s -> q = enc n i j k s \/ q = ns + nb * 6).
  { intros ns nb Hb Eb Nb q Hq E. destruct (pos6 n q Hq) as (i' & j' & k' & s' & Hi' & Hj' & Hk' & Hs' & ->).
    destruct (pos6 n _ Hb) as (i2 & j2 & k2 & s2 & Hi2 & Hj2 & Hk2 & Hs2 & E2). rewrite E2 in *.
    rewrite canon_enc in E, Eb by assumption. clear Hq Hb N NO E2.
    six s'; cbn [ctup] in E; try (left; exact E);
    repeat match type of E with context [match ?x with 0 => _ | S _ => _ end] => is_var x; destruct x end;
    try (left; exact E); right; inj E; destruct E as (? & ? & ? & ?); subst;
    six s2; cbn [ctup] in Eb; try (exfalso; apply Nb; exact Eb);
    repeat match type of Eb with context [match ?x with 0 => _ | S _ => _ end] => is_var x; destruct x end;
    try (exfalso; apply Nb; exact Eb); inj Eb; destruct Eb as (? & ? & ? & ?); subst; solve [reflexivity | exfalso; lia]. }
  assert (CE : forall ns i2 j2 k2, ns < 6 -> i2 < n -> j2 < n -> k2 < n -> ctup n i2 j2 k2 ns = enc n i j k s ->
     enc n i2 j2 k2 ns <> enc n i j k s -> get patch_rlid_cell_neighbor s = Ok ns ->
     rid n i2 j2 k2 < n * n * n /\ exists ns, get patch_rlid_cell_neighbor s = Ok ns /\ ns + rid n i2 j2 k2 * 6 < n * n * n * 6 /\
       ns + rid n i2 j2 k2 * 6 <> enc n i j k s /\ canon n (ns + rid n i2 j2 k2 * 6) = enc n i j k s /\
       forall q, q < n * n * n * 6 -> canon n q = enc n i j k s -> q = enc n i j k s \/ q = ns + rid n i2 j2 k2 * 6).
  { intros ns i2 j2 k2 Hns A B C E Ne G. pose proof (enc_lt n i2 j2 k2 ns A B C Hns) as L. unfold enc in L.
    split; [apply rid_lt; assumption|]. exists ns.
    assert (Q : canon n (ns + rid n i2 j2 k2 * 6) = enc n i j k s) by (rewrite <- E; apply (canon_enc n i2 j2 k2 ns A B Hns)).
    repeat (split; [assumption|]). apply YES; assumption. }
  clear YES. unfold patch_neighbour.
  six s; cbn [Nat.eqb andb]; cbn [ntup] in N.
  - apply Nat.eqb_eq in N. subst i. cbn [Nat.ltb Nat.leb]. intros q A B. apply NO; auto; lia.
  - destruct (Nat.ltb_spec i (n - 1)).
    + replace (i + 1) with (S i) by lia. apply (CE 0); [lia..|reflexivity| |reflexivity]. intros E. inj E. lia.
    + intros q A B. apply NO; auto; lia.
  - apply Nat.eqb_eq in N. subst j. cbn [Nat.ltb Nat.leb]. intros q A B. apply NO; auto; lia.
  - destruct (Nat.ltb_spec j (n - 1)).
    + replace (j + 1) with (S j) by lia. apply (CE 2); [lia..|reflexivity| |reflexivity]. intros E. inj E. lia.
    + intros q A B. apply NO; auto; lia.
  - apply Nat.eqb_eq in N. subst k. cbn [Nat.ltb Nat.leb]. intros q A B. apply NO; auto; lia.
  - destruct (Nat.ltb_spec k (n - 1)).
    + replace (k + 1) with (S k) by lia. apply (CE 4); [lia..|reflexivity| |reflexivity]. intros E. inj E. lia.
    + intros q A B. apply NO; auto; lia.
Qed.
