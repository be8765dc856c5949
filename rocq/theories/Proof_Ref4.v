(** The patch loop of the reference element (C37): invariant and consequences. *)
From Coq Require Import List Arith ZArith Lia Bool Reals.
Import ListNotations.
Require Import Verif.Base Verif.NatSum Verif.Model_Ref Verif.Spec_Ref Verif.Proof_Ref Verif.Proof_Ref2 Verif.Proof_Ref3.

Section P.
  Variables (n : nat) (lob leg legw : list R).
  Hypothesis (L1 : length lob = n + 1) (L2 : length leg = n) (L3 : length legw = n).
  Notation N6 := (n * n * n * 6).
  Notation NP := ((n + 1) * (n * n) * 3).

  Lemma patch_point_ok s i j k : i < n -> j < n -> k < n -> s < 6 ->
    patch_point lob leg legw s i j k =
    Ok (patch_coord lob leg s i j k 0, patch_coord lob leg s i j k 1, patch_coord lob leg s i j k 2, patch_weight legw s i j k).
  Proof.
    intros Hi Hj Hk Hs. unfold patch_coord, patch_weight.
    six s; cbn [patch_point coord Nat.div Nat.divmod fst Nat.eqb Nat.modulo snd Nat.sub];
    rewrite ?Nat.add_0_r, !(fun l i => get_ok l i 0%R) by lia; reflexivity.
  Qed.

  Definition pinv (q : nat) (st : patches) : Prop :=
    length (pt_list st) = N6 /\ length (pt_pos st) = NP * 3 /\ length (pt_wgt st) = NP /\ pt_rid st = cnt n q /\
    (forall x, x < N6 -> nth x (pt_list st) None = Some (if canon n x <? q then Z.of_nat (cnt n (canon n x)) else (-1)%Z)) /\
    (forall i j k s, i < n -> j < n -> k < n -> s < 6 -> enc n i j k s < q -> isnew n (enc n i j k s) = true ->
       (forall d, d < 3 -> nth (cnt n (enc n i j k s) * 3 + d) (pt_pos st) None = Some (patch_coord lob leg s i j k d)) /\
       nth (cnt n (enc n i j k s)) (pt_wgt st) None = Some (patch_weight legw s i j k)).

  Lemma patch_step q st : q < N6 -> pinv q st ->
    exists st', patch_side n lob leg legw (q / 6 mod n) (q / 6 / n mod n) (q / 6 / n / n) (q mod 6) st = Ok st' /\ pinv (S q) st'.
  Proof.
    intros Hq (A1 & A2 & A3 & A4 & A5 & A6).
    destruct (pos6 n q Hq) as (i & j & k & s & Hi & Hj & Hk & Hs & Eq).
    destruct (enc_dec n i j k s Hi Hj Hs) as (D1 & D2 & D3 & D4). rewrite <- Eq in D1, D2, D3, D4.
    rewrite D1, D2, D3, D4. unfold patch_side. cbv zeta. fold (enc n i j k s). rewrite <- Eq.
    destruct (canon_facts n q Hq) as (C1 & C2 & C3 & C4).
    rewrite (getu_nth _ _ _ (A5 q Hq)). cbn [bind].
    destruct (isnew n q) eqn:En.
    - rewrite (C2 eq_refl), Nat.ltb_irrefl. change (Z.eqb (-1) (-1)) with true. cbv iota.
      assert (LT : cnt n q < NP) by (rewrite <- cnt_total; apply cnt_lt; assumption).
      rewrite A4. rewrite set_ok by lia. cbn [bind]. rewrite patch_point_ok by assumption. cbn [bind].
      rewrite (set_ok (pt_pos st)) by lia. cbn [bind].
      rewrite (set_ok (upd (pt_pos st) _ _)) by (rewrite upd_length; lia). cbn [bind].
      rewrite (set_ok (upd (upd (pt_pos st) _ _) _ _)) by (rewrite !upd_length; lia). cbn [bind].
      rewrite (set_ok (pt_wgt st)) by lia. cbn [bind].
      assert (NF := neighbour_facts n i j k s Hi Hj Hk Hs).
      rewrite Eq, isnew_enc in En by assumption. specialize (NF En). rewrite <- Eq in NF.
      assert (FIN : forall l2, length l2 = N6 ->
         (forall x, x < N6 -> nth x l2 None = Some (if canon n x <? S q then Z.of_nat (cnt n (canon n x)) else (-1)%Z)) ->
         pinv (S q) {| pt_list := l2;
            pt_pos := upd (upd (upd (pt_pos st) (cnt n q * 3 + 0) (Some (patch_coord lob leg s i j k 0)))
                  (cnt n q * 3 + 1) (Some (patch_coord lob leg s i j k 1))) (cnt n q * 3 + 2) (Some (patch_coord lob leg s i j k 2));
            pt_wgt := upd (pt_wgt st) (cnt n q) (Some (patch_weight legw s i j k)); pt_rid := cnt n q + 1 |}).
      { intros l2 Ll Hl. assert (En' : isnew n q = true) by (rewrite Eq, isnew_enc by assumption; exact En).
        unfold pinv. cbn [pt_list pt_pos pt_wgt pt_rid]. rewrite !upd_length.
        repeat (split; [assumption|]). split; [rewrite cnt_S, En'; reflexivity|]. split; [exact Hl|].
        intros i' j' k' s' Hi' Hj' Hk' Hs'. set (x := enc n i' j' k' s'). intros Hx Nx. destruct (Nat.eq_dec x q) as [E|Ne].
        - assert (T : enc n i' j' k' s' = enc n i j k s) by (rewrite <- Eq; exact E).
          apply enc_inj in T; [|assumption..]. destruct T as (-> & -> & -> & ->). rewrite E. split.
          + intros d Hd. destruct d as [|[|[|d]]]; [| | |lia].
            * rewrite !nth_upd_neq by lia. apply nth_upd_eq. lia.
            * rewrite nth_upd_neq by lia. apply nth_upd_eq. rewrite upd_length. lia.
            * apply nth_upd_eq. rewrite !upd_length. lia.
          + apply nth_upd_eq. lia.
        - assert (x < q) by lia. destruct (A6 i' j' k' s' Hi' Hj' Hk' Hs' H Nx) as (B1 & B2). fold x in B1, B2.
          pose proof (cnt_lt n x q Nx H). split.
          + intros d Hd. rewrite !nth_upd_neq by lia. apply B1. exact Hd.
          + rewrite nth_upd_neq by lia. exact B2. }
      destruct (patch_neighbour n s i j k) as [nb|].
      + destruct NF as (F1 & ns & F2 & F3 & F4 & F5 & F6).
        destruct (Nat.ltb_spec nb (n * n * n)); [|lia]. rewrite F2. cbn [bind].
        rewrite set_ok by (rewrite upd_length; lia). cbn [bind].
        eexists. split; [reflexivity|]. apply FIN; [rewrite !upd_length; exact A1|].
        intros x Hx. rewrite nth_upd by (rewrite upd_length; lia).
        destruct (Nat.eqb_spec x (ns + nb * 6)) as [->|N1].
        * rewrite F5. destruct (Nat.ltb_spec q (S q)); [reflexivity|lia].
        * rewrite nth_upd by lia. destruct (Nat.eqb_spec x q) as [->|N2].
          -- rewrite (C2 eq_refl). destruct (Nat.ltb_spec q (S q)); [reflexivity|lia].
          -- rewrite A5 by exact Hx. assert (canon n x <> q) by (intros Z; destruct (F6 x Hx Z); contradiction).
             destruct (Nat.ltb_spec (canon n x) q), (Nat.ltb_spec (canon n x) (S q)); try lia; reflexivity.
      + cbn [bind]. eexists. split; [reflexivity|]. apply FIN; [rewrite !upd_length; exact A1|].
        intros x Hx. rewrite nth_upd by lia. destruct (Nat.eqb_spec x q) as [->|N2].
        * rewrite (C2 eq_refl). destruct (Nat.ltb_spec q (S q)); [reflexivity|lia].
        * rewrite A5 by exact Hx. assert (canon n x <> q) by (intros Z; apply N2; apply NF; assumption).
          destruct (Nat.ltb_spec (canon n x) q), (Nat.ltb_spec (canon n x) (S q)); try lia; reflexivity.
    - specialize (C3 eq_refl). destruct (Nat.ltb_spec (canon n q) q); [|lia].
      destruct (Z.eqb_spec (Z.of_nat (cnt n (canon n q))) (-1)); [lia|].
      eexists. split; [reflexivity|]. unfold pinv. repeat (split; [assumption|]).
      split; [rewrite cnt_S, En; simpl; lia|]. split.
      + intros x Hx. rewrite A5 by exact Hx.
        assert (canon n x <> q). { intros Z. destruct (canon_facts n x Hx) as (_ & _ & _ & K). rewrite Z, En in K. discriminate. }
        destruct (Nat.ltb_spec (canon n x) q), (Nat.ltb_spec (canon n x) (S q)); try lia; reflexivity.
      + intros i' j' k' s' Hi' Hj' Hk' Hs'. set (x := enc n i' j' k' s'). intros Hx Nx. apply A6; try assumption.
        assert (x <> q) by (intros Z; rewrite Z, En in Nx; discriminate). unfold x in *. lia.
  Qed.

  Lemma fill_neg m : exists l, loop m (fun s l => set l s (Some (-1)%Z)) (repeat None m) = Ok l /\ length l = m /\
    forall x, x < m -> nth x l None = Some (-1)%Z.
  Proof.
    edestruct (loop_inv (fun q l => length l = m /\ forall x, x < q -> nth x l None = Some (-1)%Z) m) as (l & E & A & B).
    3: { exists l. rewrite E. auto. }
    - rewrite repeat_length. split; [reflexivity|intros; lia].
    - intros q l Hq (A & B). rewrite set_ok by lia. eexists. split; [reflexivity|]. rewrite upd_length. split; [exact A|].
      intros x Hx. rewrite nth_upd by lia. destruct (Nat.eqb_spec x q); [reflexivity|]. apply B. lia.
  Qed.

  Lemma patches_ok : exists P, build_patches n lob leg legw = Ok P /\ pinv N6 P.
  Proof.
    unfold build_patches. cbv zeta. destruct (fill_neg N6) as (l0 & E0 & Ll & H0). rewrite E0. cbn [bind].
    rewrite (loop4 n n n 6 (fun k j i side st => patch_side n lob leg legw i j k side st)).
    apply (loop_inv pinv).
    - unfold pinv. cbn [pt_list pt_pos pt_wgt pt_rid]. rewrite !repeat_length. repeat (split; [assumption || reflexivity|]).
      intros; lia.
    - intros q st Hq Hp. apply patch_step; assumption.
  Qed.

  Lemma ctup_lt i j k s : i < n -> j < n -> k < n -> s < 6 -> ctup n i j k s < N6.
  Proof.
    intros Hi Hj Hk Hs. rewrite <- (canon_enc n i j k s Hi Hj Hs).
    pose proof (canon_facts n _ (enc_lt n i j k s Hi Hj Hk Hs)) as (A & _). pose proof (enc_lt n i j k s Hi Hj Hk Hs). lia.
  Qed.

  Lemma patch_numbering : exists P, build_patches n lob leg legw = Ok P /\ pt_rid P = 3 * n * n * (n + 1) /\
    exists id : nat -> nat -> nat -> nat -> nat,
    (forall i j k s, i < n -> j < n -> k < n -> s < 6 ->
       ref_patches_in_cell P (rid n i j k) s = Ok (Z.of_nat (id i j k s)) /\ id i j k s < 3 * n * n * (n + 1) /\
       (forall d, d < 3 -> ref_patch_positions P (id i j k s) d = Ok (patch_coord lob leg s i j k d)) /\
       ref_patch_g_weights P (id i j k s) = Ok (patch_weight legw s i j k)) /\
    (forall i j k s i' j' k' s', i < n -> j < n -> k < n -> s < 6 -> i' < n -> j' < n -> k' < n -> s' < 6 ->
       id i j k s = id i' j' k' s' <-> side_face s i j k = side_face s' i' j' k') /\
    (forall r, r < 3 * n * n * (n + 1) -> exists i j k s, i < n /\ j < n /\ k < n /\ s < 6 /\ id i j k s = r).
  Proof.
    destruct patches_ok as (P & E & A1 & A2 & A3 & A4 & A5 & A6). exists P. split; [exact E|].
    assert (T : NP = 3 * n * n * (n + 1)) by ring.
    split; [rewrite A4, cnt_total; exact T|]. exists (fun i j k s => cnt n (ctup n i j k s)).
    assert (NW : forall i j k s, i < n -> j < n -> k < n -> s < 6 -> isnew n (ctup n i j k s) = true).
    { intros i j k s Hi Hj Hk Hs. rewrite <- (canon_enc n i j k s Hi Hj Hs).
      apply canon_facts. apply enc_lt; assumption. }
    split; [|split].
    - intros i j k s Hi Hj Hk Hs. pose proof (ctup_lt i j k s Hi Hj Hk Hs) as LT. pose proof (NW i j k s Hi Hj Hk Hs) as NN.
      split; [|split; [|split]].
      + unfold ref_patches_in_cell. apply getu_nth. fold (enc n i j k s). rewrite A5 by (apply enc_lt; assumption).
        rewrite canon_enc by assumption. destruct (Nat.ltb_spec (ctup n i j k s) N6); [reflexivity|lia].
      + rewrite <- T, <- cnt_total. apply cnt_lt; assumption.
      + intros d Hd. apply getu_nth. destruct (pos6 n _ LT) as (i2 & j2 & k2 & s2 & Hi2 & Hj2 & Hk2 & Hs2 & E2).
        rewrite E2 in *. destruct (A6 i2 j2 k2 s2 Hi2 Hj2 Hk2 Hs2 LT NN) as (B & _). rewrite B by exact Hd. f_equal.
        clear B A5 A6 LT NN. revert E2.
        six s; cbn [ctup]; repeat match goal with |- context [match ?x with 0 => _ | S _ => _ end] => is_var x; destruct x end;
        intros E2; inj E2; destruct E2 as (<- & <- & <- & <-); try reflexivity; unfold patch_coord;
        (destruct d as [|[|[|d]]]; [| | |lia]); cbn [coord Nat.div Nat.divmod fst snd Nat.modulo Nat.sub Nat.eqb];
        rewrite ?Nat.add_0_r, ?Nat.add_1_r; reflexivity.
      + apply getu_nth. destruct (pos6 n _ LT) as (i2 & j2 & k2 & s2 & Hi2 & Hj2 & Hk2 & Hs2 & E2).
        rewrite E2 in *. destruct (A6 i2 j2 k2 s2 Hi2 Hj2 Hk2 Hs2 LT NN) as (_ & B). rewrite B. f_equal.
        clear B A5 A6 LT NN. revert E2.
        six s; cbn [ctup]; repeat match goal with |- context [match ?x with 0 => _ | S _ => _ end] => is_var x; destruct x end;
        intros E2; inj E2; destruct E2 as (<- & <- & <- & <-); reflexivity.
    - intros i j k s i' j' k' s' Hi Hj Hk Hs Hi' Hj' Hk' Hs'.
      rewrite <- (ctup_face n) by assumption. split; [|congruence].
      apply cnt_inj; apply NW; assumption.
    - intros r Hr. rewrite <- T, <- cnt_total in Hr. destruct (cnt_surj n N6 r Hr) as (q & Hq & Nq & Er).
      destruct (pos6 n q Hq) as (i & j & k & s & Hi & Hj & Hk & Hs & Eq). exists i, j, k, s.
      repeat (split; [assumption|]). rewrite <- (canon_enc n i j k s Hi Hj Hs), <- Eq.
      destruct (canon_facts n q Hq) as (_ & C & _). rewrite (C Nq). exact Er.
  Qed.
End P.
