(** How many cell corners meet at a node; a wheel of 13 wedges (C80). *)
From Coq Require Import Reals List Arith ZArith Lra Lia Bool.
Import ListNotations.
Require Import Verif.Base Verif.NatSum Verif.RBase Verif.RSum Verif.Spec_Patch Verif.Spec_High Verif.Spec_Full Verif.Model_Conn Verif.Model_Refine Verif.Model_Full Verif.Model_Average
  Verif.Proof_Full Verif.Proof_Full3 Verif.Proof_Full4 Verif.Prop_Full Verif.Spec_Average Verif.Prop_Average Verif.Spec_Float Verif.Model_FloatAverage Verif.Spec_FloatAverage
  Verif.Proof_FloatAverage Verif.Proof_FloatAverage3 Verif.Prop_FloatAverage Verif.Model_Patch.
Local Open Scope nat_scope.

(** ---- no corner of two cells: at most eight ---- *)
Lemma times_sum K N c n : times K N c n = nsum K (fun l => if N c l =? n then 1 else 0).
Proof. unfold times. induction K as [|K IH]; [reflexivity|]. rewrite seq_S, filter_app, app_length, IH. cbn [nsum filter Nat.add]. destruct (N c K =? n); cbn [length]; lia. Qed.
Lemma nsum_swap a b f : nsum a (fun i => nsum b (f i)) = nsum b (fun j => nsum a (fun i => f i j)).
Proof.
  induction a as [|a IH]; cbn [nsum]; [symmetry; apply nsum_zero; reflexivity|]. rewrite IH, nsum_plus. reflexivity.
Qed.
Lemma one_at n (q : nat -> bool) : (forall i j, i < n -> j < n -> q i = true -> q j = true -> i = j) -> nsum n (fun i => if q i then 1 else 0) <= 1.
Proof.
  induction n as [|n IH]; intros H; cbn [nsum]; [lia|]. destruct (q n) eqn:E.
  - rewrite nsum_zero; [lia|]. intros i Hi. destruct (q i) eqn:Ei; [|reflexivity]. exfalso. assert (i = n) by (apply H; (lia || assumption)). lia.
  - assert (nsum n (fun i => if q i then 1 else 0) <= 1) by (apply IH; intros; apply H; (lia || assumption)). lia.
Qed.
Lemma counts_8 N nc n : (forall c c' l, c < nc -> c' < nc -> l < 8 -> N c l = N c' l -> c = c') -> corner_count N nc n <= 8.
Proof.
  intros H. unfold corner_count. rewrite (nsum_ext nc _ (fun c => nsum 8 (fun l => if N c l =? n then 1 else 0))) by (intros; apply times_sum).
  rewrite nsum_swap. change 8 with (nsum 8 (fun _ => 1)) at 2. apply nsum_le. intros l Hl. apply (one_at nc (fun c => N c l =? n)).
  intros c c' Hc Hc' E E'. apply Nat.eqb_eq in E, E'. apply (H c c' l); (assumption || congruence).
Qed.

(** ---- grids of boxes ---- *)
Section Boxes.
  Variables (p ne : nat) (m : cmesh) (N : nat -> nat -> nat) (X : nat -> nat -> R) (o s : nat -> R) (E : nat -> nat -> Z) (D : nat).
  Hypotheses (Hp : p <= 5) (HM : cdescribes m N X) (Ec : cm_cells m = S ne) (HB : box_elements 1 (S ne) N X o s E)
    (HD : D < 3) (Hs : forall d, d < 3 -> (0 < s D <= s d)%R) (Hbig : (s D <= 7 * INR (Nat.max 1 p))%R)
    (HE : forall e e', e < S ne -> e' < S ne -> (forall d, d < 3 -> E e d = E e' d) -> e = e').
  Let n1 := pts1 p.
  Let ns := Spec_Full.sub1 p.
  Let ng := n1 ^ 3.
  Variables (CN : nat -> nat -> nat) (CX : nat -> nat -> R) (EN : nat -> nat -> nat).
  Hypotheses (H1 : forall e l d, e < S ne -> l < ng -> d < 3 -> CX (EN e l) d = tri_pos p N X (e * ng + l) d)
    (H2 : forall e i j k c, e < S ne -> i < ns -> j < ns -> k < ns -> c < 8 -> CN (cell_id p e i j k) c = EN e (corner_pt p i j k c)).

  Lemma one_cell c c' l : c < S ne * (ns * ns * ns) -> c' < S ne * (ns * ns * ns) -> l < 8 -> CN c l = CN c' l -> c = c'.
  Proof.
    assert (P12 := pts1_sub p). fold n1 ns in P12. destruct P12 as (P1 & P2).
    assert (HC : forall e i j k l d, e < S ne -> i < ns -> j < ns -> k < ns -> l < 8 -> d < 3 -> CX (CN (cell_id p e i j k) l) d = Proof_Full3.place p o s E e d (Proof_Full3.tri i j k d + corner_coord l d)).
    { intros e i' j k l0 d' He Hi Hj Hk Hl Hd'. rewrite H2 by assumption. assert (l0 mod 2 < 2) by (apply Nat.mod_upper_bound; lia). assert (l0 / 2 mod 2 < 2) by (apply Nat.mod_upper_bound; lia). assert (l0 / 4 < 2) by (apply Nat.div_lt_upper_bound; lia).
      assert (G : corner_pt p i' j k l0 < ng) by (unfold corner_pt, ng; cbv zeta; fold n1; apply Proof_High.grid3_lt; lia).
      rewrite H1 by assumption. unfold corner_pt. cbv zeta. fold n1.
      assert (T := Proof_Full3.tri_box p ne m N X o s E D Hp Ec HB HD e (i' + l0 mod 2) (j + l0 / 2 mod 2) (k + l0 / 4) d' He). fold n1 ng in T. rewrite T by lia. f_equal.
      assert (Q4 : l0 / 4 mod 2 = l0 / 4) by (apply Nat.mod_small; lia). unfold corner_coord. destruct d' as [|[|[|d']]]; cbn [Proof_Full3.tri Nat.pow Nat.mul Nat.add]; rewrite ?Nat.div_1_r, ?Q4; lia. }
    intros Hc Hc' Hl Q. destruct (cell_split p (S ne) c Hc) as (e & i & j & k & He & Hi & Hj & Hk & ->). destruct (cell_split p (S ne) c' Hc') as (e' & i' & j' & k' & He' & Hi' & Hj' & Hk' & ->). fold ns in Hi, Hj, Hk, Hi', Hj', Hk'.
    assert (G : forall d, d < 3 -> E e d = E e' d /\ Proof_Full3.tri i j k d = Proof_Full3.tri i' j' k' d).
    { intros d Hd. assert (V := HC e i j k l d He Hi Hj Hk Hl Hd). rewrite Q, HC in V by assumption. assert (B := corner_bit l d).
      assert (T := tri_lt i j k d ns Hi Hj Hk). assert (T' := tri_lt i' j' k' d ns Hi' Hj' Hk').
      destruct (place_apart p ne m o s E D Hp Ec HD Hs Hbig e e' d (Proof_Full3.tri i j k d + corner_coord l d) (Proof_Full3.tri i' j' k' d + corner_coord l d) Hd ltac:(fold n1; lia) ltac:(fold n1; lia)) as [(_ & W)|W].
      - fold ns in W. destruct W as [(W1 & W2)|[(W1 & W2 & W3)|(W1 & W2 & W3)]]; [split; [exact W1|lia]|exfalso; lia|exfalso; lia].
      - exfalso. rewrite V, Rminus_eq_0, Rabs_R0 in W. assert (0 < node_bin p (s D))%R by (eapply h_pos; eassumption). lra. }
    assert (e = e') as -> by (apply HE; try assumption; intros d Hd; apply G; exact Hd).
    assert (G0 := proj2 (G 0 ltac:(lia))). assert (G1 := proj2 (G 1 ltac:(lia))). assert (G2 := proj2 (G 2 ltac:(lia))). cbn [Proof_Full3.tri] in G0, G1, G2. subst. reflexivity.
  Qed.
End Boxes.

(** ---- 13 wedges around an axis ---- *)
(** direction of spoke i; wedge c is the parallelepiped over spokes c and c + 1 and the axis; wedge 12 is the unit cube *)
Definition spoke (i : nat) : Z * Z :=
  nth i [(0, 1); (-1, 3); (-2, 3); (-3, 2); (-3, 0); (-3, -1); (-3, -2); (-3, -3); (-1, -3); (1, -3); (3, -3); (3, -1); (1, 0)]%Z (0, 0)%Z.
Definition next13 (i : nat) : nat := if i =? 12 then 0 else S i.
(** nodes: 0, 1 axis, 2 + 2i, 3 + 2i on spoke i, 28 + 2i, 29 + 2i beyond; even below, odd above *)
Definition wheel_x (n d : nat) : R :=
  let i := (n - 2) / 2 in let j := (n - 28) / 2 in
  let xy := if n <? 2 then (0, 0)%Z else if n <? 28 then spoke i else (fst (spoke j) + fst (spoke (next13 j)), snd (spoke j) + snd (spoke (next13 j)))%Z in
  match d with 0 => IZR (fst xy) | 1 => IZR (snd xy) | _ => INR (n mod 2) end.
Definition wheel_n (c l : nat) : nat :=
  l / 4 + match l mod 4 with 0 => 0 | 1 => 2 + 2 * c | 2 => 2 + 2 * next13 c | _ => 28 + 2 * c end.
Definition wheel : cmesh := CMesh 54 13 (map (fun q => Some (wheel_x (q / 3) (q mod 3))) (seq 0 162)) (map (fun q => Some (wheel_n (q / 8) (q mod 8))) (seq 0 104)).
Lemma below13 (P : nat -> Prop) : Forall P (seq 0 13) -> forall c, c < 13 -> P c.
Proof. intros H c Hc. rewrite Forall_forall in H. apply H, in_seq. lia. Qed.
Lemma wheel_n_lt c l : c < 13 -> l < 8 -> wheel_n c l < 54.
Proof.
  intros Hc Hl. unfold wheel_n, next13. assert (l / 4 < 2) by (apply Nat.div_lt_upper_bound; lia). destruct (l mod 4) as [|[|[|?]]]; destruct (Nat.eqb_spec c 12); lia.
Qed.
Lemma wheel_describes : cdescribes wheel wheel_n wheel_x.
Proof.
  split; cbn [wheel cm_cells cm_nodes].
  - intros c l Hc Hl. split; [|apply wheel_n_lt; assumption]. unfold cm_node, getu, get. cbn [wheel cm_conn].
    rewrite nth_error_map, nth_error_nth' with (d := 0) by (rewrite seq_length; lia). rewrite seq_nth by lia. cbn [option_map Nat.add].
    rewrite Nat.div_add_l, Nat.div_small by lia. rewrite (Nat.add_comm (c * 8) l), Nat.mod_add, Nat.mod_small by lia. rewrite Nat.add_0_r. reflexivity.
  - intros n d Hn Hd. unfold cm_coord, getu, get. cbn [wheel cm_coords].
    rewrite nth_error_map, nth_error_nth' with (d := 0) by (rewrite seq_length; lia). rewrite seq_nth by lia. cbn [option_map Nat.add].
    rewrite Nat.div_add_l, Nat.div_small by lia. rewrite (Nat.add_comm (n * 3)), Nat.mod_add, Nat.mod_small by lia. rewrite Nat.add_0_r. reflexivity.
Qed.
Lemma wheel_last : corner_spacing wheel_n wheel_x 12 1.
Proof.
  split.
  - intros a b Ha Hb Ne. rewrite <- sqrt_1 at 1. apply sqrt_le_1_alt. do 8 (destruct a as [|a]; [do 8 (destruct b as [|b]; [try (exfalso; lia); cbn; lra|]); lia|]). lia.
  - exists 0, 1. repeat (split; [lia|]). rewrite <- sqrt_1 at 1. f_equal. cbn. lra.
Qed.
Lemma wheel_count : corner_count wheel_n 13 0 = 13.
Proof. reflexivity. Qed.
Lemma wheel_x_bound n : (Rabs (wheel_x n 0) <= 12)%R.
Proof.
  assert (S : forall i, (-6 <= fst (spoke i) <= 6)%Z). { intros i. unfold spoke. do 13 (destruct i as [|i]; [cbn; lia|]). destruct i; cbn; lia. }
  unfold wheel_x. cbv zeta. rewrite <- abs_IZR. apply IZR_le. assert (A := S ((n - 2) / 2)). assert (B := S ((n - 28) / 2)). assert (C := S (next13 ((n - 28) / 2))).
  destruct (n <? 2); [cbn; lia|]. destruct (n <? 28); [lia|]. cbn [fst]. lia.
Qed.
