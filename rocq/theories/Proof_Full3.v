(** refine_mesh on grids of equal boxes. *)
From Coq Require Import Reals List Arith ZArith Lra Lia Sorted Bool.
Import ListNotations.
Require Import Verif.Base Verif.NatSum Verif.RBase Verif.RSum Verif.Spec_Lagrange Verif.Model_Quad Verif.Proof_Quad Verif.Proof_Quad2 Verif.Proof_Quad3 Verif.Spec_Quad Verif.Spec_High Verif.Proof_Lob Verif.Proof_High Verif.Proof_High3
  Verif.Spec_Patch Verif.Model_Geom Verif.Proof_Geom Verif.Proof_Tri Verif.Model_Refine
  Verif.Model_Full Verif.Spec_Full Verif.Proof_Full Verif.Proof_Full2 Verif.Model_Patch.
Local Open Scope nat_scope.

(** * the end gap of the Lobatto points is the smallest *)
Definition end_gap (p : nat) : R := (1 - lob (pts1 p) (Spec_Full.sub1 p - 1))%R.
Definition gap_facts (n : nat) (x : nat -> R) : Prop :=
  x 0%nat = (-1)%R /\ x n = 1%R /\ (0 < 1 - x (n - 1)%nat)%R /\ forall i, i < n -> (1 - x (n - 1)%nat <= x (S i) - x i)%R.

Definition gap_test (n : nat) (xs : list (Z * nat)) : bool :=
  let s := (10 ^ 33)%Z in let X := map (zscale 33) xs in let g := (s - nth (n - 1) X 0)%Z in
  small 33 xs && gaps (fun x y => Z.leb g (y - x)) X && Z.ltb 0 g && Z.eqb (nth 0 X 0%Z) (- s) && Z.eqb (nth n X 0%Z) s.
Lemma gap_table n xs : 1 <= n -> length xs = n + 1 -> gap_test n xs = true -> gap_facts n (fun i => nth i (decs xs) 0%R).
Proof.
  intros Hn L H. unfold gap_test in H. cbv zeta in H. repeat rewrite andb_true_iff in H. destruct H as [[[[S G] Pg] B0] B1].
  set (X := map (zscale 33) xs) in *.
  assert (E : forall i, i < n + 1 -> nth i (decs xs) 0%R = (IZR (nth i X 0%Z) / 10 ^ 33)%R).
  { intros i Hi. rewrite (nth_decs 33 xs i S ltac:(lia)). f_equal. rewrite (pow_IZR 10 33). reflexivity. }
  assert (LX : length X = n + 1) by (unfold X; rewrite map_length; exact L).
  assert (Es : IZR (10 ^ 33) = (10 ^ 33)%R) by (rewrite (pow_IZR 10 33); reflexivity).
  assert (Ps : (0 < 10 ^ 33)%R) by (apply pow_lt; lra).
  apply Z.eqb_eq in B0, B1. apply Z.ltb_lt in Pg.
  set (t := (10 ^ 33)%R) in *. clearbody t. 
  assert (D : forall a b, (IZR a / t <= IZR b / t)%R <-> (a <= b)%Z).
  { intros a b. split; intros Q; [apply le_IZR; apply (Rmult_le_reg_r (/ t)); [apply Rinv_0_lt_compat; exact Ps|exact Q]|].
    apply Rmult_le_compat_r; [left; apply Rinv_0_lt_compat; exact Ps|apply IZR_le; exact Q]. }
  assert (One : 1%R = (IZR (10 ^ 33) / t)%R) by (rewrite Es; field; lra).
  assert (Sub : forall a b, (IZR a / t - IZR b / t = IZR (a - b) / t)%R) by (intros a b; rewrite minus_IZR; field; lra).
  split; [rewrite E by lia; rewrite B0, opp_IZR, Es; field; lra|]. split; [rewrite E by lia; rewrite B1, Es; field; lra|].
  rewrite (E (n - 1)) by lia. rewrite One, Sub. split.
  - apply Rdiv_lt_0_compat; [apply IZR_lt; exact Pg|exact Ps].
  - intros i Hi. rewrite !E by lia. rewrite Sub. apply D. assert (Q := gaps_ok _ _ G i ltac:(lia)). apply Z.leb_le in Q. exact Q.
Qed.
Lemma gap_facts_5 : gap_facts 4 (lob 5).
Proof.
  unfold gap_facts, lob. cbn [Z.of_nat Pos.of_succ_nat Pos.succ lobatto_nodes_tab].
  assert (B := sqrt_bd 21 (45 / 10) (46 / 10) ltac:(lra) ltac:(lra) ltac:(lra)).
  cbn [nth Nat.sub]. repeat split; try lra. intros i Hi. do 4 (destruct i as [|i]; [cbn [nth]; lra|]). lia.
Qed.
Lemma gap_facts_ok p : p <= 9 -> gap_facts (Spec_Full.sub1 p) (lob (pts1 p)).
Proof.
  intros H. destruct p as [|[|[|[|[|[|[|[|[|[|p]]]]]]]]]]; try lia.
  all: match goal with |- gap_facts (Spec_Full.sub1 2) _ => exact gap_facts_5 | _ => apply gap_table; [cbv; lia|reflexivity|vm_compute; reflexivity] end.
Qed.

Lemma end_gap_wide p : p <= 5 -> (2 / (7 * INR (Nat.max 1 p)) <= end_gap p)%R.
Proof.
  intros H. unfold end_gap, lob. destruct p as [|[|[|[|[|[|p]]]]]]; try lia; cbn [pts1 Spec_Full.sub1 Nat.sub Nat.mul Nat.add Nat.max Z.of_nat Pos.of_succ_nat Pos.succ lobatto_nodes_tab INR].
  3: { assert (B := sqrt_bd 21 (45 / 10) (46 / 10) ltac:(lra) ltac:(lra) ltac:(lra)). cbn [nth]. lra. }
  all: unfold decs, dec; cbn [nth map fst snd]; change (10 ^ Z.of_nat 30)%Z with 1000000000000000000000000000000%Z; change (10 ^ Z.of_nat 0)%Z with 1%Z; lra.
Qed.

(** * shifted copies of an increasing family *)
Section Shift.
  Variables (M : nat) (f : nat -> R) (g : R).
  Hypotheses (F0 : f 0 = (-1)%R) (FM : f M = 1%R) (Hg : (0 < g)%R) (HM : 1 <= M) (Gap : forall i, i < M -> (g <= f (S i) - f i)%R).
  Definition shifted (u : Z) (i : nat) : R := (IZR u + (f i + 1) / 2)%R.

  Lemma shift_gap i j : i < j <= M -> (g <= f j - f i)%R.
  Proof. intros (H1 & H2). induction j as [|j IH]; [lia|]. assert (G := Gap j ltac:(lia)). destruct (Nat.eq_dec i j) as [->|]; [exact G|]. specialize (IH ltac:(lia) ltac:(lia)). lra. Qed.
  Lemma shift_range i : i <= M -> (-1 <= f i <= 1)%R.
  Proof.
    intros H. split; [destruct (Nat.eq_dec i 0) as [->|]; [lra|assert (Q := shift_gap 0 i ltac:(lia)); lra]|].
    destruct (Nat.eq_dec i M) as [->|]; [lra|assert (Q := shift_gap i M ltac:(lia)); lra].
  Qed.
  Lemma shift_small : (g <= 2)%R.
  Proof. assert (Q := shift_gap 0 M ltac:(lia)). lra. Qed.

  (** equal positions: the same copy and index, or the end of one copy and the start of the next *)
  Definition same_place (u : Z) (i : nat) (v : Z) (j : nat) : Prop :=
    (u = v /\ i = j) \/ (v = (u + 1)%Z /\ i = M /\ j = 0) \/ (u = (v + 1)%Z /\ i = 0 /\ j = M).
  Lemma shift_lt u v i j : i <= M -> j <= M -> (u < v)%Z -> (shifted u i = shifted v j /\ v = (u + 1)%Z /\ i = M /\ j = 0) \/ (g / 2 <= shifted v j - shifted u i)%R.
  Proof.
    intros Hi Hj Huv. assert (U : (IZR u + 1 <= IZR v)%R) by (rewrite <- plus_IZR; apply IZR_le; lia).
    assert (R1 := shift_range i Hi). assert (R2 := shift_range j Hj). assert (S := shift_small). unfold shifted.
    destruct (Nat.eq_dec i M) as [->|Ni]; [|right; assert (Q := shift_gap i M ltac:(lia)); lra].
    destruct (Nat.eq_dec j 0) as [->|Nj]; [|right; assert (Q := shift_gap 0 j ltac:(lia)); lra].
    destruct (Z.eq_dec v (u + 1)) as [->|].
    - left. split; [rewrite plus_IZR; lra|auto].
    - right. assert (U2 : (IZR u + 2 <= IZR v)%R) by (rewrite <- plus_IZR; apply IZR_le; lia). lra.
  Qed.
  Lemma shift_apart u v i j : i <= M -> j <= M ->
    (shifted u i = shifted v j /\ same_place u i v j) \/ (g / 2 <= Rabs (shifted u i - shifted v j))%R.
  Proof.
    intros Hi Hj. destruct (Z.lt_trichotomy u v) as [H|[->|H]].
    - destruct (shift_lt u v i j Hi Hj H) as [(Q & H1 & H2 & H3)|Q]; [left; split; [exact Q|right; left; auto]|right; rewrite Rabs_left1; lra].
    - destruct (Nat.lt_trichotomy i j) as [H|[->|H]]; [right| |right]; unfold shifted.
      + assert (Q := shift_gap i j ltac:(lia)). rewrite Rabs_left1; lra.
      + left. split; [reflexivity|left; auto].
      + assert (Q := shift_gap j i ltac:(lia)). rewrite Rabs_right; lra.
    - destruct (shift_lt v u j i Hj Hi H) as [(Q & H1 & H2 & H3)|Q]; [left; split; [symmetry; exact Q|right; right; auto]|right; rewrite Rabs_right; lra].
  Qed.
End Shift.

(** points and midpoints: entry 2i is point i, entry 2i+1 the midpoint of points i and i+1 *)
Definition halves (x : nat -> R) (q : nat) : R := ((x (q / 2)%nat + x ((q + 1) / 2)%nat) / 2)%R.
Lemma halves_even x i : halves x (2 * i) = x i.
Proof. unfold halves. rewrite (Nat.mul_comm 2), Nat.div_mul, Nat.div_add_l by lia. change (1 / 2) with 0. rewrite Nat.add_0_r. field. Qed.
Lemma halves_odd x i : halves x (2 * i + 1) = ((x i + x (S i)) / 2)%R.
Proof.
  unfold halves. rewrite (Nat.mul_comm 2), Nat.div_add_l by lia. change (1 / 2) with 0. rewrite Nat.add_0_r.
  replace (i * 2 + 1 + 1) with (S i * 2) by lia. rewrite Nat.div_mul by lia. reflexivity.
Qed.
Lemma halves_gap n x g : (forall i, i < n -> (g <= x (S i) - x i)%R) -> forall q, q < 2 * n -> (g / 2 <= halves x (S q) - halves x q)%R.
Proof.
  intros H q Hq. destruct (Nat.Even_or_Odd q) as [(i & ->)|(i & ->)].
  - replace (S (2 * i)) with (2 * i + 1) by lia. rewrite halves_even, halves_odd. specialize (H i ltac:(lia)). lra.
  - replace (S (2 * i + 1)) with (2 * S i) by lia. rewrite halves_even, halves_odd. specialize (H i ltac:(lia)). lra.
Qed.

(** * corner spacing of a box *)
Lemma box_spacing N X c (a w : nat -> R) D : D < 3 -> (forall d, d < 3 -> (0 < w D <= w d)%R) ->
  (forall l d, l < 8 -> d < 3 -> X (N c l) d = (a d + w d * INR (corner_coord l d))%R) -> corner_spacing N X c (w D).
Proof.
  intros HD Hw HX. 
  assert (W0 := Hw 0 ltac:(lia)). assert (W1 := Hw 1 ltac:(lia)). assert (W2 := Hw 2 ltac:(lia)).
  assert (Low : forall x y z, (w D <= Rabs x \/ w D <= Rabs y \/ w D <= Rabs z)%R -> (w D <= sqrt (x ^ 2 + y ^ 2 + z ^ 2))%R).
  { intros x y z H. assert (P : (0 <= w D)%R) by lra. rewrite <- (sqrt_Rsqr (w D) P). apply sqrt_le_1_alt.
    assert (forall t, (w D <= Rabs t -> Rsqr (w D) <= t ^ 2)%R).
    { intros t Ht. replace (t ^ 2)%R with (Rsqr (Rabs t)) by (rewrite <- Rsqr_abs; unfold Rsqr; ring). apply Rsqr_incr_1; lra. }
    assert (0 <= x ^ 2)%R by apply pow2_ge_0. assert (0 <= y ^ 2)%R by apply pow2_ge_0. assert (0 <= z ^ 2)%R by apply pow2_ge_0.
    destruct H as [H|[H|H]]; apply H0 in H; lra. }
  split.
  - intros u v Hu Hv Ne. rewrite !HX by (assumption || lia).
    assert (K : exists d, d < 3 /\ (w d <= Rabs (a d + w d * INR (corner_coord u d) - (a d + w d * INR (corner_coord v d))))%R).
    { assert (Q : exists d, d < 3 /\ corner_coord u d <> corner_coord v d).
      { clear -Hu Hv Ne. assert (F : forallb (fun u => forallb (fun v => Nat.eqb u v || existsb (fun d => negb (Nat.eqb (corner_coord u d) (corner_coord v d))) (seq 0 3)) (seq 0 8)) (seq 0 8) = true) by reflexivity.
        rewrite forallb_forall in F. specialize (F u ltac:(apply in_seq; lia)). rewrite forallb_forall in F. specialize (F v ltac:(apply in_seq; lia)).
        apply orb_true_iff in F. destruct F as [F|F]; [apply Nat.eqb_eq in F; contradiction|]. apply existsb_exists in F. destruct F as (d & I & E). apply in_seq in I. exists d. split; [lia|]. apply negb_true_iff, Nat.eqb_neq in E. exact E. }
      destruct Q as (d & Hd & Nq). exists d. split; [exact Hd|]. specialize (Hw d Hd).
      assert (Bu : corner_coord u d < 2) by (apply Nat.mod_upper_bound; lia). assert (Bv : corner_coord v d < 2) by (apply Nat.mod_upper_bound; lia).
      destruct (corner_coord u d) as [|[|?]], (corner_coord v d) as [|[|?]]; try lia; cbn [INR]; [rewrite Rabs_left1; lra|rewrite Rabs_right; lra]. }
    apply Low. destruct K as (d & Hd & K). specialize (Hw d Hd). destruct d as [|[|[|d]]]; [left|right; left|right; right|lia]; lra.
  - exists 0, (2 ^ D). split; [lia|]. split; [destruct D as [|[|[|D]]]; cbn; lia|]. split; [destruct D as [|[|[|D]]]; cbn; lia|].
    assert (B : 2 ^ D < 8) by (destruct D as [|[|[|D]]]; cbn; lia). rewrite !HX by (lia || exact B).
    assert (P : (0 <= w D)%R) by lra. transitivity (sqrt (Rsqr (w D))); [symmetry; apply sqrt_Rsqr; exact P|]. f_equal. unfold Rsqr.
    destruct D as [|[|[|D]]]; [| | |lia]; cbn; ring.
Qed.

(** * a grid of equal boxes *)
Section Boxes.
  Variables (p ne : nat) (m : cmesh) (N : nat -> nat -> nat) (X : nat -> nat -> R) (o s : nat -> R) (E : nat -> nat -> Z) (D : nat).
  Hypotheses (Hp : p <= 5) (HM : cdescribes m N X) (Ec : cm_cells m = S ne) (HB : box_elements 1 (S ne) N X o s E)
    (HD : D < 3) (Hs : forall d, d < 3 -> (0 < s D <= s d)%R) (Hbig : (s D <= 7 * INR (Nat.max 1 p))%R).
  Let n1 := pts1 p.
  Let ns := Spec_Full.sub1 p.
  Let ng := n1 ^ 3.
  Definition place (e d q : nat) : R := (o d + s d * shifted (lob n1) (E e d) q)%R.
  Definition tri (i j k d : nat) : nat := match d with 0 => i | 1 => j | _ => k end.

  Lemma box_corner e l d : e < S ne -> l < 8 -> d < 3 -> X (N e l) d = (o d + s d * IZR (E e d) + s d * INR (corner_coord l d))%R.
  Proof.
    intros He Hl Hd. assert (B := HB e (l mod 2) (l / 2 mod 2) (l / 4) He).
    assert (l mod 2 < 2) by (apply Nat.mod_upper_bound; lia). assert (l / 2 mod 2 < 2) by (apply Nat.mod_upper_bound; lia). assert (l / 4 < 2) by (apply Nat.div_lt_upper_bound; lia).
    specialize (B ltac:(lia) ltac:(lia) ltac:(lia)). cbv zeta in B. change (1 + 1) with 2 in B.
    replace (l mod 2 + l / 2 mod 2 * 2 + l / 4 * 2 * 2) with l in B.
    2:{ do 8 (destruct l as [|l]; [reflexivity|]). lia. }
    assert (Q : l / 4 mod 2 = l / 4) by (apply Nat.mod_small; lia).
    unfold corner_coord. destruct B as (B0 & B1 & B2). destruct d as [|[|[|d]]]; [rewrite B0|rewrite B1|rewrite B2|lia]; cbn [Nat.pow Nat.mul Nat.add]; rewrite ?Nat.div_1_r, ?Q; cbn [INR]; field.
  Qed.
  Lemma elem_spacing e : e < S ne -> corner_spacing N X e (s D).
  Proof. intros He. apply (box_spacing N X e (fun d => o d + s d * IZR (E e d))%R s D HD Hs). intros l d Hl Hd. apply box_corner; assumption. Qed.

  Lemma tri_box e i j k d : e < S ne -> i < n1 -> j < n1 -> k < n1 -> d < 3 ->
    tri_pos p N X (e * ng + (i + j * n1 + k * n1 * n1)) d = place e d (tri i j k d).
  Proof.
    intros He Hi Hj Hk Hd. unfold ng, n1. rewrite tri_pos_at by assumption.
    destruct (box_geo 1 (S ne) N X o s E e (lob n1 i) (lob n1 j) (lob n1 k) ltac:(lia) HB He) as (Q0 & Q1 & Q2).
    destruct d as [|[|[|d]]]; [exact Q0|exact Q1|exact Q2|lia].
  Qed.

  Let GF : gap_facts ns (lob n1) := gap_facts_ok p ltac:(lia).
  Let g0 : R := (1 - lob n1 (ns - 1))%R.
  Lemma n1_ns : n1 = ns + 1 /\ 1 <= ns.
  Proof. exact (pts1_sub p). Qed.

  Lemma place_apart e e' d q q' : d < 3 -> q < n1 -> q' < n1 ->
    (place e d q = place e' d q' /\ same_place ns (E e d) q (E e' d) q') \/ (node_bin p (s D) <= Rabs (place e d q - place e' d q'))%R.
  Proof.
    intros Hd Hq Hq'. destruct n1_ns as (A1 & A2). destruct GF as (F0 & F1 & F2 & F3). fold g0 in F2, F3. specialize (Hs d Hd).
    destruct (shift_apart ns (lob n1) g0 F0 F1 F2 A2 F3 (E e d) (E e' d) q q' ltac:(lia) ltac:(lia)) as [(Q & Q')|Q]; [left; split; [unfold place; rewrite Q; reflexivity|exact Q']|right].
    unfold place. match goal with |- (_ <= Rabs ?t)%R => replace t with (s d * (shifted (lob n1) (E e d) q - shifted (lob n1) (E e' d) q'))%R by ring end.
    rewrite Rabs_mult, (Rabs_right (s d)) by lra.
    assert (W := end_gap_wide p Hp). unfold end_gap in W. fold n1 ns g0 in W. assert (M1 := max1_pos p).
    assert (K : (node_bin p (s D) = s D * (2 / (7 * INR (Nat.max 1 p)) / 2))%R) by (unfold node_bin; field; lra). rewrite K.
    assert (0 < 2 / (7 * INR (Nat.max 1 p)))%R by (apply Rdiv_lt_0_compat; lra). apply Rmult_le_compat; lra.
  Qed.
  Lemma tri_apart g g' d : g < S ne * ng -> g' < S ne * ng -> d < 3 -> tri_pos p N X g d = tri_pos p N X g' d \/ (node_bin p (s D) <= Rabs (tri_pos p N X g d - tri_pos p N X g' d))%R.
  Proof.
    intros Hg Hg' Hd. destruct n1_ns as (A1 & A2).
    destruct (gauss_split n1 (S ne) g ltac:(lia) Hg) as (e & i & j & k & He & Hi & Hj & Hk & ->). destruct (gauss_split n1 (S ne) g' ltac:(lia) Hg') as (e' & i' & j' & k' & He' & Hi' & Hj' & Hk' & ->).
    fold ng. rewrite !tri_box by assumption.
    destruct (place_apart e e' d (tri i j k d) (tri i' j' k' d) Hd) as [(Q & _)|Q]; [destruct d as [|[|?]]; assumption|destruct d as [|[|?]]; assumption|left; exact Q|right; exact Q].
  Qed.
  Lemma place_range e d t : e < S ne -> d < 3 -> (-1 <= t <= 1)%R -> exists a b, a < cm_nodes m /\ b < cm_nodes m /\ (X a d <= o d + s d * (IZR (E e d) + (t + 1) / 2) <= X b d)%R.
  Proof.
    intros He Hd Ht. destruct HM as (HN & _). exists (N e 0), (N e 7). destruct (HN e 0 ltac:(lia) ltac:(lia)) as (_ & Ha). destruct (HN e 7 ltac:(lia) ltac:(lia)) as (_ & Hb).
    split; [exact Ha|]. split; [exact Hb|]. rewrite !box_corner by lia. specialize (Hs d Hd). destruct d as [|[|[|d]]]; [| | |lia]; cbn; nra.
  Qed.
  Lemma lob_in q : q < n1 -> (-1 <= lob n1 q <= 1)%R.
  Proof. intros H. apply lob_range; [|exact H]. assert (R := pts1_range p ltac:(lia)). fold n1 in R. lia. Qed.

  Let h := node_bin p (s D).
  Lemma h_pos : (0 < h <= 1)%R.
  Proof.
    assert (M1 := max1_pos p). assert (S := Hs D HD). unfold h, node_bin. split; [apply Rdiv_lt_0_compat; lra|].
    apply (Rmult_le_reg_r (7 * INR (Nat.max 1 p))); [lra|]. replace (s D / (7 * INR (Nat.max 1 p)) * (7 * INR (Nat.max 1 p)))%R with (s D) by (field; lra). lra.
  Qed.
  Lemma s_small : (0 < s D <= 10 ^ 64)%R.
  Proof.
    split; [apply (Hs D HD)|]. assert (INR (Nat.max 1 p) <= 5)%R by (replace 5%R with (INR 5) by (cbn; lra); apply le_INR; lia).
    apply Rle_trans with 35%R; [lra|]. apply Rle_trans with (10 ^ 2)%R; [lra|]. apply Rle_pow; [lra|lia].
  Qed.

  (** nodes: exactly one per position, except for the first point *)
  Lemma box_nodes : exists r nd own, refine_cells p m = Ok r /\
    cm_cells (rf_mesh r) = S ne * (ns * ns * ns) /\
    (forall g i, g < S ne * ng -> i < 3 -> getu (rf_points r) (g * 3 + i) = Ok (tri_pos p N X g i)) /\
    (forall g, g < S ne * ng -> node_in_gauss (rf_merged r) g = Ok (nd g) /\ nd g < cm_nodes (rf_mesh r)) /\
    (forall v, v < cm_nodes (rf_mesh r) -> own v < S ne * ng /\ nd (own v) = v) /\
    (forall g i, g < S ne * ng -> i < 3 -> cm_coord (rf_mesh r) (nd g) i = Ok (tri_pos p N X g i)) /\
    (forall g, g < S ne * ng -> (nd g = 0 <-> g = 0)) /\
    (forall g g', 0 < g < S ne * ng -> 0 < g' < S ne * ng -> (nd g = nd g' <-> forall i, i < 3 -> tri_pos p N X g i = tri_pos p N X g' i)) /\
    forall e i j k, e < S ne -> i < ns -> j < ns -> k < ns ->
      cells_in_elem (rf_maps r) ns e (i + j * ns + k * ns * ns) = Ok (cell_id p e i j k) /\
      elems_in_cell (rf_maps r) (cell_id p e i j k) = Ok e /\
      forall c, c < 8 -> gauss_in_cell (rf_maps r) (cell_id p e i j k) c = Ok (e * ng + corner_pt p i j k c) /\
        cm_node (rf_mesh r) (cell_id p e i j k) c = Ok (nd (e * ng + corner_pt p i j k c)).
  Proof.
    destruct (refine_cells_ok p m N X (s D) ne ltac:(lia) HM Ec (elem_spacing ne ltac:(lia)) s_small) as (r & nd & own & mx & mn & Er & H).
    fold n1 ns ng h in H. cbv zeta in H. destruct H as (H1 & H2 & Hb & _ & Hpt & Hnd & Hown & H0 & Hn0 & Hkey & Hcell).
    assert (Hbox : forall g, g < S ne * ng -> in_box mn mx (tri_pos p N X g)).
    { intros g Hg d Hd. destruct n1_ns as (A1 & A2). destruct (gauss_split n1 (S ne) g ltac:(lia) Hg) as (e & i & j & k & He & Hi & Hj & Hk & ->). fold ng. rewrite tri_box by assumption.
      unfold place, shifted. destruct (place_range e d (lob n1 (tri i j k d)) He Hd) as (a & b & Ha & Hb' & Q); [apply lob_in; destruct d as [|[|?]]; assumption|].
      assert (B1 := Hb a d Ha Hd). assert (B2 := Hb b d Hb' Hd). lra. }
    assert (Hh := h_pos).
    assert (Close : forall g g', g < S ne * ng -> g' < S ne * ng -> nd g = nd g' -> forall i, i < 3 -> tri_pos p N X g i = tri_pos p N X g' i).
    { intros g g' Hg Hg' Q i Hi. destruct (Nat.eq_dec g 0) as [->|].
      - destruct (Nat.eq_dec g' 0) as [->|]; [reflexivity|]. exfalso. apply (Hn0 g'); [lia|congruence].
      - destruct (Nat.eq_dec g' 0) as [->|]; [exfalso; apply (Hn0 g); [lia|congruence]|].
        apply Hkey in Q; try lia. assert (K := key_inj h mn mx ltac:(lra) _ _ (proj2 Hh) (Hbox g Hg) (Hbox g' Hg') Q i Hi).
        assert (Q' := bin_close h mn ltac:(lra) _ _ i (proj1 (Hbox g Hg i Hi)) (proj1 (Hbox g' Hg' i Hi)) K).
        destruct (tri_apart g g' i Hg Hg' Hi) as [T|T]; [exact T|]. fold h in T. lra. }
    exists r, nd, own. split; [exact Er|]. split; [exact H1|]. split; [exact Hpt|]. split; [exact Hnd|].
    split; [intros v Hv; destruct (Hown v Hv) as (A & B & _); auto|].
    split. { intros g i Hg Hi. destruct (Hown (nd g) (proj2 (Hnd g Hg))) as (A & B & C). rewrite C by exact Hi. f_equal. apply Close; assumption. }
    split. { intros g Hg. split; [|intros ->; exact H0]. intros Q. destruct (Nat.eq_dec g 0); [assumption|]. exfalso. apply (Hn0 g); [lia|exact Q]. }
    split. { intros g g' Hg Hg'. split; [intros Q; apply Close; [lia|lia|exact Q]|]. intros Q. apply Hkey; [exact Hg|exact Hg'|]. apply refine_key_ext. exact Q. }
    intros e i j k He Hi Hj Hk. exact (Hcell e k j i He Hk Hj Hi).
  Qed.
End Boxes.
