(** C65: the initial cell field of examples/average (average.cpp:563-662, src/input.cpp). *)
From Coq Require Import Reals List Arith ZArith Lra Lia Bool.
Import ListNotations.
Require Import Verif.Base Verif.RBase Verif.RSum Verif.Spec_Full Verif.Model_Full Verif.Model_Average Verif.Spec_Average Verif.Spec_Dump Verif.Proof_Average Verif.Proof_Dump Verif.Prop_High Verif.Prop_Full2.
Local Open Scope nat_scope.

Lemma between_true a x b : between a x b = true <-> (a <= x <= b)%R.
Proof. unfold between. destruct (Rle_dec a x), (Rle_dec x b); split; intros H; try lra; try reflexivity; discriminate. Qed.
Lemma or_if (b v : bool) (P Q : Prop) : (b = true <-> P) -> (v = true <-> Q) -> ((if b then true else v) = true <-> P \/ Q).
Proof. intros H1 H2. destruct b; destruct v; intuition congruence. Qed.
Lemma fill_covers f x y z : fill_this f x y z = true <-> covers f x y z.
Proof.
  unfold fill_this, covers.
  assert (B1 : between (fl_x1 f) x (fl_x2 f) && between (fl_y1 f) y (fl_y2 f) && between (fl_z1 f) z (fl_z2 f) = true <-> in_box f x y z).
  { rewrite !andb_true_iff, !between_true. unfold in_box. tauto. }
  assert (B2 := between_true (fl_r1 f) (sqrt (x * x + y * y)) (fl_r2 f)). fold (in_cylinder f x y) in B2.
  assert (B3 := between_true (fl_r1 f) (sqrt (x * x + y * y + z * z)) (fl_r2 f)). fold (in_sphere f x y z) in B3.
  revert B1 B2 B3. generalize (between (fl_x1 f) x (fl_x2 f) && between (fl_y1 f) y (fl_y2 f) && between (fl_z1 f) z (fl_z2 f)) (between (fl_r1 f) (sqrt (x * x + y * y)) (fl_r2 f)) (between (fl_r1 f) (sqrt (x * x + y * y + z * z)) (fl_r2 f)).
  intros b1 b2 b3 B1 B2 B3. destruct (fl_volume f) as [|[|[|[|v]]]]; destruct b1, b2, b3; intuition congruence.
Qed.
Lemma centre_ok m N X c d : cdescribes m N X -> c < cm_cells m -> d < 3 -> cell_centre m c d = Ok (centre N X c d).
Proof.
  intros (H1 & H2) Hc Hd. unfold cell_centre.
  destruct (loop_inv (fun i (a : R) => a = rsum i (fun l => X (N c l) d)) 8 (fun l a => do n <- cm_node m c l; do x <- cm_coord m n d; Ok (a + x)%R) 0%R) as (a & E & Q).
  - reflexivity.
  - intros l a Hl ->. destruct (H1 c l Hc Hl) as (-> & Hn). cbn [bind]. rewrite H2 by assumption. cbn [bind]. eexists. split; reflexivity.
  - rewrite E. cbn [bind]. rewrite Q. reflexivity.
Qed.

(** every cell gets the second field value of the last region that covers its centre; with none it keeps its value *)
Theorem C65_initial_field : forall m N X fills mat, cdescribes m N X -> length mat = cm_cells m ->
  exists mat', initialize_state m fills mat = Ok mat' /\ length mat' = cm_cells m /\
    forall c, c < cm_cells m -> let inside := fun f => covers f (centre N X c 0) (centre N X c 1) (centre N X c 2) in
      (exists i f, nth_error fills i = Some f /\ inside f /\ (forall j g, i < j -> nth_error fills j = Some g -> ~ inside g) /\ val mat' c = fl_field2 f) \/
      ((forall i f, nth_error fills i = Some f -> ~ inside f) /\ val mat' c = val mat c).
Proof.
  intros m N X fills mat HM Lm. unfold initialize_state.
  set (ins := fun c f => covers f (centre N X c 0) (centre N X c 1) (centre N X c 2)).
  edestruct (loop_inv (fun k (mat' : list R) => length mat' = cm_cells m /\ forall c, c < cm_cells m ->
      (exists i f, i < k /\ nth_error fills i = Some f /\ ins c f /\ (forall j g, i < j < k -> nth_error fills j = Some g -> ~ ins c g) /\ val mat' c = fl_field2 f) \/
      ((forall i f, i < k -> nth_error fills i = Some f -> ~ ins c f) /\ val mat' c = val mat c)) (length fills)) as (mat' & E & L' & H).
  3:{ exists mat'. split; [exact E|]. split; [exact L'|]. intros c Hc. cbv zeta. destruct (H c Hc) as [(i & f & Hi & Ef & If & Un & V)|(Un & V)].
    - left. exists i, f. split; [exact Ef|]. split; [exact If|]. split; [|exact V]. intros j g Hj Eg. apply (Un j); [|exact Eg]. split; [exact Hj|]. apply nth_error_Some. congruence.
    - right. split; [|exact V]. intros i f Ef. apply (Un i); [|exact Ef]. apply nth_error_Some. congruence. }
  - split; [exact Lm|]. intros c Hc. right. split; [intros; lia|reflexivity].
  - intros k mat' Hk (L' & H). destruct (nth_error fills k) as [f|] eqn:Ef; [|apply nth_error_None in Ef; lia]. unfold get. rewrite Ef. cbn [bind].
    edestruct (loop_inv (fun c0 (mat2 : list R) => length mat2 = cm_cells m /\ forall c, c < cm_cells m ->
      (c < c0 -> ins c f -> val mat2 c = fl_field2 f) /\ (c0 <= c \/ ~ ins c f -> val mat2 c = val mat' c)) (cm_cells m)) as (mat2 & E2 & L2 & H2).
    3:{ exists mat2. split; [exact E2|]. split; [exact L2|]. intros c Hc. destruct (H2 c Hc) as (A & B).
      destruct (fill_this f (centre N X c 0) (centre N X c 1) (centre N X c 2)) eqn:Fl.
      - apply fill_covers in Fl. left. exists k, f. split; [lia|]. split; [exact Ef|]. split; [exact Fl|]. split; [intros; lia|]. apply A; assumption.
      - assert (Nf : ~ ins c f) by (intros Z; apply fill_covers in Z; congruence). rewrite B by (right; exact Nf).
        destruct (H c Hc) as [(i & g & Hi & Eg & If & Un & V)|(Un & V)].
        + left. exists i, g. split; [lia|]. split; [exact Eg|]. split; [exact If|]. split; [|exact V]. intros j g' Hj Eg'. destruct (Nat.eq_dec j k) as [->|Ne]; [congruence|]. apply (Un j); [lia|exact Eg'].
        + right. split; [|exact V]. intros i g Hi Eg. destruct (Nat.eq_dec i k) as [->|Ne]; [congruence|]. apply (Un i); [lia|exact Eg]. }
    + split; [exact L'|]. intros c Hc. split; [intros; lia|reflexivity].
    + intros c0 mat2 Hc0 (L2 & H2). rewrite !(centre_ok m N X) by (assumption || lia). cbn [bind].
      destruct (fill_this f (centre N X c0 0) (centre N X c0 1) (centre N X c0 2)) eqn:Fl.
      * rewrite set_ok by lia. eexists. split; [reflexivity|]. split; [rewrite upd_length; exact L2|]. intros c Hc. unfold val. rewrite nth_upd by lia. apply fill_covers in Fl.
        destruct (Nat.eqb_spec c c0) as [->|Ne].
        -- split; [reflexivity|]. intros [Z|Z]; [lia|]. exfalso. apply Z. exact Fl.
        -- destruct (H2 c Hc) as (A & B). split; [intros Z If; apply A; [lia|exact If]|]. intros Z. apply B. destruct Z as [Z|Z]; [left; lia|right; exact Z].
      * eexists. split; [reflexivity|]. split; [exact L2|]. intros c Hc. destruct (H2 c Hc) as (A & B). split.
        -- intros Z If. apply A; [|exact If]. destruct (Nat.eq_dec c c0) as [->|Ne]; [|lia]. apply fill_covers in If. congruence.
        -- intros Z. apply B. destruct Z as [Z|Z]; [left; lia|right; exact Z].
Qed.
Print Assumptions C65_initial_field.

(** the shipped input: 0 in every cell, whatever the unset members hold (it sets field1, the program uses field2) *)
Theorem C65_shipped : forall u m N X mat, cdescribes m N X -> length mat = cm_cells m ->
  initialize_state m (in_fills (shipped_input u)) mat = Ok (repeat 0%R (cm_cells m)).
Proof.
  intros u m N X mat HM Lm. destruct (C65_initial_field m N X (in_fills (shipped_input u)) mat HM Lm) as (mat' & -> & L' & H). f_equal.
  apply nth_ext with (d := 0%R) (d' := 0%R); [rewrite repeat_length; exact L'|]. intros c Hc. rewrite nth_repeat. change (val mat' c = 0%R).
  destruct (H c ltac:(lia)) as [(i & f & Ef & _ & _ & ->)|(Un & _)].
  - cbn [in_fills shipped_input] in Ef. destruct i as [|[|i]]; cbn in Ef; [injection Ef as <-; reflexivity|injection Ef as <-; reflexivity|destruct i; discriminate].
  - exfalso. apply (Un 0 (Fill 0 (u 0) (u 1) (u 2) (u 3) (u 4) (u 5) (u 6) (u 7) 1 0)); [reflexivity|]. exact I.
Qed.
Print Assumptions C65_shipped.

(** a box region also takes the cells between the radii, which input() leaves unset for a box: a cell centre
    outside the box is covered for some values of the unset memory and not for others *)
Theorem C65_box_unset_radii : forall f x y z, fl_volume f = 1 -> ~ in_box f x y z ->
  let with_radii := fun r1 r2 => Fill (fl_volume f) (fl_x1 f) (fl_x2 f) (fl_y1 f) (fl_y2 f) (fl_z1 f) (fl_z2 f) r1 r2 (fl_field1 f) (fl_field2 f) in
  (exists r1 r2, covers (with_radii r1 r2) x y z) /\ (exists r1 r2, ~ covers (with_radii r1 r2) x y z).
Proof.
  intros f x y z Hv Nb wr. split.
  - exists (sqrt (x * x + y * y)), (sqrt (x * x + y * y)). unfold covers, wr. cbn [fl_volume]. rewrite Hv. right. left. unfold in_cylinder. cbn [fl_r1 fl_r2]. lra.
  - exists 1%R, 0%R. unfold covers, wr. cbn [fl_volume]. rewrite Hv. intros [B|[B|B]]; [exact (Nb B)| |]; [unfold in_cylinder in B|unfold in_sphere in B]; cbn [fl_r1 fl_r2] in B; lra.
Qed.
Print Assumptions C65_box_unset_radii.

(** radii set so that no cell lies between them (r2 < 0): a box region covers the box *)
Theorem C65_box : forall f x y z, fl_volume f = 1 -> (fl_r2 f < 0)%R -> (covers f x y z <-> in_box f x y z).
Proof.
  intros f x y z Hv Hr. unfold covers. rewrite Hv. assert (A := sqrt_pos (x * x + y * y)). assert (B := sqrt_pos (x * x + y * y + z * z)). unfold in_cylinder, in_sphere. split; [|auto]. intros [Q|[Q|Q]]; [exact Q| |]; lra.
Qed.
Print Assumptions C65_box.

(** ---- the hypotheses can be met: two boxes of unit width ---- *)
Example C65_initial_field_nonvacuous : exists mat', initialize_state (cbrick 1 2 3) [Fill 0 0 0 0 0 0 0 0 0 1 5; Fill 1 1 2 0 2 0 3 0 (-1) 2 8] [0; 0]%R = Ok mat' /\ val mat' 0 = 5%R /\ val mat' 1 = 8%R.
Proof.
  destruct (C65_initial_field (cbrick 1 2 3) brick_n (brick_x 1 2 3) [Fill 0 0 0 0 0 0 0 0 0 1 5; Fill 1 1 2 0 2 0 3 0 (-1) 2 8] [0; 0]%R (cbrick_describes 1 2 3) eq_refl) as (mat' & E & _ & H). exists mat'. split; [exact E|].
  split.
  - destruct (H 0 ltac:(cbn; lia)) as [(i & f & Ef & If & _ & ->)|(Un & _)]; [|exfalso; apply (Un 0 _ eq_refl); exact I].
    destruct i as [|[|i]]; cbn in Ef; [injection Ef as <-; reflexivity| |destruct i; discriminate]. injection Ef as <-. exfalso.
    apply C65_box in If; [|reflexivity|cbn; lra]. destruct If as (If & _). cbn [fl_x1 fl_x2] in If. unfold centre, cell_mean in If. cbn in If. lra.
  - destruct (H 1 ltac:(cbn; lia)) as [(i & f & Ef & If & Un & ->)|(Un & _)]; [|exfalso; apply (Un 0 _ eq_refl); exact I].
    destruct i as [|[|i]]; cbn in Ef; [|injection Ef as <-; reflexivity|destruct i; discriminate]. exfalso. apply (Un 1 (Fill 1 1 2 0 2 0 3 0 (-1) 2 8) ltac:(lia) eq_refl).
    apply C65_box; [reflexivity|cbn; lra|]. unfold in_box, centre, cell_mean. cbn. lra.
Qed.
Example C65_shipped_nonvacuous : forall u, initialize_state (cbrick 1 2 3) (in_fills (shipped_input u)) [3; 4]%R = Ok [0; 0]%R.
Proof. intros u. exact (C65_shipped u _ _ _ [3; 4]%R (cbrick_describes 1 2 3) eq_refl). Qed.
Example C65_box_unset_radii_nonvacuous : exists r1 r2, covers (Fill 1 0 (7 / 10) 0 2 0 2 r1 r2 10 0) 1 1 1.
Proof. apply (C65_box_unset_radii (Fill 1 0 (7 / 10) 0 2 0 2 0 0 10 0) 1 1 1); [reflexivity|]. unfold in_box. cbn. lra. Qed.
Example C65_box_nonvacuous : covers (Fill 1 0 (7 / 10) 0 2 0 2 0 (-1) 10 0) (1 / 2) 1 1 /\ ~ covers (Fill 1 0 (7 / 10) 0 2 0 2 0 (-1) 10 0) 1 1 1.
Proof. rewrite !C65_box by (cbn; reflexivity || lra). unfold in_box. cbn. lra. Qed.
