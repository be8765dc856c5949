(** Quadrature data of the reference element: node and corner weights (C36), corner surfaces (C56). *)
From Coq Require Import List Arith ZArith Lia Bool Reals Lra.
Import ListNotations.
Require Import Verif.Base Verif.NatSum Verif.RSum Verif.Model_Ref Verif.Spec_Ref Verif.Proof_Ref.
Local Open Scope nat_scope.

Lemma getu_ok {A} (l : list (option A)) i v : getu l i = Ok v -> nth i l None = Some v.
Proof.
  unfold getu. destruct (nth_error l i) as [[a|]|] eqn:E; intros H; try discriminate.
  injection H as ->. apply nth_error_nth. exact E.
Qed.

(** ---- one entry per grid point ---- *)
Lemma grid1 {A} n (f : nat -> nat -> nat -> res A) (g : nat -> nat -> nat -> A) :
  (forall i j k, i < n -> j < n -> k < n -> f i j k = Ok (g i j k)) ->
  exists lst, loop n (fun k st => loop n (fun j st => loop n (fun i a =>
      do v <- f i j k; set a (rid n i j k) (Some v)) st) st) (repeat None (n * n * n)) = Ok lst /\
   length lst = n * n * n /\
   forall i j k, i < n -> j < n -> k < n -> nth (rid n i j k) lst None = Some (g i j k).
Proof.
  intros Hf. rewrite (loop3 n n n (fun k j i a => do v <- f i j k; set a (rid n i j k) (Some v))).
  edestruct (loop_inv (fun q a => length a = n * n * n /\ forall q', q' < q ->
     nth q' a None = Some (g (q' mod n) (q' / n mod n) (q' / n / n))) (n * n * n)) as (lst & E & L & H).
  3: { exists lst. split; [exact E|]. split; [exact L|]. intros i j k Hi Hj Hk. rewrite H by (apply rid_lt; assumption).
       destruct (rid_dec n i j k Hi Hj) as (-> & -> & ->). reflexivity. }
  - rewrite repeat_length. split; [reflexivity|intros; lia].
  - intros q a Hq (L & H). destruct (pos3 n q Hq) as (P1 & P2 & P3 & P4). rewrite Hf by assumption. cbn [bind].
    rewrite <- P4. rewrite set_ok by lia. eexists. split; [reflexivity|]. rewrite upd_length. split; [exact L|].
    intros q' Hq'. rewrite nth_upd by lia. destruct (Nat.eqb_spec q' q) as [->|]; [reflexivity|]. apply H. lia.
Qed.

(** ---- three entries per grid point ---- *)
Lemma set3 {A} (l : list (option A)) r x y z : r * 3 + 3 <= length l ->
  exists l', (do p1 <- set l (r * 3 + 0) (Some x); do p2 <- set p1 (r * 3 + 1) (Some y); set p2 (r * 3 + 2) (Some z)) = Ok l' /\
   length l' = length l /\ nth (r * 3 + 0) l' None = Some x /\ nth (r * 3 + 1) l' None = Some y /\ nth (r * 3 + 2) l' None = Some z /\
   forall p, p < r * 3 \/ r * 3 + 3 <= p -> nth p l' None = nth p l None.
Proof.
  intros H. rewrite (set_ok l) by lia. cbn [bind]. rewrite set_ok by (rewrite upd_length; lia). cbn [bind].
  rewrite set_ok by (rewrite !upd_length; lia). eexists. split; [reflexivity|]. rewrite !upd_length.
  split; [reflexivity|]. split; [rewrite !nth_upd_neq by lia; apply nth_upd_eq; lia|].
  split; [rewrite nth_upd_neq by lia; apply nth_upd_eq; rewrite upd_length; lia|].
  split; [apply nth_upd_eq; rewrite !upd_length; lia|]. intros p Hp. rewrite !nth_upd_neq by lia. reflexivity.
Qed.

Lemma grid3 {A} n (f : nat -> res A) (g : nat -> A) : (forall i, i < n -> f i = Ok (g i)) ->
  exists lst, loop n (fun k st => loop n (fun j st => loop n (fun i pos =>
    let r := rid n i j k in
    do x <- f i; do y <- f j; do z <- f k;
    do p1 <- set pos (r * 3 + 0) (Some x);
    do p2 <- set p1 (r * 3 + 1) (Some y);
    set p2 (r * 3 + 2) (Some z)) st) st) (repeat None (n * n * n * 3)) = Ok lst /\
   forall i j k d, i < n -> j < n -> k < n -> d < 3 -> nth (rid n i j k * 3 + d) lst None = Some (g (coord d i j k)).
Proof.
  intros Hf. rewrite (loop3 n n n (fun k j i pos =>
    let r := rid n i j k in
    do x <- f i; do y <- f j; do z <- f k;
    do p1 <- set pos (r * 3 + 0) (Some x);
    do p2 <- set p1 (r * 3 + 1) (Some y);
    set p2 (r * 3 + 2) (Some z))).
  edestruct (loop_inv (fun q a => length a = n * n * n * 3 /\ forall q' d, q' < q -> d < 3 ->
     nth (q' * 3 + d) a None = Some (g (coord d (q' mod n) (q' / n mod n) (q' / n / n)))) (n * n * n)) as (lst & E & L & H).
  3: { exists lst. split; [exact E|]. intros i j k d Hi Hj Hk Hd. rewrite H by (try apply rid_lt; assumption).
       destruct (rid_dec n i j k Hi Hj) as (-> & -> & ->). reflexivity. }
  - rewrite repeat_length. split; [reflexivity|intros; lia].
  - intros q a Hq (L & H). destruct (pos3 n q Hq) as (P1 & P2 & P3 & P4). rewrite !Hf by assumption. cbn [bind]. cbv zeta.
    rewrite <- P4.
    destruct (set3 a q (g (q mod n)) (g (q / n mod n)) (g (q / n / n))) as (l' & E & L' & A1 & A2 & A3 & A4); [lia|].
    exists l'. split; [exact E|]. split; [lia|]. intros q' d Hq' Hd. destruct (Nat.eq_dec q' q) as [->|Ne].
    + destruct d as [|[|[|d]]]; [exact A1|exact A2|exact A3|lia].
    + rewrite A4 by lia. apply H; lia.
Qed.

Open Scope R_scope.
Lemma node_pos_ok n (lob : list R) : length lob = n -> exists pos, build_node_pos n lob = Ok pos /\
  forall i j k d, (i < n)%nat -> (j < n)%nat -> (k < n)%nat -> (d < 3)%nat ->
    ref_node_positions pos (rid n i j k) d = Ok (nth (coord d i j k) lob 0).
Proof.
  intros L. unfold build_node_pos. destruct (grid3 n (get lob) (fun i => nth i lob 0)) as (lst & E & H).
  { intros i Hi. apply get_ok. lia. }
  exists lst. split; [exact E|]. intros. apply getu_nth. apply H; assumption.
Qed.
Lemma tensor_ok n (w : list R) : length w = n -> exists g, tensor_weights n w = Ok g /\
  forall i j k, (i < n)%nat -> (j < n)%nat -> (k < n)%nat ->
    getu g (rid n i j k) = Ok (nth i w 0 * nth j w 0 * nth k w 0).
Proof.
  intros L. unfold tensor_weights.
  destruct (grid1 n (fun i j k => do x <- get w i; do y <- get w j; do z <- get w k; Ok (x * y * z))
     (fun i j k => nth i w 0 * nth j w 0 * nth k w 0)) as (lst & E & _ & H).
  { intros i j k Hi Hj Hk. rewrite !(fun i => get_ok w i 0) by lia. reflexivity. }
  exists lst. split.
  - rewrite <- E. apply loop_ext. intros k s _. apply loop_ext. intros j s' _. apply loop_ext. intros i s'' _.
    destruct (get w i) as [x|]; [|reflexivity]. destruct (get w j) as [y|]; [|reflexivity]. destruct (get w k); reflexivity.
  - intros. apply getu_nth. apply H; assumption.
Qed.

(** ---- 1D corner weights ---- *)
Lemma corner_1d_ok n1 (w : list R) : (2 <= n1)%nat -> length w = n1 -> exists cw, corner_weights_1d n1 w = Ok cw /\
  forall c, (c < 2 * (n1 - 1))%nat -> nth c cw None = Some (corner_share n1 w c).
Proof.
  intros Hn L. unfold corner_weights_1d. cbv zeta.
  replace (2 * (n1 - 2) + 2)%nat with (2 * (n1 - 1))%nat by lia. set (r1 := (2 * (n1 - 1))%nat).
  assert (Hr : (2 <= r1)%nat) by (unfold r1; lia).
  rewrite (get_ok w 0 0) by lia. cbn [bind]. rewrite set_ok by (rewrite repeat_length; lia). cbn [bind].
  edestruct (loop_from_inv (fun i c => length c = r1 /\ nth 0 c None = Some (nth 0 w 0) /\
     forall x, (1 <= x < 2 * i - 1)%nat -> nth x c None = Some (nth ((x + 1) / 2) w 0 / 2)) 1 (n1 - 2))
   as (c & E & L1 & Z & H).
  3: { rewrite E. cbn [bind]. rewrite (get_ok w (n1 - 1) 0) by lia. cbn [bind]. rewrite set_ok by lia.
       eexists. split; [reflexivity|]. intros x Hx. rewrite nth_upd by lia. unfold corner_share. fold r1.
       destruct (Nat.eqb_spec x 0) as [->|N0].
       - destruct (Nat.eqb_spec 0 (r1 - 1)); [lia|exact Z].
       - destruct (Nat.eqb_spec x (r1 - 1)); [reflexivity|]. apply H. unfold r1 in *. lia. }
  - rewrite upd_length, repeat_length. split; [reflexivity|]. split; [apply nth_upd_eq; rewrite repeat_length; lia|]. intros; lia.
  - intros i c Hi (L1 & Z & H). rewrite (get_ok w i 0) by lia. cbn [bind]. unfold r1 in *.
    rewrite set_ok by lia. cbn [bind]. rewrite set_ok by (rewrite upd_length; lia).
    eexists. split; [reflexivity|]. rewrite !upd_length. split; [exact L1|]. split; [rewrite !nth_upd_neq by lia; exact Z|].
    intros x Hx. rewrite nth_upd by (rewrite upd_length; lia). destruct (Nat.eqb_spec x (2 * i)) as [->|N1].
    + replace ((2 * i + 1) / 2)%nat with i by (rewrite (Nat.mul_comm 2), Nat.add_comm, Nat.div_add by lia; reflexivity).
      f_equal. field.
    + rewrite nth_upd by lia. destruct (Nat.eqb_spec x (2 * i - 1)) as [->|N2].
      * replace ((2 * i - 1 + 1) / 2)%nat with i by (replace (2 * i - 1 + 1)%nat with (i * 2)%nat by lia; rewrite Nat.div_mul by lia; reflexivity).
        f_equal. field.
      * apply H. lia.
Qed.

Lemma corner_weights_ok n1 (w : list R) : (2 <= n1)%nat -> length w = n1 ->
  exists cw g parts, corner_weights_1d n1 w = Ok cw /\ build_corner_weights n1 cw = Ok g /\ build_corner_parts n1 cw = Ok parts /\
  let rr := (2 * (n1 - 1))%nat in
  forall i j k, (i < rr)%nat -> (j < rr)%nat -> (k < rr)%nat ->
    getu g (rid rr i j k) = Ok (corner_share n1 w i * corner_share n1 w j * corner_share n1 w k) /\
    forall d, (d < 3)%nat -> getu parts (rid rr i j k * 3 + d) = Ok (corner_share n1 w (coord d i j k)).
Proof.
  intros Hn L. destruct (corner_1d_ok n1 w Hn L) as (cw & E & H). exists cw.
  unfold build_corner_weights, build_corner_parts. cbv zeta.
  replace (2 * (n1 - 2) + 2)%nat with (2 * (n1 - 1))%nat by lia. set (rr := (2 * (n1 - 1))%nat) in *.
  destruct (grid1 rr (fun i j k => do x <- getu cw i; do y <- getu cw j; do z <- getu cw k; Ok (x * y * z))
     (fun i j k => corner_share n1 w i * corner_share n1 w j * corner_share n1 w k)) as (g & Eg & _ & Hg).
  { intros i j k Hi Hj Hk. rewrite !(fun i Hi => getu_nth cw i _ (H i Hi)) by assumption. reflexivity. }
  destruct (grid3 rr (getu cw) (corner_share n1 w)) as (parts & Ep & Hp).
  { intros i Hi. apply getu_nth. apply H. exact Hi. }
  exists g, parts. split; [exact E|]. split.
  - rewrite <- Eg. apply loop_ext. intros k s _. apply loop_ext. intros j s' _. apply loop_ext. intros i s'' _.
    destruct (getu cw i) as [x|]; [|reflexivity]. destruct (getu cw j) as [y|]; [|reflexivity]. destruct (getu cw k); reflexivity.
  - split; [exact Ep|]. intros i j k Hi Hj Hk. split; [apply getu_nth, Hg; assumption|].
    intros d Hd. apply getu_nth, Hp; assumption.
Qed.

(** ---- sums ---- *)
Lemma rsum_grid n f g h :
  rsum (n * n * n) (fun q => f (q mod n)%nat * g ((q / n) mod n)%nat * h (q / n / n)%nat) = rsum n f * rsum n g * rsum n h.
Proof.
  rewrite rsum_mul.
  rewrite (rsum_ext _ _ (fun Q => rsum n f * (g (Q mod n)%nat * h (Q / n)%nat))).
  2:{ intros Q HQ. rewrite <- rsum_scal_r. apply rsum_ext. intros r Hr.
      destruct (digit_lo n Q r Hr) as (-> & ->). ring. }
  rewrite rsum_scal_l, rsum_mul.
  rewrite (rsum_ext n (fun q => rsum n _) (fun K => rsum n g * h K)).
  2:{ intros Q HQ. rewrite <- rsum_scal_r. apply rsum_ext. intros r Hr.
      destruct (digit_lo n Q r Hr) as (-> & ->). ring. }
  rewrite rsum_scal_l. ring.
Qed.
Lemma rsum8 (F G H : nat -> R) :
  rsum 8 (fun l => F (off 0 l) * G (off 1 l) * H (off 2 l)) = (F 0%nat + F 1%nat) * (G 0%nat + G 1%nat) * (H 0%nat + H 1%nat).
Proof. unfold rsum. offs. ring. Qed.

Definition at_ (I x : nat) (v : R) : R := if (x =? I)%nat then v else 0.

(** 1D: the shares at a node add up to its weight *)
Lemma share_at n1 w I : (2 <= n1)%nat -> (I < n1)%nat ->
  rsum (n1 - 1) (fun i => at_ I (i + 0) (corner_share n1 w (2 * i + 0)) + at_ I (i + 1) (corner_share n1 w (2 * i + 1))) = nth I w 0.
Proof.
  intros Hn HI. rewrite rsum_plus.
  assert (A : rsum (n1 - 1) (fun i => at_ I (i + 0) (corner_share n1 w (2 * i + 0))) =
     if (I =? n1 - 1)%nat then 0 else corner_share n1 w (2 * I)).
  { destruct (Nat.eqb_spec I (n1 - 1)) as [->|Ne].
    - apply rsum_zero. intros i Hi. unfold at_. destruct (Nat.eqb_spec (i + 0) (n1 - 1)); [lia|reflexivity].
    - rewrite (rsum_single _ I); [|lia|].
      + unfold at_. rewrite !Nat.add_0_r, Nat.eqb_refl. reflexivity.
      + intros i Hi Hne. unfold at_. destruct (Nat.eqb_spec (i + 0) I); [lia|reflexivity]. }
  assert (B : rsum (n1 - 1) (fun i => at_ I (i + 1) (corner_share n1 w (2 * i + 1))) =
     if (I =? 0)%nat then 0 else corner_share n1 w (2 * I - 1)).
  { destruct (Nat.eqb_spec I 0) as [->|Ne].
    - apply rsum_zero. intros i Hi. unfold at_. destruct (Nat.eqb_spec (i + 1) 0); [lia|reflexivity].
    - rewrite (rsum_single _ (I - 1)%nat); [|lia|].
      + unfold at_. destruct (Nat.eqb_spec (I - 1 + 1) I); [|lia]. f_equal. lia.
      + intros i Hi Hne. unfold at_. destruct (Nat.eqb_spec (i + 1) I); [lia|reflexivity]. }
  rewrite A, B. clear A B. unfold corner_share.
  destruct (Nat.eqb_spec I (n1 - 1)) as [E1|N1]; destruct (Nat.eqb_spec I 0) as [E0|N0]; try lia.
  - destruct (Nat.eqb_spec (2 * I - 1) 0); [lia|]. destruct (Nat.eqb_spec (2 * I - 1) (2 * (n1 - 1) - 1)); [|lia]. rewrite E1. ring.
  - rewrite E0. rewrite Nat.mul_0_r. cbn [Nat.eqb]. ring.
  - destruct (Nat.eqb_spec (2 * I) 0); [lia|]. destruct (Nat.eqb_spec (2 * I - 1) 0); [lia|].
    destruct (Nat.eqb_spec (2 * I) (2 * (n1 - 1) - 1)); [lia|]. destruct (Nat.eqb_spec (2 * I - 1) (2 * (n1 - 1) - 1)); [lia|].
    replace ((2 * I + 1) / 2)%nat with I by (rewrite (Nat.mul_comm 2), Nat.add_comm, Nat.div_add by lia; reflexivity).
    replace ((2 * I - 1 + 1) / 2)%nat with I by (replace (2 * I - 1 + 1)%nat with (I * 2)%nat by lia; rewrite Nat.div_mul by lia; reflexivity).
    field.
Qed.

Lemma share_total n1 w : (2 <= n1)%nat -> rsum (2 * (n1 - 1)) (corner_share n1 w) = rsum n1 (fun i => nth i w 0).
Proof.
  intros Hn. rewrite (rsum_ext n1 _ (fun I => rsum (n1 - 1) (fun i => at_ I (i + 0) (corner_share n1 w (2 * i + 0)) + at_ I (i + 1) (corner_share n1 w (2 * i + 1))))).
  2:{ intros I HI. symmetry. apply share_at; assumption. }
  rewrite rsum_swap. rewrite Nat.mul_comm, rsum_mul. apply rsum_ext. intros i Hi.
  rewrite rsum_plus.
  rewrite (rsum_single n1 (i + 0)%nat), (rsum_single n1 (i + 1)%nat).
  - unfold at_, rsum. rewrite !Nat.eqb_refl. rewrite (Nat.mul_comm i 2). ring.
  - lia.
  - intros x Hx Hne. unfold at_. destruct (Nat.eqb_spec (i + 1) x); [lia|reflexivity].
  - lia.
  - intros x Hx Hne. unfold at_. destruct (Nat.eqb_spec (i + 0) x); [lia|reflexivity].
Qed.

(** generic: a sum over the corners at node (I,J,K) of a product of three 1D quantities *)
Lemma node_sum n1 (nd : nat -> nat -> nat) (val : nat -> nat -> R) (F G H : nat -> nat -> R) I J K :
  (2 <= n1)%nat -> (I < n1)%nat -> (J < n1)%nat -> (K < n1)%nat ->
  (forall i j k l, (i < n1 - 1)%nat -> (j < n1 - 1)%nat -> (k < n1 - 1)%nat -> (l < 8)%nat ->
     nd (rid (n1 - 1) i j k) l = rid n1 (i + off 0 l) (j + off 1 l) (k + off 2 l) /\
     val (rid (n1 - 1) i j k) l = F i (off 0 l) * G j (off 1 l) * H k (off 2 l)) ->
  let s1 := fun I (F : nat -> nat -> R) => rsum (n1 - 1) (fun i => at_ I (i + 0) (F i 0%nat) + at_ I (i + 1) (F i 1%nat)) in
  rsum ((n1 - 1) * (n1 - 1) * (n1 - 1)) (fun c => rsum 8 (fun l => if (nd c l =? rid n1 I J K)%nat then val c l else 0))
  = s1 I F * s1 J G * s1 K H.
Proof.
  intros Hn HI HJ HK HH s1. set (nc := (n1 - 1)%nat) in *. unfold s1.
  rewrite <- (rsum_grid nc (fun i => at_ I (i + 0) (F i 0%nat) + at_ I (i + 1) (F i 1%nat))
     (fun j => at_ J (j + 0) (G j 0%nat) + at_ J (j + 1) (G j 1%nat))
     (fun k => at_ K (k + 0) (H k 0%nat) + at_ K (k + 1) (H k 1%nat))).
  apply rsum_ext. intros c Hc. destruct (pos3 nc c Hc) as (P1 & P2 & P3 & P4).
  set (i := (c mod nc)%nat) in *. set (j := ((c / nc) mod nc)%nat) in *. set (k := (c / nc / nc)%nat) in *.
  rewrite <- (rsum8 (fun a => at_ I (i + a) (F i a)) (fun a => at_ J (j + a) (G j a)) (fun a => at_ K (k + a) (H k a))).
  apply rsum_ext. intros l Hl. rewrite P4. destruct (HH i j k l P3 P2 P1 Hl) as (-> & ->).
  pose proof (off_lt 0 l). pose proof (off_lt 1 l). pose proof (off_lt 2 l). unfold at_.
  destruct (Nat.eqb_spec (rid n1 (i + off 0 l) (j + off 1 l) (k + off 2 l)) (rid n1 I J K)) as [E|Ne].
  - apply rid_inj in E; [|lia..]. destruct E as (-> & -> & ->). rewrite !Nat.eqb_refl. reflexivity.
  - destruct (Nat.eqb_spec (i + off 0 l) I) as [E1|]; [|ring]. destruct (Nat.eqb_spec (j + off 1 l) J) as [E2|]; [|ring].
    destruct (Nat.eqb_spec (k + off 2 l) K) as [E3|]; [|ring]. exfalso. apply Ne. rewrite E1, E2, E3. reflexivity.
Qed.
