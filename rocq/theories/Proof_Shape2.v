(** Shape functions: the accumulation loops of physical_position. *)
From Coq Require Import List Reals Arith Lia Lra.
Import ListNotations.
Require Import Verif.Base Verif.RSum Verif.Model_Shape Verif.Spec_Shape Verif.Proof_Shape.
Local Open Scope nat_scope.

Lemma getu_set {A} (l : list (option A)) i v : i < length l -> exists l', set l i (Some v) = Ok l' /\ length l' = length l /\
  getu l' i = Ok v /\ forall j, j <> i -> nth_error l' j = nth_error l j.
Proof.
  intros H. exists (upd l i (Some v)). split; [apply set_ok; exact H|].
  assert (Q : length (upd l i (Some v)) = length l /\ nth_error (upd l i (Some v)) i = Some (Some v) /\ forall j, j <> i -> nth_error (upd l i (Some v)) j = nth_error l j).
  { revert i H. induction l as [|a l IH]; intros i H; [cbn in H; lia|]. destruct i as [|i]; cbn [upd].
    - repeat split. intros [|j] Hj; [congruence|reflexivity].
    - destruct (IH i) as (Q1 & Q2 & Q3); [cbn in H; lia|]. cbn [length]. split; [lia|]. split; [exact Q2|].
      intros [|j] Hj; [reflexivity|]. cbn. apply Q3. congruence. }
  destruct Q as (Q1 & Q2 & Q3). split; [exact Q1|]. split; [|exact Q3]. unfold getu. rewrite Q2. reflexivity.
Qed.
Lemma getu_err {A} (l l' : list (option A)) i : nth_error l' i = nth_error l i -> getu l' i = getu l i.
Proof. unfold getu. intros ->. reflexivity. Qed.

Section Acc.
Variables (dim : nat) (vertices : list R) (b : list (option R)) (bv : nat -> R).
Definition vc (v d : nat) : R := nth (v * dim + d) vertices 0%R.

(** state: entries d < dim hold f d, the rest is as in xp0 *)
Definition holdsA (xp0 : list (option R)) (f : nat -> R) (a : list (option R)) : Prop := writes dim xp0 a f.

Lemma holdsA_step xp0 f a d w : dim <= length xp0 -> d < dim -> holdsA xp0 f a ->
  exists a', set a d (Some w) = Ok a' /\ holdsA xp0 (fun e => if e =? d then w else f e) a'.
Proof.
  intros L Hd (A1 & A2 & A3). destruct (getu_set a d w) as (a' & E & B1 & B2 & B3); [lia|]. exists a'. split; [exact E|].
  split; [lia|]. split.
  - intros i Hi. destruct (Nat.eqb_spec i d) as [->|N]; [exact B2|]. rewrite (getu_err a a' i (B3 i N)). apply A2. exact Hi.
  - intros i Hi. rewrite B3 by lia. apply A3. exact Hi.
Qed.
Lemma holdsA_ext xp0 f g a : (forall d, d < dim -> f d = g d) -> holdsA xp0 f a -> holdsA xp0 g a.
Proof. intros E (A1 & A2 & A3). split; [exact A1|]. split; [|exact A3]. intros i Hi. rewrite A2 by exact Hi. rewrite E by exact Hi. reflexivity. Qed.

Lemma zero_ok xp : dim <= length xp -> exists a, loop dim (fun d a => set a d (Some 0%R)) xp = Ok a /\ holdsA xp (fun _ => 0%R) a.
Proof.
  intros L.
  destruct (loop_inv (fun n (a : list (option R)) => length a = length xp /\ (forall i, i < n -> getu a i = Ok 0%R) /\ (forall i, n <= i -> nth_error a i = nth_error xp i))
    dim (fun d a => set a d (Some 0%R)) xp) as (a & E & H).
  - split; [reflexivity|]. split; [lia|reflexivity].
  - intros d a Hd (A1 & A2 & A3). destruct (getu_set a d 0%R) as (a' & E & B1 & B2 & B3); [lia|]. exists a'. split; [exact E|].
    split; [lia|]. split.
    + intros i Hi. destruct (Nat.eq_dec i d) as [->|N]; [exact B2|]. rewrite (getu_err a a' i (B3 i N)). apply A2. lia.
    + intros i Hi. rewrite B3 by lia. apply A3. lia.
  - exists a. split; [exact E|exact H].
Qed.

Lemma acc1_ok xp0 f a v d nv : dim <= length xp0 -> d < dim -> v < nv -> nv * dim <= length vertices -> (forall w, w < nv -> getu b w = Ok (bv w)) ->
  holdsA xp0 f a ->
  exists a', acc1 dim vertices b v d a = Ok a' /\ holdsA xp0 (fun e => if e =? d then (f d + vc v d * bv v)%R else f e) a'.
Proof.
  intros L Hd Hv Lv Hb H. unfold acc1. rewrite (get_ok vertices _ 0%R) by nia. cbn [bind]. rewrite Hb by exact Hv. cbn [bind].
  destruct H as (A1 & A2 & A3). rewrite A2 by exact Hd. cbn [bind]. apply holdsA_step; [exact L|exact Hd|]. split; [exact A1|]. split; assumption.
Qed.

Lemma vd_ok nv xp : dim <= length xp -> nv * dim <= length vertices -> (forall w, w < nv -> getu b w = Ok (bv w)) ->
  exists a, accumulate_vd dim nv vertices b xp = Ok a /\ writes dim xp a (fun d => rsum nv (fun v => vc v d * bv v)%R).
Proof.
  intros L Lv Hb. unfold accumulate_vd. destruct (zero_ok xp L) as (a0 & -> & H0). cbn [bind].
  destruct (loop_inv (fun n a => holdsA xp (fun d => rsum n (fun v => vc v d * bv v)%R) a) nv
    (fun v a => loop dim (fun d a => acc1 dim vertices b v d a) a) a0) as (a & E & H).
  - exact H0.
  - intros v a Hv Ha.
    destruct (loop_inv (fun n a => holdsA xp (fun d => if d <? n then rsum (S v) (fun v => vc v d * bv v)%R else rsum v (fun v => vc v d * bv v)%R) a) dim
      (fun d a => acc1 dim vertices b v d a) a) as (a' & E & H).
    + exact Ha.
    + intros d a1 Hd H1. destruct (acc1_ok _ _ _ v d nv L Hd Hv Lv Hb H1) as (a2 & E2 & H2). exists a2. split; [exact E2|].
      eapply holdsA_ext; [|exact H2]. intros e He. cbv beta. rewrite Nat.ltb_irrefl.
      destruct (Nat.eqb_spec e d) as [->|N].
      * destruct (Nat.ltb_spec d (S d)); [|lia]. reflexivity.
      * destruct (Nat.ltb_spec e d), (Nat.ltb_spec e (S d)); try reflexivity; lia.
    + exists a'. split; [exact E|]. eapply holdsA_ext; [|exact H]. intros d Hd. cbv beta. destruct (Nat.ltb_spec d dim); [reflexivity|lia].
  - exists a. split; [exact E|exact H].
Qed.
Lemma dv_ok nv xp : dim <= length xp -> nv * dim <= length vertices -> (forall w, w < nv -> getu b w = Ok (bv w)) ->
  exists a, accumulate_dv dim nv vertices b xp = Ok a /\ writes dim xp a (fun d => rsum nv (fun v => vc v d * bv v)%R).
Proof.
  intros L Lv Hb. unfold accumulate_dv. destruct (zero_ok xp L) as (a0 & -> & H0). cbn [bind].
  destruct (loop_inv (fun n a => holdsA xp (fun d => if d <? n then rsum nv (fun v => vc v d * bv v)%R else 0%R) a) dim
    (fun d a => loop nv (fun v a => acc1 dim vertices b v d a) a) a0) as (a & E & H).
  - exact H0.
  - intros d a Hd Ha.
    destruct (loop_inv (fun n a => holdsA xp (fun e => if e =? d then rsum n (fun v => vc v d * bv v)%R else if e <? d then rsum nv (fun v => vc v e * bv v)%R else 0%R) a) nv
      (fun v a => acc1 dim vertices b v d a) a) as (a' & E & H).
    + eapply holdsA_ext; [|exact Ha]. intros e He. cbv beta. destruct (Nat.eqb_spec e d) as [->|]; [|reflexivity]. rewrite Nat.ltb_irrefl. reflexivity.
    + intros v a1 Hv H1. destruct (acc1_ok _ _ _ v d nv L Hd Hv Lv Hb H1) as (a2 & E2 & H2). exists a2. split; [exact E2|].
      eapply holdsA_ext; [|exact H2]. intros e He. cbv beta. rewrite Nat.eqb_refl.
      destruct (Nat.eqb_spec e d) as [->|N]; reflexivity.
    + exists a'. split; [exact E|]. eapply holdsA_ext; [|exact H]. intros e He. cbv beta. destruct (Nat.eqb_spec e d) as [->|N].
      * destruct (Nat.ltb_spec d (S d)); [reflexivity|lia].
      * destruct (Nat.ltb_spec e d), (Nat.ltb_spec e (S d)); try reflexivity; lia.
  - exists a. split; [exact E|]. eapply holdsA_ext; [|exact H]. intros d Hd. cbv beta. destruct (Nat.ltb_spec d dim); [reflexivity|lia].
Qed.
End Acc.

(** one pass too many reads past the basis array *)
Lemma loop_from_last {S} lo n (body : nat -> S -> res S) s : loop_from lo (n + 1) body s = (do s' <- loop_from lo n body s; body (lo + n) s').
Proof.
  revert lo s. induction n as [|n IH]; intros lo s; cbn.
  - rewrite Nat.add_0_r. destruct (body lo s); reflexivity.
  - destruct (body lo s) as [s1|]; cbn; [|reflexivity]. rewrite IH. replace (lo + Datatypes.S n) with (Datatypes.S lo + n) by lia. reflexivity.
Qed.
Lemma vd_over dim nv vertices b bv xp : 0 < dim -> dim <= length xp -> nv * dim <= length vertices -> (forall w, w < nv -> getu b w = Ok (bv w)) ->
  length b = nv -> accumulate_vd dim (nv + 1) vertices b xp = Err OOB.
Proof.
  intros D L Lv Hb Lb. destruct (vd_ok dim vertices b bv nv xp L Lv Hb) as (a & E & W). revert E. unfold accumulate_vd.
  destruct (loop dim _ xp) as [a0|e]; [|discriminate]. cbn [bind]. unfold loop at 1 3. intros E. rewrite loop_from_last, E. cbn [bind].
  destruct dim as [|dim]; [lia|]. unfold loop. cbn [loop_from]. unfold acc1 at 1.
  destruct (get vertices _) as [c|e] eqn:G.
  - cbn [bind]. assert (Q : getu b nv = Err OOB).
    { unfold getu. assert (N : nth_error b nv = None) by (apply nth_error_None; lia). rewrite N. reflexivity. }
    cbn [Nat.add]. rewrite Q. reflexivity.
  - cbn [bind]. unfold get in G. destruct (nth_error vertices _); [discriminate|]. injection G as <-. reflexivity.
Qed.
