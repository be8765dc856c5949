(** Proofs about the 1D Lagrange kernels and the tensor basis of HexN. *)
From Coq Require Import List Arith Lia Reals Lra.
Import ListNotations.
Require Import Verif.Base Verif.NatSum Verif.RBase Verif.RSum Verif.RDer Verif.Spec_Lagrange Verif.Lagrange_Math
  Verif.Model_Ref Verif.Proof_Ref Verif.Proof_Ref5 Verif.Model_HexN Verif.Spec_HexN.
Local Open Scope nat_scope.


Definition qnum (Z : nat -> R) (x : R) (i m : nat) : R := rprod m (fun k => if Nat.eqb k i then 1 else x - Z k)%R.
Definition qden (Z : nat -> R) (i m : nat) : R := rprod m (fun k => if Nat.eqb k i then 1 else Z i - Z k)%R.
Definition qpart (nv : nat) (Z : nat -> R) (x : R) (i k : nat) : R :=
  rprod nv (fun n => if Nat.eqb n k then 1 else if Nat.eqb n i then 1 else x - Z n)%R.
Definition qgrad (nv : nat) (Z : nat -> R) (x : R) (i m : nat) : R :=
  rsum m (fun k => if Nat.eqb k i then 0 else qpart nv Z x i k)%R.

Lemma qden_neq0 N Z i m : distinct N Z -> i < N -> m <= N -> qden Z i m <> 0%R.
Proof.
  intros D Hi Hm. apply rprod_neq0. intros k Hk. destruct (Nat.eqb_spec k i); [lra|].
  intros E. apply (D i k); try lia. lra.
Qed.

Lemma rprod_div m (f g : nat -> R) : (forall k, k < m -> g k <> 0%R) ->
  (rprod m f / rprod m g)%R = rprod m (fun k => f k / g k)%R.
Proof. intros H. unfold Rdiv. rewrite <- rprod_inv by exact H. rewrite <- rprod_mult. reflexivity. Qed.

Lemma q_ell N Z x i : distinct N Z -> i < N -> (qnum Z x i N / qden Z i N)%R = ell N Z i x.
Proof.
  intros D Hi. unfold qnum, qden, ell. rewrite rprod_div.
  - apply rprod_ext. intros k Hk. destruct (Nat.eqb_spec k i); [lra|reflexivity].
  - intros k Hk. destruct (Nat.eqb_spec k i); [lra|]. intros E. apply (D i k); try lia. lra.
Qed.

Lemma q_dell N Z x i : distinct N Z -> i < N -> (qgrad N Z x i N / qden Z i N)%R = dell N Z i x.
Proof.
  intros D Hi. unfold qgrad, dell. unfold Rdiv at 1. rewrite <- rsum_scal_r. apply rsum_ext. intros k Hk.
  destruct (Nat.eqb_spec k i) as [->|Hki]; [ring|].
  unfold qpart, qden. rewrite (rprod_split N k (fun k0 => if Nat.eqb k0 i then 1 else Z i - Z k0)%R) by exact Hk.
  destruct (Nat.eqb_spec k i) as [|_]; [contradiction|].
  assert (Zk : (Z i - Z k <> 0)%R) by (intros E; apply (D i k); try lia; lra).
  assert (G : forall n, n < N -> (if Nat.eqb n k then 1 else if Nat.eqb n i then 1 else Z i - Z n)%R <> 0%R).
  { intros n Hn'. destruct (Nat.eqb_spec n k); [lra|]. destruct (Nat.eqb_spec n i); [lra|].
    intros E. apply (D i n); try lia; lra. }
  rewrite Rinv_mult. rewrite (Rmult_comm (/ (Z i - Z k))). rewrite <- Rmult_assoc.
  change (rprod N (fun u0 => if Nat.eqb u0 k then 1 else if Nat.eqb u0 i then 1 else x - Z u0) *
    / rprod N (fun u1 => if Nat.eqb u1 k then 1 else if Nat.eqb u1 i then 1 else Z i - Z u1))%R with
   (rprod N (fun w0 => if Nat.eqb w0 k then 1 else if Nat.eqb w0 i then 1 else x - Z w0) /
    rprod N (fun w1 => if Nat.eqb w1 k then 1 else if Nat.eqb w1 i then 1 else Z i - Z w1))%R.
  rewrite rprod_div by exact G. rewrite Rmult_comm. f_equal. apply rprod_ext. intros n' Hn'.
  destruct (Nat.eqb_spec n' k); [lra|]. destruct (Nat.eqb_spec n' i); [lra|reflexivity].
Qed.

Lemma lag_value_ok N vs Z x i : distinct N Z -> holds N vs Z -> i < N -> lag_value N vs x i = Ok (ell N Z i x).
Proof.
  intros D Hv Hi. unfold lag_value.
  edestruct (loop_inv (fun m '(n, d, q) => n = qnum Z x i m /\ d = qden Z i m /\ (0 < m -> q = (n / d)%R)) N) as ([[n d] q] & E & H1 & H2 & H3).
  3: { rewrite E. cbn [bind]. rewrite H3, H1, H2 by lia. f_equal. apply q_ell; assumption. }
  - cbv beta iota. unfold qnum, qden. cbn [rprod]. split; [reflexivity|]. split; [reflexivity|]. lia.
  - intros m [[n d] q] Hm (-> & -> & _).
    assert (En : qnum Z x i (S m) = (qnum Z x i m * (if Nat.eqb m i then 1 else x - Z m))%R) by reflexivity.
    assert (Ed : qden Z i (S m) = (qden Z i m * (if Nat.eqb m i then 1 else Z i - Z m))%R) by reflexivity.
    assert (Q : qden Z i (S m) <> 0%R) by (apply (qden_neq0 N); [assumption|assumption|lia]).
    destruct (Nat.eqb_spec m i) as [e|e]; cbn [negb bind].
    + rewrite Rmult_1_r in En, Ed. rewrite <- En, <- Ed. rewrite rdiv_ok by exact Q. cbn [bind].
      eexists. split; [reflexivity|]. cbv beta iota. auto.
    + rewrite (Hv m) by lia. rewrite (Hv i) by lia. cbn [bind]. rewrite <- En, <- Ed. rewrite rdiv_ok by exact Q. cbn [bind].
      eexists. split; [reflexivity|]. cbv beta iota. auto.
Qed.

Lemma lag_prod_ok N vs Z x i j : holds N vs Z -> lag_prod N vs x i j = Ok (qpart N Z x i j).
Proof.
  intros Hv. unfold lag_prod.
  edestruct (loop_inv (fun m p => p = rprod m (fun n => if Nat.eqb n j then 1 else if Nat.eqb n i then 1 else x - Z n)%R) N) as (p & E & H).
  3: { rewrite E, H. reflexivity. }
  - reflexivity.
  - intros m p Hm ->. cbn [rprod]. destruct (Nat.eqb_spec m j); destruct (Nat.eqb_spec m i); cbn [negb andb].
    1-3: eexists; split; [reflexivity|ring].
    rewrite (Hv m) by lia. cbn [bind]. eexists. split; reflexivity.
Qed.

Lemma lag_deriv_ok N vs Z x i : distinct N Z -> holds N vs Z -> i < N -> lag_deriv N vs x i = Ok (dell N Z i x).
Proof.
  intros D Hv Hi. unfold lag_deriv.
  edestruct (loop_inv (fun m '(n, d, q) => n = qgrad N Z x i m /\ d = qden Z i m /\ (0 < m -> q = (n / d)%R)) N) as ([[n d] q] & E & H1 & H2 & H3).
  3: { rewrite E. cbn [bind]. rewrite H3, H1, H2 by lia. f_equal. apply q_dell; assumption. }
  - cbv beta iota. unfold qgrad, qden. cbn [rprod rsum]. split; [reflexivity|]. split; [reflexivity|]. lia.
  - intros m [[n d] q] Hm (-> & -> & _).
    assert (En : qgrad N Z x i (S m) = (qgrad N Z x i m + (if Nat.eqb m i then 0 else qpart N Z x i m))%R) by reflexivity.
    assert (Ed : qden Z i (S m) = (qden Z i m * (if Nat.eqb m i then 1 else Z i - Z m))%R) by reflexivity.
    assert (Q : qden Z i (S m) <> 0%R) by (apply (qden_neq0 N); [assumption|assumption|lia]).
    destruct (Nat.eqb_spec m i) as [e|e]; cbn [negb bind].
    + rewrite Rmult_1_r in Ed. rewrite Rplus_0_r in En. rewrite <- En, <- Ed. rewrite rdiv_ok by exact Q. cbn [bind].
      eexists. split; [reflexivity|]. cbv beta iota. auto.
    + rewrite (Hv m) by lia. rewrite (Hv i) by lia. cbn [bind]. rewrite (lag_prod_ok N vs Z) by assumption. cbn [bind].
      rewrite <- En, <- Ed. rewrite rdiv_ok by exact Q. cbn [bind].
      eexists. split; [reflexivity|]. cbv beta iota. auto.
Qed.

(** filling the first n entries of an array *)
Lemma fill_ok n (f : nat -> res R) (g : nat -> R) (a : list (option R)) : n <= length a -> (forall i, i < n -> f i = Ok (g i)) ->
  exists a', loop n (fun i a => do v <- f i; set a i (Some v)) a = Ok a' /\ length a' = length a /\ holds n a' g.
Proof.
  intros L Hf.
  edestruct (loop_inv (fun m b => length b = length a /\ holds m b g) n) as (b & E & H1 & H2).
  3: { exists b. split; [exact E|]. split; assumption. }
  - split; [reflexivity|]. intros i Hi. lia.
  - intros m b Hm (Lb & Hb). rewrite Hf by exact Hm. cbn [bind]. rewrite set_ok by lia. eexists. split; [reflexivity|].
    rewrite upd_length. split; [exact Lb|]. intros i Hi. apply getu_nth. rewrite nth_upd by lia.
    destruct (Nat.eqb_spec i m) as [->|]; [reflexivity|]. apply getu_ok. apply Hb. lia.
Qed.

Lemma basis_1D_ok N vs Z x a : distinct N Z -> holds N vs Z -> N <= length a ->
  exists a', lagrange_basis_1D N vs a x = Ok a' /\ length a' = length a /\ holds N a' (fun i => ell N Z i x).
Proof. intros D Hv L. apply fill_ok; [exact L|]. intros i Hi. apply lag_value_ok; assumption. Qed.
Lemma deriv_1D_ok N vs Z x a : distinct N Z -> holds N vs Z -> N <= length a ->
  exists a', lagrange_derivative_1D N vs a x = Ok a' /\ length a' = length a /\ holds N a' (fun i => dell N Z i x).
Proof. intros D Hv L. apply fill_ok; [exact L|]. intros i Hi. apply lag_deriv_ok; assumption. Qed.

(** direction d of a per-direction array *)
Definition dir_holds (n d : nat) (v3 : list (option R)) (g : nat -> R) : Prop := forall i, i < n -> getu v3 (i * 3 + d) = Ok (g i).

Lemma save_dir_ok n d v1 v3 g : d < 3 -> n <= length v1 -> length v3 = n * 3 -> holds n v1 g ->
  exists v1' v3', save_dir n d v1 v3 = Ok (v1', v3') /\ length v1' = length v1 /\ length v3' = n * 3 /\ dir_holds n d v3' g /\
    forall d' g', d' < 3 -> d' <> d -> dir_holds n d' v3 g' -> dir_holds n d' v3' g'.
Proof.
  intros Hd L1 L3 Hg. unfold save_dir.
  edestruct (loop_inv (fun m '(a, b) => length a = length v1 /\ length b = n * 3 /\ (forall i, m <= i -> i < n -> getu a i = Ok (g i)) /\
     (forall i, i < m -> getu b (i * 3 + d) = Ok (g i)) /\
     forall d' g', d' < 3 -> d' <> d -> dir_holds n d' v3 g' -> dir_holds n d' b g') n) as ([a b] & E & H1 & H2 & H3 & H4 & H5).
  3: { exists a, b. split; [exact E|]. repeat (split; [assumption|]). assumption. }
  - cbv beta iota. split; [reflexivity|]. split; [exact L3|]. split; [intros; apply Hg; lia|]. split; [intros; lia|]. auto.
  - intros m [a b] Hm (A1 & A2 & A3 & A4 & A5). rewrite A3 by lia. cbn [bind].
    rewrite (set_ok b) by lia. cbn [bind]. rewrite (set_ok a) by lia. cbn [bind]. eexists. split; [reflexivity|]. cbv beta iota.
    rewrite !upd_length. split; [exact A1|]. split; [exact A2|]. split; [|split].
    + intros i H1 H2. apply getu_nth. rewrite nth_upd_neq by lia. apply getu_ok. apply A3; lia.
    + intros i Hi. apply getu_nth. rewrite nth_upd by lia. destruct (Nat.eqb_spec (i * 3 + d) (m * 3 + d)).
      * assert (i = m) by lia. subst. reflexivity.
      * apply getu_ok. apply A4. lia.
    + intros d' g' Hd' Hne Hg' i Hi. apply getu_nth. rewrite nth_upd_neq by lia. apply getu_ok. apply (A5 d' g'); assumption.
Qed.

Lemma tensor_ok n a0 a1 a2 f g h out : n * n * n <= length out ->
  dir_holds n 0 a0 f -> dir_holds n 1 a1 g -> dir_holds n 2 a2 h ->
  exists o, tensor_out n a0 a1 a2 out = Ok o /\ length o = length out /\
   (forall i j k, i < n -> j < n -> k < n -> getu o (rid n i j k) = Ok (f i * g j * h k)%R) /\
   forall q, n * n * n <= q -> nth q o None = nth q out None.
Proof.
  intros L Hf Hg Hh. unfold tensor_out.
  rewrite (loop3 n n n (fun k j i o => do x <- getu a0 (i * 3 + 0); do y <- getu a1 (j * 3 + 1); do z <- getu a2 (k * 3 + 2);
    set o (rid n i j k) (Some (x * y * z)%R))).
  edestruct (loop_inv (fun q o => length o = length out /\ (forall q', q' < q ->
     getu o q' = Ok (f (q' mod n)%nat * g (q' / n mod n)%nat * h (q' / n / n)%nat)%R) /\ forall q', n * n * n <= q' -> nth q' o None = nth q' out None) (n * n * n)) as (o & E & H1 & H2 & H3).
  3: { exists o. split; [exact E|]. split; [exact H1|]. split; [|exact H3]. intros i j k Hi Hj Hk. rewrite H2 by (apply rid_lt; assumption).
       destruct (rid_dec n i j k Hi Hj) as (-> & -> & ->). reflexivity. }
  - split; [reflexivity|]. split; [intros; lia|reflexivity].
  - intros q o Hq (H1 & H2 & H3). destruct (pos3 n q Hq) as (P1 & P2 & P3 & P4).
    rewrite Hf, Hg, Hh by assumption. cbn [bind]. rewrite <- P4. rewrite set_ok by lia. eexists. split; [reflexivity|].
    rewrite upd_length. split; [exact H1|]. split.
    + intros q' Hq'. apply getu_nth. rewrite nth_upd by lia. destruct (Nat.eqb_spec q' q) as [->|]; [reflexivity|].
      apply getu_ok. apply H2. lia.
    + intros q' Hq'. rewrite nth_upd_neq by lia. apply H3. exact Hq'.
Qed.

(** what one evaluation routine leaves in the caller's array *)
Definition filled (n : nat) (out o : list (option R)) (F : nat -> nat -> nat -> R) : Prop :=
  length o = length out /\
  (forall i j k, i < n -> j < n -> k < n -> getu o (rid n i j k) = Ok (F i j k)) /\
  forall q, n * n * n <= q -> nth q o None = nth q out None.

Ltac lag1d H := let a := fresh "a" in let E := fresh "E" in let L := fresh "L" in let P := fresh "P" in
  edestruct H as (a & E & L & P);
   [eassumption|eassumption| |rewrite E; clear E; cbn [bind]]; [rewrite ?repeat_length in *; lia|].
Ltac sav := match goal with |- context [save_dir ?n ?d ?a ?b] => 
   match goal with P : holds n a ?g |- _ =>
   let v1 := fresh "v" in let v3 := fresh "w" in let E := fresh "E" in let L1 := fresh "L" in let L3 := fresh "L" in
   let P1 := fresh "P" in let P2 := fresh "K" in
   destruct (save_dir_ok n d a b g) as (v1 & v3 & E & L1 & L3 & P1 & P2);
   [lia|rewrite ?repeat_length in *; lia|rewrite ?repeat_length in *; lia|exact P|rewrite E; clear E; cbn [bind]]  end end.

Lemma hexn_basis_ok h Z out x y z : distinct (hx_nv h) Z -> holds (hx_nv h) (hx_verts1 h) Z ->
  hx_nv h * hx_nv h * hx_nv h <= length out ->
  exists o, hexn_basis h out x y z = Ok o /\
    filled (hx_nv h) out o (fun i j k => ell (hx_nv h) Z i x * ell (hx_nv h) Z j y * ell (hx_nv h) Z k z)%R.
Proof.
  intros D Hv L. unfold hexn_basis. cbv zeta. set (n := hx_nv h) in *. set (vs := hx_verts1 h) in *.
  lag1d (basis_1D_ok n vs Z x (repeat None n)). sav.
  lag1d (basis_1D_ok n vs Z y v). sav.
  lag1d (basis_1D_ok n vs Z z v0). sav.
  destruct (tensor_ok n w1 w1 w1 (fun i => ell n Z i x) (fun i => ell n Z i y) (fun i => ell n Z i z) out) as (o & E & O); [exact L| | | |exists o; split; [exact E|exact O]].
  - apply K1; [lia|lia|]. apply K0; [lia|lia|]. exact P0.
  - apply K1; [lia|lia|]. exact P2.
  - exact P4.
Qed.

Lemma hexn_xi_ok h Z out x y z : distinct (hx_nv h) Z -> holds (hx_nv h) (hx_verts1 h) Z ->
  hx_nv h * hx_nv h * hx_nv h <= length out ->
  exists o, hexn_partial_xi h out x y z = Ok o /\
    filled (hx_nv h) out o (fun i j k => dell (hx_nv h) Z i x * ell (hx_nv h) Z j y * ell (hx_nv h) Z k z)%R.
Proof.
  intros D Hv L. unfold hexn_partial_xi. cbv zeta. set (n := hx_nv h) in *. set (vs := hx_verts1 h) in *.
  lag1d (deriv_1D_ok n vs Z x (repeat None n)). sav.
  lag1d (basis_1D_ok n vs Z y (repeat None n)). sav.
  lag1d (basis_1D_ok n vs Z z v0). sav.
  destruct (tensor_ok n w w1 w1 (fun i => dell n Z i x) (fun i => ell n Z i y) (fun i => ell n Z i z) out) as (o & E & O); [exact L| | | |exists o; split; [exact E|exact O]].
  - exact P0.
  - apply K1; [lia|lia|]. exact P2.
  - exact P4.
Qed.

Lemma hexn_eta_ok h Z out x y z : distinct (hx_nv h) Z -> holds (hx_nv h) (hx_verts1 h) Z ->
  hx_nv h * hx_nv h * hx_nv h <= length out ->
  exists o, hexn_partial_eta h out x y z = Ok o /\
    filled (hx_nv h) out o (fun i j k => ell (hx_nv h) Z i x * dell (hx_nv h) Z j y * ell (hx_nv h) Z k z)%R.
Proof.
  intros D Hv L. unfold hexn_partial_eta. cbv zeta. set (n := hx_nv h) in *. set (vs := hx_verts1 h) in *.
  lag1d (basis_1D_ok n vs Z x (repeat None n)). sav.
  lag1d (deriv_1D_ok n vs Z y (repeat None n)). sav.
  lag1d (basis_1D_ok n vs Z z v). sav.
  destruct (tensor_ok n w1 w0 w1 (fun i => ell n Z i x) (fun i => dell n Z i y) (fun i => ell n Z i z) out) as (o & E & O); [exact L| | | |exists o; split; [exact E|exact O]].
  - apply K1; [lia|lia|]. exact P0.
  - exact P2.
  - exact P4.
Qed.

Lemma hexn_mu_ok h Z out x y z : distinct (hx_nv h) Z -> holds (hx_nv h) (hx_verts1 h) Z ->
  hx_nv h * hx_nv h * hx_nv h <= length out ->
  exists o, hexn_partial_mu h out x y z = Ok o /\
    filled (hx_nv h) out o (fun i j k => ell (hx_nv h) Z i x * ell (hx_nv h) Z j y * dell (hx_nv h) Z k z)%R.
Proof.
  intros D Hv L. unfold hexn_partial_mu. cbv zeta. set (n := hx_nv h) in *. set (vs := hx_verts1 h) in *.
  lag1d (basis_1D_ok n vs Z x (repeat None n)). sav.
  lag1d (basis_1D_ok n vs Z y v). sav.
  lag1d (deriv_1D_ok n vs Z z (repeat None n)). sav.
  destruct (tensor_ok n w0 w0 w1 (fun i => ell n Z i x) (fun i => ell n Z i y) (fun i => dell n Z i z) out) as (o & E & O); [exact L| | | |exists o; split; [exact E|exact O]].
  - apply K0; [lia|lia|]. exact P0.
  - exact P2.
  - exact P4.
Qed.
