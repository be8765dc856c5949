(** The BLAS/LAPACK wrappers: proofs. *)
From Coq Require Import Reals ZArith List Arith Bool Lia Lra.
Import ListNotations.
Require Import Verif.Base Verif.RSum Verif.Spec_Mat Verif.Det Verif.LinAlg Verif.Model_Blas Verif.Spec_Blas Verif.Proof_Box.
Local Open Scope nat_scope.

(** * generic: loops that fail with a given error *)
Lemma loop_from_err {S} (P : nat -> S -> Prop) (e : err) k lo n body s0 :
  P lo s0 ->
  (forall i s, lo <= i < lo + n -> P i s -> (exists s', body i s = Ok s' /\ P (Datatypes.S i) s') \/ body i s = Err e) ->
  lo <= k < lo + n -> (forall s, P k s -> body k s = Err e) ->
  loop_from lo n body s0 = Err e.
Proof.
  revert lo s0. induction n as [|n IH]; intros lo s0 H0 Hs Hk He; [lia|]. cbn.
  destruct (Nat.eq_dec lo k) as [->|Ne]; [rewrite He by exact H0; reflexivity|].
  destruct (Hs lo s0 ltac:(lia) H0) as [(s1 & -> & P1)| ->]; [|reflexivity]. cbn.
  apply IH; [exact P1| |lia|exact He]. intros i s Hi. apply Hs. lia.
Qed.
Lemma loop_err {S} (P : nat -> S -> Prop) (e : err) k n body s0 :
  P 0 s0 ->
  (forall i s, i < n -> P i s -> (exists s', body i s = Ok s' /\ P (Datatypes.S i) s') \/ body i s = Err e) ->
  k < n -> (forall s, P k s -> body k s = Err e) ->
  loop n body s0 = Err e.
Proof. intros H0 Hs Hk He. apply (loop_from_err P e k); try assumption; [|lia]. intros i s Hi. apply Hs. lia. Qed.
(** a loop each of whose steps succeeds or fails with e *)
Lemma loop_from_or {S} (P : nat -> S -> Prop) (e : err) lo n body s0 :
  P lo s0 ->
  (forall i s, lo <= i < lo + n -> P i s -> (exists s', body i s = Ok s' /\ P (Datatypes.S i) s') \/ body i s = Err e) ->
  (exists s', loop_from lo n body s0 = Ok s' /\ P (lo + n) s') \/ loop_from lo n body s0 = Err e.
Proof.
  revert lo s0. induction n as [|n IH]; intros lo s0 H0 Hs; cbn.
  - left. exists s0. rewrite Nat.add_0_r. auto.
  - destruct (Hs lo s0 ltac:(lia) H0) as [(s1 & -> & P1)| ->]; [|right; reflexivity]. cbn.
    replace (lo + Datatypes.S n) with (Datatypes.S lo + n) by lia. apply IH; [exact P1|]. intros i s Hi. apply Hs. lia.
Qed.
Lemma loop_or {S} (P : nat -> S -> Prop) (e : err) n body s0 :
  P 0 s0 ->
  (forall i s, i < n -> P i s -> (exists s', body i s = Ok s' /\ P (Datatypes.S i) s') \/ body i s = Err e) ->
  (exists s', loop n body s0 = Ok s' /\ P n s') \/ loop n body s0 = Err e.
Proof. intros H0 Hs. apply (loop_from_or P e 0 n). - exact H0. - intros i s Hi. apply Hs. lia. Qed.

Lemma getu_some {A} (l : list (option A)) i v : nth_error l i = Some (Some v) -> getu l i = Ok v.
Proof. unfold getu. intros ->. reflexivity. Qed.
Lemma getu_none {A} (l : list (option A)) i : nth_error l i = Some None -> getu l i = Err Uninit.
Proof. unfold getu. intros ->. reflexivity. Qed.
Lemma getu_in {A} (l : list (option A)) i : i < length l -> (exists v, getu l i = Ok v) \/ getu l i = Err Uninit.
Proof. intros H. unfold getu. destruct (nth_error l i) as [[v|]|] eqn:E; eauto. apply nth_error_None in E. lia. Qed.

(** * reading and writing arrays *)
Lemma ltb_t a b : a < b -> (a <? b) = true.
Proof. apply Nat.ltb_lt. Qed.
Lemma idx_lt m n i j : i < m -> j < n -> i * n + j < m * n.
Proof. nia. Qed.
Lemma idx_inj n i j i' j' : j < n -> j' < n -> i * n + j = i' * n + j' -> i = i' /\ j = j'.
Proof. intros. assert (i = i') by nia. subst. lia. Qed.
Lemma cidx_inj m i j i' j' : i < m -> i' < m -> i + m * j = i' + m * j' -> i = i' /\ j = j'.
Proof. intros. assert (j = j') by nia. subst. lia. Qed.
Lemma cidx_lt m n i j : i < m -> j < n -> i + m * j < m * n.
Proof. nia. Qed.

Lemma get2_mat A m n M i j : is_mat A m n M -> i < m -> j < n -> get2 A i j = Ok (M i j).
Proof.
  intros ((D & L) & H) Hi Hj. unfold get2. rewrite D, !ltb_t by assumption. cbn [andb]. apply getu_some. apply H; assumption.
Qed.
Lemma set2_ok A m n i j v : array2 A m n -> i < m -> j < n ->
  exists A', set2 A i j v = Ok A' /\ array2 A' m n /\ cells A' = upd (cells A) (i * n + j) (Some v).
Proof.
  intros (D & L) Hi Hj. unfold set2. rewrite D, !ltb_t by assumption. cbn [andb]. rewrite set_ok by (rewrite L; apply idx_lt; assumption). cbn [bind].
  eexists. split; [reflexivity|]. split; [|reflexivity]. split; [reflexivity|]. cbn. rewrite upd_length. exact L.
Qed.
Lemma set2_entry A m n i j v A' i' j' : array2 A m n -> i < m -> j < n -> i' < m -> j' < n ->
  cells A' = upd (cells A) (i * n + j) (Some v) ->
  nth_error (cells A') (i' * n + j') = if (i' =? i) && (j' =? j) then Some (Some v) else nth_error (cells A) (i' * n + j').
Proof.
  intros (D & L) Hi Hj Hi' Hj' ->. rewrite upd_nth by (rewrite L; apply idx_lt; assumption).
  destruct (Nat.eqb_spec (i' * n + j') (i * n + j)) as [E|N].
  - apply idx_inj in E; try assumption. destruct E as (-> & ->). rewrite !Nat.eqb_refl. reflexivity.
  - destruct (Nat.eqb_spec i' i) as [->|]; [|reflexivity]. destruct (Nat.eqb_spec j' j) as [->|]; [contradiction|reflexivity].
Qed.

(** * transposition *)
Lemma transpose_ok A B m n M : is_mat A m n M -> array2 B n m -> exists B', transpose A B = Ok B' /\ is_mat B' n m (fun i j => M j i).
Proof.
  intros HA HB. pose proof HA as ((DA & LA) & _). pose proof HB as (DB & LB). unfold transpose. rewrite DA, DB, !Nat.eqb_refl. cbn [andb].
  destruct (loop_inv (fun i B => array2 B n m /\ forall i' j', i' < i -> j' < n -> entry B m j' i' (M i' j')) m
    (fun i B => loop n (fun j B => do v <- get2 A i j; set2 B j i v) B) B) as (B' & E & HB' & H).
  - split; [exact HB|intros; lia].
  - intros i B0 Hi (A0 & H0).
    destruct (loop_inv (fun j B => array2 B n m /\ (forall i' j', i' < i -> j' < n -> entry B m j' i' (M i' j')) /\ forall j', j' < j -> entry B m j' i (M i j')) n
      (fun j B => do v <- get2 A i j; set2 B j i v) B0) as (B1 & E1 & A1 & H1 & H2).
    + split; [exact A0|]. split; [exact H0|intros; lia].
    + intros j B1 Hj (A1 & H1 & H2). rewrite (get2_mat A m n M) by assumption. cbn [bind].
      destruct (set2_ok B1 n m j i (M i j)) as (B2 & E2 & A2 & C2); try assumption. exists B2. split; [exact E2|]. split; [exact A2|]. unfold entry in *. split.
      * intros i' j' Hi' Hj'. rewrite (set2_entry B1 n m j i (M i j)) by (assumption || lia). destruct (Nat.eqb_spec i' i); [lia|]. rewrite andb_false_r. apply H1; assumption.
      * intros j' Hj'. rewrite (set2_entry B1 n m j i (M i j)) by (assumption || lia). rewrite Nat.eqb_refl, andb_true_r. destruct (Nat.eqb_spec j' j) as [->|]; [reflexivity|]. apply H2. lia.
    + exists B1. split; [exact E1|]. split; [exact A1|]. intros i' j' Hi' Hj'. destruct (Nat.eq_dec i' i) as [->|]; [apply H2; assumption|apply H1; lia].
  - exists B'. split; [exact E|]. split; [exact HB'|]. intros i j Hi Hj. apply H; assumption.
Qed.

(** * packing *)
(** the only shapes that are packed correctly *)
Definition packs (m n : nat) : Prop := m = n \/ n = 1.

Lemma pack_ok A m n M : is_mat A m n M -> packs m n -> exists a, pack A m n = Ok a /\ length a = m * n /\
  forall i j, i < m -> j < n -> nth_error a (i + m * j) = Some (Some (M i j)).
Proof.
  intros HA HP. unfold pack.
  assert (Lt : forall i j, i < m -> j < n -> i + n * j < m * n) by (intros; destruct HP; subst; nia).
  assert (Inj : forall i j i' j', i < m -> i' < m -> j < n -> j' < n -> i + n * j = i' + n * j' -> i = i' /\ j = j').
  { intros i j i' j' H1 H2 H3 H4 E. destruct HP as [->| ->]; [apply (cidx_inj n); assumption|lia]. }
  destruct (loop_inv (fun i a => length a = m * n /\ forall i' j', i' < i -> j' < n -> nth_error a (i' + n * j') = Some (Some (M i' j'))) m
    (fun i a => loop n (fun j a => do v <- get2 A i j; set a (i + n * j) (Some v)) a) (repeat None (m * n))) as (a & E & L & H).
  - split; [apply repeat_length|intros; lia].
  - intros i a Hi (L & H).
    destruct (loop_inv (fun j a => length a = m * n /\ (forall i' j', i' < i -> j' < n -> nth_error a (i' + n * j') = Some (Some (M i' j'))) /\ forall j', j' < j -> nth_error a (i + n * j') = Some (Some (M i j'))) n
      (fun j a => do v <- get2 A i j; set a (i + n * j) (Some v)) a) as (a1 & E1 & L1 & H1 & H2).
    + split; [exact L|]. split; [exact H|intros; lia].
    + intros j a1 Hj (L1 & H1 & H2). rewrite (get2_mat A m n M) by assumption. cbn [bind]. rewrite set_ok by (rewrite L1; apply Lt; assumption).
      eexists. split; [reflexivity|]. rewrite upd_length. split; [exact L1|]. split.
      * intros i' j' Hi' Hj'. rewrite upd_nth by (rewrite L1; apply Lt; assumption). destruct (Nat.eqb_spec (i' + n * j') (i + n * j)) as [e|]; [|apply H1; assumption]. apply Inj in e; lia.
      * intros j' Hj'. rewrite upd_nth by (rewrite L1; apply Lt; assumption). destruct (Nat.eqb_spec (i + n * j') (i + n * j)) as [e|]; [apply Inj in e; try lia; destruct e as (_ & ->); reflexivity|]. apply H2. assert (j' <> j) by (intros ->; auto). lia.
    + exists a1. split; [exact E1|]. split; [exact L1|]. intros i' j' Hi' Hj'. destruct (Nat.eq_dec i' i) as [->|]; [apply H2; assumption|apply H1; lia].
  - exists a. split; [exact E|]. split; [exact L|]. intros i j Hi Hj. destruct HP as [<-| ->]; [apply H; assumption|]. replace (i + m * j) with (i + 1 * j) by nia. apply H; assumption.
Qed.

(** fewer rows than columns (and two columns or more): the packing writes outside the new array *)
Lemma pack_wide A m n M : is_mat A m n M -> 0 < m -> m < n -> pack A m n = Err OOB.
Proof.
  intros HA Hm Hn. unfold pack.
  assert (Step : forall i j (a : list (option R)), i < m -> j < n -> length a = m * n ->
    (exists a', (do v <- get2 A i j; set a (i + n * j) (Some v)) = Ok a' /\ length a' = m * n) \/ (do v <- get2 A i j; set a (i + n * j) (Some v)) = Err OOB).
  { intros i j a Hi Hj L. rewrite (get2_mat A m n M) by assumption. cbn [bind]. destruct (Nat.lt_ge_cases (i + n * j) (length a)) as [H|H].
    - left. rewrite set_ok by exact H. eexists. split; [reflexivity|]. rewrite upd_length. exact L.
    - right. apply set_oob. exact H. }
  apply (loop_err (fun _ (a : list (option R)) => length a = m * n) OOB (m - 1)).
  - apply repeat_length.
  - intros i a Hi L. apply (loop_or (fun _ (a : list (option R)) => length a = m * n) OOB n); [exact L|]. intros j a' Hj L'. apply Step; assumption.
  - lia.
  - intros a L. apply (loop_err (fun _ (a : list (option R)) => length a = m * n) OOB (n - 1)); [exact L| |lia|].
    + intros j a' Hj L'. apply Step; (assumption || lia).
    + intros a' L'. rewrite (get2_mat A m n M) by (assumption || lia). cbn [bind]. apply set_oob. rewrite L'. nia.
Qed.

(** more rows than columns, two columns or more: the last place is never written *)
Lemma pack_tall A m n M : is_mat A m n M -> 2 <= n -> n < m -> exists a, pack A m n = Ok a /\ length a = m * n /\ nth_error a (m - 1 + m * (n - 1)) = Some None.
Proof.
  intros HA Hn Hm. unfold pack. set (q := m - 1 + m * (n - 1)).
  assert (Lt : forall i j, i < m -> j < n -> i + n * j < q) by (intros; unfold q; nia).
  assert (Hq : q < m * n) by (unfold q; nia).
  destruct (loop_inv (fun _ (a : list (option R)) => length a = m * n /\ nth_error a q = Some None) m
    (fun i a => loop n (fun j a => do v <- get2 A i j; set a (i + n * j) (Some v)) a) (repeat None (m * n))) as (a & E & H).
  - split; [apply repeat_length|]. rewrite nth_error_repeat by exact Hq. reflexivity.
  - intros i a Hi (L & H). apply (loop_inv (fun _ (a : list (option R)) => length a = m * n /\ nth_error a q = Some None) n); [auto|].
    intros j a1 Hj (L1 & H1). rewrite (get2_mat A m n M) by assumption. cbn [bind]. specialize (Lt i j Hi Hj). rewrite set_ok by lia.
    eexists. split; [reflexivity|]. rewrite upd_length. split; [exact L1|]. rewrite upd_nth by lia. destruct (Nat.eqb_spec q (i + n * j)); [lia|exact H1].
  - exists a. split; [exact E|exact H].
Qed.

(** * matrix times vector *)
Lemma zero_loop (o m : nat) (y : list (option R)) : o + m <= length y ->
  exists y', loop m (fun i y => set y (i + o) (Some 0%R)) y = Ok y' /\ length y' = length y /\ (forall i, i < m -> nth_error y' (i + o) = Some (Some 0%R)) /\
    (forall q, q < o \/ o + m <= q -> nth_error y' q = nth_error y q).
Proof.
  intros Ho.
  destruct (loop_inv (fun k y' => length y' = length y /\ (forall i, i < k -> nth_error y' (i + o) = Some (Some 0%R)) /\ (forall q, q < o \/ o + m <= q -> nth_error y' q = nth_error y q)) m
    (fun i y => set y (i + o) (Some 0%R)) y) as (y' & E & H).
  - repeat split; intros; lia.
  - intros k y1 Hk (L & H & U). rewrite set_ok by lia. eexists. split; [reflexivity|]. rewrite upd_length. split; [exact L|]. split.
    + intros i Hi. rewrite upd_nth by lia. destruct (Nat.eqb_spec (i + o) (k + o)); [reflexivity|]. apply H. lia.
    + intros q Hq. rewrite upd_nth by lia. destruct (Nat.eqb_spec q (k + o)); [lia|]. apply U. exact Hq.
  - exists y'. split; [exact E|exact H].
Qed.
(** c[i+o] += t * a[i+p] for i < m *)
Definition axpy (m : nat) (t : R) (a : list (option R)) (p o : nat) (c : list (option R)) : res (list (option R)) :=
  loop m (fun i c => do v <- getu c (i + o); do w <- getu a (i + p); set c (i + o) (Some (v + t * w)%R)) c.
Lemma axpy_ok m t a p o (f g : nat -> R) c : o + m <= length c ->
  (forall i, i < m -> nth_error c (i + o) = Some (Some (f i))) -> (forall i, i < m -> nth_error a (i + p) = Some (Some (g i))) ->
  exists c', axpy m t a p o c = Ok c' /\ length c' = length c /\ (forall i, i < m -> nth_error c' (i + o) = Some (Some (f i + t * g i)%R)) /\
    (forall q, q < o \/ o + m <= q -> nth_error c' q = nth_error c q).
Proof.
  intros Ho Hf Hg. unfold axpy.
  destruct (loop_inv (fun k c' => length c' = length c /\ (forall i, i < k -> nth_error c' (i + o) = Some (Some (f i + t * g i)%R)) /\
    (forall i, k <= i < m -> nth_error c' (i + o) = Some (Some (f i))) /\ (forall q, q < o \/ o + m <= q -> nth_error c' q = nth_error c q)) m
    (fun i c => do v <- getu c (i + o); do w <- getu a (i + p); set c (i + o) (Some (v + t * w)%R)) c) as (c' & E & L & H & _ & U).
  - split; [reflexivity|]. split; [intros; lia|]. split; [intros; apply Hf; lia|reflexivity].
  - intros k c1 Hk (L & H & R & U). rewrite (getu_some _ _ (f k)) by (apply R; lia). cbn [bind]. rewrite (getu_some _ _ (g k)) by (apply Hg; exact Hk). cbn [bind].
    rewrite set_ok by lia. eexists. split; [reflexivity|]. rewrite upd_length. split; [exact L|]. split; [|split].
    + intros i Hi. rewrite upd_nth by lia. destruct (Nat.eqb_spec (i + o) (k + o)) as [e|]; [replace i with k by lia; reflexivity|]. apply H. lia.
    + intros i Hi. rewrite upd_nth by lia. destruct (Nat.eqb_spec (i + o) (k + o)) as [e|]; [lia|]. apply R. lia.
    + intros q Hq. rewrite upd_nth by lia. destruct (Nat.eqb_spec q (k + o)); [lia|]. apply U. exact Hq.
  - exists c'. auto.
Qed.
(** every place in range: it succeeds or meets unset memory, and the length stays *)
Lemma axpy_or m t a p o c : o + m <= length c -> p + m <= length a ->
  (exists c', axpy m t a p o c = Ok c' /\ length c' = length c) \/ axpy m t a p o c = Err Uninit.
Proof.
  intros Ho Hp. unfold axpy. apply (loop_or (fun _ c' => length c' = length c) Uninit m); [reflexivity|]. intros i c1 Hi L.
  destruct (getu_in c1 (i + o)) as [(v & ->)| ->]; [lia| |right; reflexivity]. cbn [bind]. destruct (getu_in a (i + p)) as [(w & ->)| ->]; [lia| |right; reflexivity]. cbn [bind].
  left. rewrite set_ok by lia. eexists. split; [reflexivity|]. rewrite upd_length. exact L.
Qed.
Lemma axpy_unset m t a p o c k : o + m <= length c -> p + m <= length a -> k < m -> nth_error a (k + p) = Some None -> axpy m t a p o c = Err Uninit.
Proof.
  intros Ho Hp Hk Hn. unfold axpy. apply (loop_err (fun _ c' => length c' = length c) Uninit k); [reflexivity| |exact Hk|].
  - intros i c1 Hi L.
    destruct (getu_in c1 (i + o)) as [(v & ->)| ->]; [lia| |right; reflexivity]. cbn [bind]. destruct (getu_in a (i + p)) as [(w & ->)| ->]; [lia| |right; reflexivity]. cbn [bind].
    left. rewrite set_ok by lia. eexists. split; [reflexivity|]. rewrite upd_length. exact L.
  - intros c1 L. destruct (getu_in c1 (k + o)) as [(v & ->)| ->]; [lia| |reflexivity]. cbn [bind]. rewrite (getu_none _ _ Hn). reflexivity.
Qed.

Lemma dgemv_form m n a lda x y : 0 < m -> 0 < n -> m <= lda ->
  dgemv m n a lda x y = (do y <- loop m (fun i y => set y (i + 0) (Some 0%R)) y; loop n (fun j y => do t <- getu x j; axpy m t a (lda * j) 0 y) y).
Proof.
  intros Hm Hn Hl. unfold dgemv. destruct (Nat.ltb_spec lda (Nat.max 1 m)); [lia|]. destruct (Nat.eqb_spec m 0); [lia|]. destruct (Nat.eqb_spec n 0); [lia|]. cbn [orb].
  rewrite (loop_ext m (fun i y => set y (i + 0) (Some 0%R)) (fun i y => set y i (Some 0%R))) by (intros; rewrite Nat.add_0_r; reflexivity).
  destruct (loop m (fun i y => set y i (Some 0%R)) y) as [y1|]; [|reflexivity]. cbn [bind]. apply loop_ext. intros j y2 Hj. destruct (getu x j) as [t|]; [|reflexivity]. cbn [bind].
  unfold axpy. apply loop_ext. intros i y3 Hi. rewrite Nat.add_0_r. reflexivity.
Qed.

Lemma matvec_ok A x y m n M v : 0 < m -> 0 < n -> is_mat A m n M -> is_vec x n v -> array1 y m -> packs m n ->
  exists y', matvec A x y = Ok y' /\ is_vec y' m (fun i => rsum n (fun j => M i j * v j)%R).
Proof.
  intros Hm Hn HA ((Dx & Lx) & Hx) (Dy & Ly) HP. pose proof HA as ((DA & LA) & _). unfold matvec. rewrite DA, Dx, Dy, !Nat.eqb_refl. cbn [andb].
  destruct (pack_ok A m n M HA HP) as (a & -> & La & Ha). cbn [bind]. rewrite dgemv_form by lia.
  destruct (zero_loop 0 m (cells y)) as (y0 & -> & L0 & H0 & _); [lia|]. cbn [bind].
  destruct (loop_inv (fun k y' => length y' = m /\ forall i, i < m -> nth_error y' (i + 0) = Some (Some (rsum k (fun j => M i j * v j)%R))) n
    (fun j y => do t <- getu (cells x) j; axpy m t a (m * j) 0 y) y0) as (y1 & E & L1 & H1).
  - split; [lia|]. exact H0.
  - intros k y' Hk (L & H). rewrite (getu_some _ _ (v k)) by (apply Hx; exact Hk). cbn [bind].
    destruct (axpy_ok m (v k) a (m * k) 0 (fun i => rsum k (fun j => M i j * v j)%R) (fun i => M i k) y') as (y2 & E2 & L2 & H2 & _); [lia|exact H|intros; apply Ha; assumption|].
    exists y2. split; [exact E2|]. split; [lia|]. intros i Hi. rewrite H2 by exact Hi. cbn [rsum]. do 2 f_equal. ring.
  - rewrite E. cbn [bind]. eexists. split; [reflexivity|]. split; [split; [reflexivity|exact L1]|]. intros i Hi. cbn. rewrite <- H1 by exact Hi. rewrite Nat.add_0_r. reflexivity.
Qed.

Lemma matvec_wide A x y m n M : 0 < m -> m < n -> is_mat A m n M -> array1 x n -> array1 y m -> matvec A x y = Err OOB.
Proof.
  intros Hm Hn HA (Dx & Lx) (Dy & Ly). pose proof HA as ((DA & LA) & _). unfold matvec. rewrite DA, Dx, Dy, !Nat.eqb_refl. cbn [andb].
  rewrite (pack_wide A m n M) by assumption. reflexivity.
Qed.

Lemma matvec_tall A x y m n M : 2 <= n -> n < m -> is_mat A m n M -> array1 x n -> array1 y m -> matvec A x y = Err Uninit.
Proof.
  intros Hn Hm HA (Dx & Lx) (Dy & Ly). pose proof HA as ((DA & LA) & _). unfold matvec. rewrite DA, Dx, Dy, !Nat.eqb_refl. cbn [andb].
  destruct (pack_tall A m n M HA Hn Hm) as (a & -> & La & Ha). cbn [bind]. rewrite dgemv_form by lia.
  destruct (zero_loop 0 m (cells y)) as (y0 & -> & L0 & _); [lia|]. cbn [bind].
  rewrite (loop_err (fun _ (y' : list (option R)) => length y' = m) Uninit (n - 1)); [reflexivity|lia| |lia|].
  - intros j y' Hj L. destruct (getu_in (cells x) j) as [(t & ->)| ->]; [lia| |right; reflexivity]. cbn [bind].
    destruct (axpy_or m t a (m * j) 0 y') as [(y2 & E & L2)|E]; [lia|nia| |right; exact E]. left. exists y2. split; [exact E|lia].
  - intros y' L. destruct (getu_in (cells x) (n - 1)) as [(t & ->)| ->]; [lia| |reflexivity]. cbn [bind].
    apply (axpy_unset m t a _ 0 y' (m - 1)); [lia|nia|lia|exact Ha].
Qed.

(** * matrix times matrix *)
Lemma dgemm_form m n k a lda b ldb c ldc : 0 < m -> 0 < n -> 0 < k -> m <= lda -> k <= ldb -> m <= ldc ->
  dgemm m n k a lda b ldb c ldc = loop n (fun j c => do c <- loop m (fun i c => set c (i + ldc * j) (Some 0%R)) c;
    loop k (fun l c => do t <- getu b (l + ldb * j); axpy m t a (lda * l) (ldc * j) c) c) c.
Proof.
  intros Hm Hn Hk H1 H2 H3. unfold dgemm. destruct (Nat.ltb_spec lda (Nat.max 1 m)); [lia|]. destruct (Nat.ltb_spec ldb (Nat.max 1 k)); [lia|]. destruct (Nat.ltb_spec ldc (Nat.max 1 m)); [lia|].
  destruct (Nat.eqb_spec m 0); [lia|]. destruct (Nat.eqb_spec n 0); [lia|]. reflexivity.
Qed.

Lemma dgemm_ok m n k a b c P Q : 0 < m -> 0 < n -> 0 < k -> length c = m * n ->
  (forall i l, i < m -> l < k -> nth_error a (i + m * l) = Some (Some (P i l))) -> (forall l j, l < k -> j < n -> nth_error b (l + k * j) = Some (Some (Q l j))) ->
  exists c', dgemm m n k a m b k c m = Ok c' /\ length c' = m * n /\ forall i j, i < m -> j < n -> nth_error c' (i + m * j) = Some (Some (mmul k P Q i j)).
Proof.
  intros Hm Hn Hk Lc Ha Hb. rewrite dgemm_form by lia.
  destruct (loop_inv (fun j c' => length c' = m * n /\ forall i j', i < m -> j' < j -> nth_error c' (i + m * j') = Some (Some (mmul k P Q i j'))) n
    (fun j c => do c <- loop m (fun i c => set c (i + m * j) (Some 0%R)) c; loop k (fun l c => do t <- getu b (l + k * j); axpy m t a (m * l) (m * j) c) c) c) as (c' & E & L & H).
  - split; [exact Lc|intros; lia].
  - intros j c1 Hj (L & H). destruct (zero_loop (m * j) m c1) as (c2 & -> & L2 & H2 & U2); [nia|]. cbn [bind].
    destruct (loop_inv (fun l c' => length c' = m * n /\ (forall i j', i < m -> j' < j -> nth_error c' (i + m * j') = Some (Some (mmul k P Q i j'))) /\
       forall i, i < m -> nth_error c' (i + m * j) = Some (Some (rsum l (fun q => P i q * Q q j)%R))) k (fun l c => do t <- getu b (l + k * j); axpy m t a (m * l) (m * j) c) c2) as (c3 & E3 & L3 & H3 & H3').
    + split; [lia|]. split; [|exact H2]. intros i j' Hi Hj'. rewrite U2 by nia. apply H; assumption.
    + intros l c3 Hl (L3 & H3 & H3'). rewrite (getu_some _ _ (Q l j)) by (apply Hb; assumption). cbn [bind].
      destruct (axpy_ok m (Q l j) a (m * l) (m * j) (fun i => rsum l (fun q => P i q * Q q j)%R) (fun i => P i l) c3) as (c4 & E4 & L4 & H4 & U4); [nia|exact H3'|intros; apply Ha; assumption|].
      exists c4. split; [exact E4|]. split; [lia|]. split.
      * intros i j' Hi Hj'. rewrite U4 by nia. apply H3; assumption.
      * intros i Hi. rewrite H4 by exact Hi. cbn [rsum]. do 2 f_equal. ring.
    + exists c3. split; [exact E3|]. split; [exact L3|]. intros i j' Hi Hj'. destruct (Nat.eq_dec j' j) as [->|]; [apply H3'; exact Hi|apply H3; lia].
  - exists c'. split; [exact E|]. split; [exact L|exact H].
Qed.

Lemma dgemm_unset m n k a b c : 0 < m -> 0 < n -> 0 < k -> length a = m * k -> length b = k * n -> length c = m * n ->
  (exists i l, i < m /\ l < k /\ nth_error a (i + m * l) = Some None) \/ (exists l j, l < k /\ j < n /\ nth_error b (l + k * j) = Some None) ->
  dgemm m n k a m b k c m = Err Uninit.
Proof.
  intros Hm Hn Hk La Lb Lc Bad. rewrite dgemm_form by lia.
  assert (Step : forall j l (c' : list (option R)), j < n -> l < k -> length c' = m * n ->
    (exists c2, (do t <- getu b (l + k * j); axpy m t a (m * l) (m * j) c') = Ok c2 /\ length c2 = m * n) \/ (do t <- getu b (l + k * j); axpy m t a (m * l) (m * j) c') = Err Uninit).
  { intros j l c' Hj Hl L. destruct (getu_in b (l + k * j)) as [(t & ->)| ->]; [nia| |right; reflexivity]. cbn [bind].
    destruct (axpy_or m t a (m * l) (m * j) c') as [(y2 & E & L2)|E]; [nia|nia| |right; exact E]. left. exists y2. split; [exact E|lia]. }
  assert (Col : forall j (c' : list (option R)), j < n -> length c' = m * n -> exists c2, loop m (fun i c => set c (i + m * j) (Some 0%R)) c' = Ok c2 /\ length c2 = m * n).
  { intros j c' Hj L. destruct (zero_loop (m * j) m c') as (c2 & E & L2 & _); [nia|]. exists c2. split; [exact E|lia]. }
  assert (K : exists j0 l0, j0 < n /\ l0 < k /\ forall c' : list (option R), length c' = m * n -> (do t <- getu b (l0 + k * j0); axpy m t a (m * l0) (m * j0) c') = Err Uninit).
  { destruct Bad as [(i & l & Hi & Hl & N)|(l & j & Hl & Hj & N)].
    - exists 0, l. split; [exact Hn|]. split; [exact Hl|]. intros c' L. destruct (getu_in b (l + k * 0)) as [(t & ->)| ->]; [nia| |reflexivity]. cbn [bind]. apply (axpy_unset m t a _ _ c' i); [nia|nia|exact Hi|exact N].
    - exists j, l. split; [exact Hj|]. split; [exact Hl|]. intros c' L. rewrite (getu_none _ _ N). reflexivity. }
  destruct K as (j0 & l0 & Hj0 & Hl0 & K).
  apply (loop_err (fun _ (c' : list (option R)) => length c' = m * n) Uninit j0); [exact Lc| |exact Hj0|].
  - intros j c1 Hj L. destruct (Col j c1 Hj L) as (c2 & -> & L2). cbn [bind].
    apply (loop_or (fun _ (c' : list (option R)) => length c' = m * n) Uninit k); [exact L2|]. intros l c3 Hl L3. apply Step; assumption.
  - intros c1 L. destruct (Col j0 c1 Hj0 L) as (c2 & -> & L2). cbn [bind].
    apply (loop_err (fun _ (c' : list (option R)) => length c' = m * n) Uninit l0); [exact L2| |exact Hl0|].
    + intros l c3 Hl L3. apply Step; assumption.
    + intros c3 L3. apply K. exact L3.
Qed.

(** copying a column-major array into a CArray with at least m rows and n columns *)
Lemma copy_out C r s m n st c (X : mat) : array2 C r s -> m <= r -> n <= s ->
  (forall i j, i < m -> j < n -> nth_error c (i + st * j) = Some (Some (X i j))) ->
  exists C', loop n (fun j C => loop m (fun i C => do v <- getu c (i + st * j); set2 C i j v) C) C = Ok C' /\ array2 C' r s /\
    (forall i j, i < m -> j < n -> entry C' s i j (X i j)) /\
    (forall i j, i < r -> j < s -> m <= i \/ n <= j -> nth_error (cells C') (i * s + j) = nth_error (cells C) (i * s + j)).
Proof.
  intros HC Hr Hs Hc.
  destruct (loop_inv (fun j C' => array2 C' r s /\ (forall i j', i < m -> j' < j -> entry C' s i j' (X i j')) /\
    (forall i j, i < r -> j < s -> m <= i \/ n <= j -> nth_error (cells C') (i * s + j) = nth_error (cells C) (i * s + j))) n
    (fun j C => loop m (fun i C => do v <- getu c (i + st * j); set2 C i j v) C) C) as (C' & E & H).
  - split; [exact HC|]. split; [intros; lia|reflexivity].
  - intros j C1 Hj (A1 & H1 & U1).
    destruct (loop_inv (fun k C' => array2 C' r s /\ (forall i j', i < m -> j' < j -> entry C' s i j' (X i j')) /\ (forall i, i < k -> entry C' s i j (X i j)) /\
      (forall i j, i < r -> j < s -> m <= i \/ n <= j -> nth_error (cells C') (i * s + j) = nth_error (cells C) (i * s + j))) m
      (fun i C => do v <- getu c (i + st * j); set2 C i j v) C1) as (C2 & E2 & A2 & H2 & H2' & U2).
    + split; [exact A1|]. split; [exact H1|]. split; [intros; lia|exact U1].
    + intros k C2 Hk (A2 & H2 & H2' & U2). rewrite (getu_some _ _ (X k j)) by (apply Hc; assumption). cbn [bind].
      destruct (set2_ok C2 r s k j (X k j)) as (C3 & E3 & A3 & S3); [exact A2|lia|lia|]. exists C3. split; [exact E3|]. split; [exact A3|]. unfold entry in *. split; [|split].
      * intros i j' Hi Hj'. rewrite (set2_entry C2 r s k j (X k j)) by (assumption || lia). destruct (Nat.eqb_spec j' j); [lia|]. rewrite andb_false_r. apply H2; assumption.
      * intros i Hi. rewrite (set2_entry C2 r s k j (X k j)) by (assumption || lia). rewrite Nat.eqb_refl, andb_true_r. destruct (Nat.eqb_spec i k) as [->|]; [reflexivity|]. apply H2'. lia.
      * intros i j' Hi Hj' Ho. rewrite (set2_entry C2 r s k j (X k j)) by (assumption || lia). destruct (Nat.eqb_spec i k) as [->|]; [destruct (Nat.eqb_spec j' j); [lia|]|]; apply U2; assumption.
    + exists C2. split; [exact E2|]. split; [exact A2|]. split; [|exact U2]. intros i j' Hi Hj'. destruct (Nat.eq_dec j' j) as [->|]; [apply H2'; exact Hi|apply H2; lia].
  - exists C'. auto.
Qed.

Lemma matmul_ok A B C m n p r s P Q : 0 < m -> 0 < n -> 0 < p -> is_mat A m n P -> is_mat B n p Q -> array2 C r s -> m <= r -> p <= s -> packs m n -> packs n p ->
  exists C', matmul A B C = Ok C' /\ array2 C' r s /\ (forall i j, i < m -> j < p -> entry C' s i j (mmul n P Q i j)) /\
    (forall i j, i < r -> j < s -> m <= i \/ p <= j -> nth_error (cells C') (i * s + j) = nth_error (cells C) (i * s + j)).
Proof.
  intros Hm Hn Hp HA HB HC Hr Hs P1 P2. pose proof HA as ((DA & LA) & _). pose proof HB as ((DB & LB) & _). pose proof HC as (DC & LC).
  unfold matmul. rewrite DA, DB, DC, !Nat.eqb_refl.
  destruct (pack_ok A m n P HA P1) as (a & -> & La & Ha). cbn [bind]. destruct (pack_ok B n p Q HB P2) as (b & -> & Lb & Hb). cbn [bind].
  destruct (dgemm_ok m p n a b (repeat None (m * p)) P Q) as (c & -> & Lc & Hc); try assumption; [apply repeat_length|]. cbn [bind].
  apply (copy_out C r s m p p c (mmul n P Q)); try assumption. intros i j Hi Hj. rewrite <- (Hc i j) by assumption. f_equal.
  unfold packs in *. nia.
Qed.
Lemma matmul_wide_a A B C m n p r s P : 0 < m -> m < n -> is_mat A m n P -> array2 B n p -> array2 C r s -> matmul A B C = Err OOB.
Proof.
  intros Hm Hn HA (DB & LB) (DC & LC). pose proof HA as ((DA & LA) & _). unfold matmul. rewrite DA, DB, DC, !Nat.eqb_refl. rewrite (pack_wide A m n P) by assumption. reflexivity.
Qed.
Lemma matmul_wide_b A B C m n p r s P Q : n <= m \/ n = 1 -> 0 < n -> n < p -> is_mat A m n P -> is_mat B n p Q -> array2 C r s -> matmul A B C = Err OOB.
Proof.
  intros Ha Hn Hp HA HB (DC & LC). pose proof HA as ((DA & LA) & _). pose proof HB as ((DB & LB) & _). unfold matmul. rewrite DA, DB, DC, !Nat.eqb_refl.
  assert (E : exists a, pack A m n = Ok a).
  { destruct (Nat.eq_dec n 1) as [->|]; [destruct (pack_ok A m 1 P HA) as (a & E & _); [right; reflexivity|eauto]|].
    destruct (Nat.eq_dec m n) as [->|]; [destruct (pack_ok A n n P HA) as (a & E & _); [left; reflexivity|eauto]|].
    destruct (pack_tall A m n P HA) as (a & E & _); [lia|lia|eauto]. }
  destruct E as (a & ->). cbn [bind]. rewrite (pack_wide B n p Q) by assumption. reflexivity.
Qed.
Lemma matmul_tall A B C m n p r s P Q : 0 < m -> 0 < n -> 0 < p -> is_mat A m n P -> is_mat B n p Q -> array2 C r s ->
  n <= m \/ n = 1 -> p <= n \/ p = 1 -> (2 <= n /\ n < m) \/ (2 <= p /\ p < n) -> matmul A B C = Err Uninit.
Proof.
  intros Hm Hn Hp HA HB (DC & LC) Wa Wb T. pose proof HA as ((DA & LA) & _). pose proof HB as ((DB & LB) & _). unfold matmul. rewrite DA, DB, DC, !Nat.eqb_refl.
  assert (G : forall X k l (Z : mat), 0 < l -> is_mat X k l Z -> l <= k \/ l = 1 -> exists a, pack X k l = Ok a /\ length a = k * l /\ (2 <= l -> l < k -> nth_error a (k - 1 + k * (l - 1)) = Some None)).
  { intros X k l Z Hl HX W. destruct (Nat.eq_dec l 1) as [->|].
    - destruct (pack_ok X k 1 Z HX) as (a & E & L & _); [right; reflexivity|]. exists a. repeat split; try assumption; lia.
    - destruct (Nat.eq_dec k l) as [->|].
      + destruct (pack_ok X l l Z HX) as (a & E & L & _); [left; reflexivity|]. exists a. repeat split; try assumption; lia.
      + destruct (pack_tall X k l Z HX) as (a & E & L & N); [lia|lia|]. exists a. repeat split; try assumption; intros; exact N. }
  destruct (G A m n P Hn HA Wa) as (a & -> & La & Na). cbn [bind]. destruct (G B n p Q Hp HB Wb) as (b & -> & Lb & Nb). cbn [bind].
  rewrite dgemm_unset; try assumption; [reflexivity|apply repeat_length|].
  destruct T as [(T1 & T2)|(T1 & T2)]; [left|right].
  - exists (m - 1), (n - 1). repeat split; try lia. apply Na; assumption.
  - exists (n - 1), (p - 1). repeat split; try lia. apply Nb; assumption.
Qed.

(** * inversion *)
Lemma identity_loop n : exists b, loop n (fun j b => loop n (fun i b => set b (i + n * j) (Some (if i =? j then 1%R else 0%R))) b) (repeat None (n * n)) = Ok b /\ col_major n b ident.
Proof.
  destruct (loop_inv (fun j b => length b = n * n /\ forall i j', i < n -> j' < j -> nth_error b (i + n * j') = Some (Some (ident i j'))) n
    (fun j b => loop n (fun i b => set b (i + n * j) (Some (if i =? j then 1%R else 0%R))) b) (repeat None (n * n))) as (b & E & L & H).
  - split; [apply repeat_length|intros; lia].
  - intros j b Hj (L & H).
    destruct (loop_inv (fun k b => length b = n * n /\ (forall i j', i < n -> j' < j -> nth_error b (i + n * j') = Some (Some (ident i j'))) /\ forall i, i < k -> nth_error b (i + n * j) = Some (Some (ident i j))) n
      (fun i b => set b (i + n * j) (Some (if i =? j then 1%R else 0%R))) b) as (b1 & E1 & L1 & H1 & H2).
    + split; [exact L|]. split; [exact H|intros; lia].
    + intros k b1 Hk (L1 & H1 & H2). rewrite set_ok by (rewrite L1; apply cidx_lt; assumption). eexists. split; [reflexivity|]. rewrite upd_length. split; [exact L1|]. split.
      * intros i j' Hi Hj'. rewrite upd_nth by (rewrite L1; apply cidx_lt; assumption). destruct (Nat.eqb_spec (i + n * j') (k + n * j)) as [e|]; [apply cidx_inj in e; lia|]. apply H1; assumption.
      * intros i Hi. rewrite upd_nth by (rewrite L1; apply cidx_lt; assumption). destruct (Nat.eqb_spec (i + n * j) (k + n * j)) as [e|]; [replace i with k by lia; reflexivity|]. apply H2. lia.
    + exists b1. split; [exact E1|]. split; [exact L1|]. intros i j' Hi Hj'. destruct (Nat.eq_dec j' j) as [->|]; [apply H2; exact Hi|apply H1; lia].
  - exists b. split; [exact E|]. split; [exact L|exact H].
Qed.

Lemma invert_ok getrf getrs A B n M : lapack_solves getrf getrs -> is_mat A n n M -> array2 B n n -> det n M <> 0%R ->
  exists B' X, invert getrf getrs A B = Ok (B', 0) /\ is_mat B' n n X /\ is_inverse n M X.
Proof.
  intros (S1 & _ & _) HA HB HD. pose proof HA as ((DA & LA) & _). pose proof HB as (DB & LB). unfold invert. rewrite DA, DB, !Nat.eqb_refl. cbn [andb].
  destruct (pack_ok A n n M HA) as (a & -> & La & Ha); [left; reflexivity|]. cbn [bind].
  destruct (S1 n a M (conj La Ha) HD) as (lu & ipiv & -> & Sv).
  destruct (identity_loop n) as (b & -> & Hb). cbn [bind]. destruct (Sv b ident Hb) as (b' & X & -> & (Lb' & Hb') & HX).
  destruct (copy_out B n n n n n b' X HB) as (B' & -> & HB' & E' & _); [lia|lia|exact Hb'|]. cbn [bind].
  exists B', X. split; [reflexivity|]. split; [split; [exact HB'|exact E']|]. split; [exact HX|]. apply left_inverse_right. exact HX.
Qed.
Lemma invert_singular getrf getrs A B n M : lapack_solves getrf getrs -> is_mat A n n M -> array2 B n n -> det n M = 0%R ->
  exists B' X said, invert getrf getrs A B = Ok (B', said) /\ 1 <= said /\ is_mat B' n n X.
Proof.
  intros (_ & S2 & S3) HA HB HD. pose proof HA as ((DA & LA) & _). pose proof HB as (DB & LB). unfold invert. rewrite DA, DB, !Nat.eqb_refl. cbn [andb].
  destruct (pack_ok A n n M HA) as (a & -> & La & Ha); [left; reflexivity|]. cbn [bind].
  destruct (S2 n a M (conj La Ha) HD) as (lu & ipiv & info & -> & Hi).
  destruct (identity_loop n) as (b & -> & Hb). cbn [bind]. destruct (S3 n lu ipiv b ident Hb) as (b' & info2 & X & -> & (Lb' & Hb')).
  destruct (copy_out B n n n n n b' X HB) as (B' & -> & HB' & E' & _); [lia|lia|exact Hb'|]. cbn [bind].
  eexists B', X, _. split; [reflexivity|]. split; [|split; [exact HB'|exact E']]. destruct (Z.eqb_spec info 0); [contradiction|]. lia.
Qed.

(** * eigenvectors *)
Lemma copy_vec (src dst : list (option R)) n v : length dst = n -> (forall i, i < n -> nth_error src i = Some (Some (v i))) ->
  exists d, loop n (fun i d => do v <- getu src i; set d i (Some v)) dst = Ok d /\ length d = n /\ forall i, i < n -> nth_error d i = Some (Some (v i)).
Proof.
  intros L H.
  destruct (loop_inv (fun k d => length d = n /\ forall i, i < k -> nth_error d i = Some (Some (v i))) n (fun i d => do v <- getu src i; set d i (Some v)) dst) as (d & E & Ld & Hd).
  - split; [exact L|intros; lia].
  - intros k d Hk (Ld & Hd). rewrite (getu_some _ _ (v k)) by (apply H; exact Hk). cbn [bind]. rewrite set_ok by lia. eexists. split; [reflexivity|]. rewrite upd_length. split; [exact Ld|].
    intros i Hi. rewrite upd_nth by lia. destruct (Nat.eqb_spec i k) as [->|]; [reflexivity|]. apply Hd. lia.
  - exists d. auto.
Qed.
