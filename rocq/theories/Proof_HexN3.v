(** Tables of basis values and gradients held by the reference element; linear completeness. *)
From Coq Require Import List Arith Lia Bool Reals Lra.
Import ListNotations.
Require Import Verif.Base Verif.NatSum Verif.RBase Verif.RSum Verif.RDer Verif.Poly Verif.Spec_Lagrange Verif.Lagrange_Math
  Verif.Proof_LagElem Verif.Spec_Ref Verif.Model_Ref Verif.Proof_Ref Verif.Proof_Ref5 Verif.Model_HexN Verif.Proof_HexN Verif.Spec_HexN Verif.Proof_HexN2.
Local Open Scope nat_scope.

Lemma row_fill nb r (f : nat -> res R) (g : nat -> R) (tab : list (option R)) m : length tab = m * nb -> r < m ->
  (forall v, v < nb -> f v = Ok (g v)) ->
  exists tab', loop nb (fun v tab => do s <- f v; set tab (r * nb + v) (Some s)) tab = Ok tab' /\ length tab' = m * nb /\
   (forall v, v < nb -> getu tab' (r * nb + v) = Ok (g v)) /\ forall q, q < r * nb -> nth q tab' None = nth q tab None.
Proof.
  intros L Hr Hf.
  edestruct (loop_inv (fun c b => length b = m * nb /\ (forall v, v < c -> getu b (r * nb + v) = Ok (g v)) /\
    forall q, q < r * nb -> nth q b None = nth q tab None) nb) as (b & E & H1 & H2 & H3).
  3: { exists b. split; [exact E|]. split; [exact H1|]. split; [exact H2|exact H3]. }
  - split; [exact L|]. split; [intros; lia|auto].
  - intros c b Hc (H1 & H2 & H3). rewrite Hf by exact Hc. cbn [bind]. rewrite set_ok by nia. eexists. split; [reflexivity|].
    rewrite upd_length. split; [exact H1|]. split.
    + intros v Hv. apply getu_nth. rewrite nth_upd by nia. destruct (Nat.eqb_spec (r * nb + v) (r * nb + c)).
      * replace v with c by lia. reflexivity.
      * apply getu_ok. apply H2. lia.
    + intros q Hq. rewrite nth_upd_neq by lia. apply H3. exact Hq.
Qed.

Definition pos_holds (m : nat) (pos : list (option R)) (P : nat -> nat -> R) : Prop :=
  forall r d, r < m -> d < 3 -> getu pos (r * 3 + d) = Ok (P r d).

Lemma basis_table_ok h Z m pos P : let n := hx_nv h in let nb := n * n * n in distinct n Z -> holds n (hx_verts1 h) Z ->
  pos_holds m pos P ->
  exists tab, basis_table h m nb pos = Ok tab /\ forall r i j k, r < m -> i < n -> j < n -> k < n ->
    ref_basis nb tab r (gid n i j k) = Ok (phi3 n Z i j k (P r 0) (P r 1) (P r 2)).
Proof.
  intros n nb D Hv Hp. unfold basis_table.
  edestruct (loop_inv (fun c tab => length tab = m * nb /\ forall r i j k, r < c -> i < n -> j < n -> k < n ->
    ref_basis nb tab r (gid n i j k) = Ok (phi3 n Z i j k (P r 0) (P r 1) (P r 2))) m) as (tab & E & _ & H).
  3: { exists tab. split; [exact E|exact H]. }
  - rewrite repeat_length. split; [reflexivity|intros; lia].
  - intros r tab Hr (L & H). rewrite !Hp by lia. cbn [bind].
    destruct (hexn_basis_ok h Z (repeat None nb) (P r 0) (P r 1) (P r 2) D Hv) as (b & Eb & _ & Fb & _); [rewrite repeat_length; reflexivity|].
    rewrite Eb. cbn [bind].
    destruct (row_fill nb r (fun v => getu b v) (fun v => phi3 n Z (v mod n) (v / n mod n) (v / n / n) (P r 0) (P r 1) (P r 2)) tab m L Hr) as (t & Et & Lt & R1 & R2).
    { intros v Hv'. destruct (pos3 n v Hv') as (Q1 & Q2 & Q3 & Q4). rewrite Q4 at 1. rewrite Fb by assumption. reflexivity. }
    exists t. split; [exact Et|]. split; [exact Lt|]. intros r' i j k Hr' Hi Hj Hk.
    assert (G := rid_lt n i j k Hi Hj Hk). fold nb in G. rewrite gid_rid in G. unfold ref_basis.
    destruct (Nat.eq_dec r' r) as [->|Hne].
    + rewrite R1 by exact G. rewrite <- gid_rid. destruct (rid_dec n i j k Hi Hj) as (-> & -> & ->). reflexivity.
    + apply getu_nth. rewrite R2 by nia. apply getu_ok. apply H; lia.
Qed.

Lemma grad_row nb np r m (gx ge gm : nat -> R) tab px pe pm : length tab = m * nb * 3 -> r < m ->
  nb <= np -> length px = np -> length pe = np -> length pm = np ->
  (forall b, b < nb -> getu px b = Ok (gx b)) -> (forall b, b < nb -> getu pe b = Ok (ge b)) -> (forall b, b < nb -> getu pm b = Ok (gm b)) ->
  exists t px' pe' pm', loop nb (fun b '(tab, px, pe, pm) =>
        do gx <- getu px b; do ge <- getu pe b; do gm <- getu pm b;
        do t1 <- set tab ((r * nb + b) * 3 + 0) (Some gx);
        do t2 <- set t1 ((r * nb + b) * 3 + 1) (Some ge);
        do t3 <- set t2 ((r * nb + b) * 3 + 2) (Some gm);
        do px <- set px b (Some 0%R); do pe <- set pe b (Some 0%R); do pm <- set pm b (Some 0%R);
        Ok (t3, px, pe, pm)) (tab, px, pe, pm) = Ok (t, px', pe', pm') /\
   length t = m * nb * 3 /\ length px' = np /\ length pe' = np /\ length pm' = np /\
   (forall b, b < nb -> getu t ((r * nb + b) * 3 + 0) = Ok (gx b) /\ getu t ((r * nb + b) * 3 + 1) = Ok (ge b) /\ getu t ((r * nb + b) * 3 + 2) = Ok (gm b)) /\
   forall q, q < r * nb * 3 -> nth q t None = nth q tab None.
Proof.
  intros L Hr Hnp L1 L2 L3 G1 G2 G3.
  edestruct (loop_inv (fun c '(t, px, pe, pm) => length t = m * nb * 3 /\ length px = np /\ length pe = np /\ length pm = np /\
    (forall b, c <= b -> b < nb -> getu px b = Ok (gx b) /\ getu pe b = Ok (ge b) /\ getu pm b = Ok (gm b)) /\
    (forall b, b < c -> getu t ((r * nb + b) * 3 + 0) = Ok (gx b) /\ getu t ((r * nb + b) * 3 + 1) = Ok (ge b) /\ getu t ((r * nb + b) * 3 + 2) = Ok (gm b)) /\
    forall q, q < r * nb * 3 -> nth q t None = nth q tab None) nb) as ([[[t px'] pe'] pm'] & E & H1 & H2 & H3 & H4 & H5 & H6 & H7).
  3: { exists t, px', pe', pm'. split; [exact E|]. repeat (split; [assumption|]). assumption. }
  - cbv beta iota. repeat (split; [assumption|]). split; [intros b Hb Hb'; auto|]. split; [intros; lia|auto].
  - intros c [[[t qx] qe] qm] Hc (H1 & H2 & H3 & H4 & H5 & H6 & H7).
    destruct (H5 c) as (-> & -> & ->); [lia|exact Hc|]. cbn [bind].
    destruct (set3 t (r * nb + c) (gx c) (ge c) (gm c)) as (t' & Et & Lt & T0 & T1 & T2 & T3); [nia|].
    assert (Es : forall K, (do t1 <- set t ((r * nb + c) * 3 + 0) (Some (gx c));
        do t2 <- set t1 ((r * nb + c) * 3 + 1) (Some (ge c));
        do t3 <- set t2 ((r * nb + c) * 3 + 2) (Some (gm c)); K t3) = (K t' : res (list (option R) * list (option R) * list (option R) * list (option R)))).
    { intros K. destruct (set t ((r * nb + c) * 3 + 0) (Some (gx c))) as [u|] eqn:U; cbn [bind] in *; [|discriminate].
      destruct (set u ((r * nb + c) * 3 + 1) (Some (ge c))) as [u'|] eqn:U'; cbn [bind] in *; [|discriminate].
      rewrite Et. reflexivity. }
    rewrite (Es (fun t3 => do px <- set qx c (Some 0%R); do pe <- set qe c (Some 0%R); do pm <- set qm c (Some 0%R); Ok (t3, px, pe, pm))).
    rewrite !set_ok by lia. cbn [bind].
    eexists. split; [reflexivity|]. cbv beta iota. rewrite !upd_length. split; [congruence|]. repeat (split; [assumption|]). split; [|split].
    + intros b Hb Hb'. destruct (H5 b) as (A1 & A2 & A3); [lia|exact Hb'|].
      repeat split; apply getu_nth; rewrite nth_upd_neq by lia; apply getu_ok; assumption.
    + intros b Hb. destruct (Nat.eq_dec b c) as [->|Hne].
      * repeat split; apply getu_nth; assumption.
      * destruct (H6 b) as (A1 & A2 & A3); [lia|]. repeat split; apply getu_nth; rewrite T3 by lia; apply getu_ok; assumption.
    + intros q Hq. rewrite T3 by lia. apply H7. exact Hq.
Qed.

Lemma gradient_table_ok h Z m np pos P : let n := hx_nv h in let nb := n * n * n in distinct n Z -> holds n (hx_verts1 h) Z ->
  pos_holds m pos P -> nb <= np ->
  exists tab, gradient_table h m nb np pos = Ok tab /\ forall r i j k, r < m -> i < n -> j < n -> k < n ->
    ref_gradient nb tab r (gid n i j k) 0 = Ok (dell n Z i (P r 0%nat) * ell n Z j (P r 1%nat) * ell n Z k (P r 2%nat))%R /\
    ref_gradient nb tab r (gid n i j k) 1 = Ok (ell n Z i (P r 0%nat) * dell n Z j (P r 1%nat) * ell n Z k (P r 2%nat))%R /\
    ref_gradient nb tab r (gid n i j k) 2 = Ok (ell n Z i (P r 0%nat) * ell n Z j (P r 1%nat) * dell n Z k (P r 2%nat))%R.
Proof.
  intros n nb D Hv Hp Hnp. unfold gradient_table.
  edestruct (loop_inv (fun c (st : list (option R) * list (option R) * list (option R) * list (option R)) => let '(tab, px, pe, pm) := st in length tab = m * nb * 3 /\ length px = np /\ length pe = np /\ length pm = np /\
    forall r i j k, r < c -> i < n -> j < n -> k < n ->
    ref_gradient nb tab r (gid n i j k) 0 = Ok (dell n Z i (P r 0%nat) * ell n Z j (P r 1%nat) * ell n Z k (P r 2%nat))%R /\
    ref_gradient nb tab r (gid n i j k) 1 = Ok (ell n Z i (P r 0%nat) * dell n Z j (P r 1%nat) * ell n Z k (P r 2%nat))%R /\
    ref_gradient nb tab r (gid n i j k) 2 = Ok (ell n Z i (P r 0%nat) * ell n Z j (P r 1%nat) * dell n Z k (P r 2%nat))%R) m)
    as ([[[tab px] pe] pm] & E & _ & _ & _ & _ & H).
  3: { exists tab. rewrite E. cbn [bind]. split; [reflexivity|exact H]. }
  - cbv beta iota. rewrite !repeat_length. repeat (split; [reflexivity|]). intros; lia.
  - intros r [[[tab px] pe] pm] Hr (L & L1 & L2 & L3 & H). rewrite !Hp by lia. cbn [bind].
    destruct (hexn_xi_ok h Z px (P r 0) (P r 1) (P r 2) D Hv) as (bx & E1 & M1 & F1 & _); [fold n; fold nb; lia|].
    destruct (hexn_eta_ok h Z pe (P r 0) (P r 1) (P r 2) D Hv) as (be & E2 & M2 & F2 & _); [fold n; fold nb; lia|].
    destruct (hexn_mu_ok h Z pm (P r 0) (P r 1) (P r 2) D Hv) as (bm & E3 & M3 & F3 & _); [fold n; fold nb; lia|].
    rewrite E1. cbn [bind]. rewrite E2. cbn [bind]. rewrite E3. cbn [bind].
    edestruct (grad_row nb np r m
      (fun v => dell n Z (v mod n) (P r 0%nat) * ell n Z (v / n mod n)%nat (P r 1%nat) * ell n Z (v / n / n)%nat (P r 2%nat))%R
      (fun v => ell n Z (v mod n) (P r 0%nat) * dell n Z (v / n mod n)%nat (P r 1%nat) * ell n Z (v / n / n)%nat (P r 2%nat))%R
      (fun v => ell n Z (v mod n) (P r 0%nat) * ell n Z (v / n mod n)%nat (P r 1%nat) * dell n Z (v / n / n)%nat (P r 2%nat))%R
      tab bx be bm) as (t & qx & qe & qm & Et & Lt & N1 & N2 & N3 & T & U); try eassumption; try congruence.
    1-3: intros v Hv'; destruct (pos3 n v Hv') as (Q1 & Q2 & Q3 & Q4); rewrite Q4 at 1.
    { apply F1; assumption. } { apply F2; assumption. } { apply F3; assumption. }
    eexists. split; [exact Et|]. cbv beta iota. repeat (split; [assumption|]). intros r' i j k Hr' Hi Hj Hk.
    assert (G := rid_lt n i j k Hi Hj Hk). fold nb in G. rewrite gid_rid in G. unfold ref_gradient.
    destruct (Nat.eq_dec r' r) as [->|Hne].
    + destruct (T (gid n i j k) G) as (T0 & T1 & T2). rewrite T0, T1, T2. rewrite <- gid_rid.
      destruct (rid_dec n i j k Hi Hj) as (-> & -> & ->). repeat split.
    + destruct (H r' i j k) as (A0 & A1 & A2); try assumption; [lia|].
      repeat split; apply getu_nth; rewrite U by nia; apply getu_ok; assumption.
Qed.

(** sums of the 1D derivatives: constants and linear functions are differentiated exactly *)
Lemma dell_sum N Z x : distinct N Z -> (0 < N) -> rsum N (fun i => dell N Z i x) = 0%R.
Proof.
  intros D HN. apply (der_unique (fun t => rsum N (fun i => ell N Z i t)) x).
  - apply (der_rsum N (fun i t => ell N Z i t)). intros. apply ell_der.
  - apply (der_ext (fun _ => 1%R)); [intros; symmetry; apply ell_sum; assumption|apply der_const].
Qed.
Lemma ell_lin N Z x : distinct N Z -> (2 <= N) -> rsum N (fun i => Z i * ell N Z i x)%R = x.
Proof.
  intros D HN. change (interp N Z Z x = x).
  assert (Q : poly_lt N (fun t => t)).
  { apply (poly_mono 2 N); [exact HN|]. apply (poly_ext 2 (fun x => rprod 1 (fun j => 1 * x + - 0))%R).
    - intros t. cbn [rprod]. ring.
    - apply (poly_prod_lin 1 (fun _ => 1%R) (fun _ => (- 0)%R)). }
  apply (interp_repro N Z (fun t => t) D Q).
Qed.
Lemma dell_lin N Z x : distinct N Z -> (2 <= N) -> rsum N (fun i => Z i * dell N Z i x)%R = 1%R.
Proof.
  intros D HN. apply (der_unique (fun t => rsum N (fun i => Z i * ell N Z i t)%R) x).
  - apply (der_rsum N (fun i t => Z i * ell N Z i t)%R). intros. apply der_scal. apply ell_der.
  - apply (der_ext (fun t => t)); [intros; symmetry; apply ell_lin; assumption|apply der_id].
Qed.

Lemma sum3_prod n (f g h : nat -> R) : sum3 n (fun i j k => f i * g j * h k)%R = (rsum n f * rsum n g * rsum n h)%R.
Proof.
  unfold sum3. rewrite <- rsum_scal_l. apply rsum_ext. intros k Hk.
  rewrite (rsum_ext n _ (fun j => rsum n f * (g j * h k))%R).
  - rewrite rsum_scal_l, rsum_scal_r. ring.
  - intros j Hj. rewrite <- rsum_scal_r. apply rsum_ext. intros. ring.
Qed.
Lemma sum3_ext n f g : (forall i j k, i < n -> j < n -> k < n -> f i j k = g i j k) -> sum3 n f = sum3 n g.
Proof. intros H. unfold sum3. apply rsum_ext. intros. apply rsum_ext. intros. apply rsum_ext. intros. apply H; assumption. Qed.

(** the gradient table differentiates constants and coordinates exactly *)
Lemma gradient_complete p lob m pos P np : length lob = nodes_1d p -> distinct (verts_1d p) (vert_coord p lob) ->
  pos_holds m pos P -> verts_1d p * verts_1d p * verts_1d p <= np ->
  exists h tb tg, setup_hexn p lob = Ok h /\
   let n := verts_1d p in let nb := n * n * n in let Z := vert_coord p lob in
   basis_table h m nb pos = Ok tb /\ gradient_table h m nb np pos = Ok tg /\
   (forall r i j k, r < m -> i < n -> j < n -> k < n -> exists gx gy gz,
      ref_basis nb tb r (gid n i j k) = Ok (phi3 n Z i j k (P r 0) (P r 1) (P r 2)) /\
      ref_gradient nb tg r (gid n i j k) 0 = Ok gx /\ ref_gradient nb tg r (gid n i j k) 1 = Ok gy /\
      ref_gradient nb tg r (gid n i j k) 2 = Ok gz /\ is_grad (phi3 n Z i j k) (P r 0) (P r 1) (P r 2) (gx, gy, gz)) /\
   (forall r, r < m -> exists B G, (forall i j k, i < n -> j < n -> k < n ->
        ref_basis nb tb r (gid n i j k) = Ok (B i j k) /\ forall d, d < 3 -> ref_gradient nb tg r (gid n i j k) d = Ok (G i j k d)) /\
      sum3 n B = 1%R /\ (forall d, d < 3 -> sum3 n (fun i j k => G i j k d) = 0%R) /\
      (forall e, e < 3 -> sum3 n (fun i j k => Z (coord e i j k) * B i j k)%R = P r e) /\
      forall e d, e < 3 -> d < 3 -> sum3 n (fun i j k => Z (coord e i j k) * G i j k d)%R = if e =? d then 1%R else 0%R).
Proof.
  intros L D Hp Hnp. destruct (setup_ok p lob L) as (h & E & _ & Hn & Hv & _).
  rewrite <- Hn in Hnp.
  destruct (basis_table_ok h (vert_coord p lob) m pos P) as (tb & Eb & Fb); try (rewrite Hn; assumption); [assumption|].
  destruct (gradient_table_ok h (vert_coord p lob) m np pos P) as (tg & Eg & Fg); try (rewrite Hn; assumption); try assumption.
  exists h, tb, tg. split; [exact E|]. rewrite Hn in *. cbv zeta. set (n := verts_1d p) in *. set (Z := vert_coord p lob) in *.
  split; [exact Eb|]. split; [exact Eg|]. split.
  - intros r i j k Hr Hi Hj Hk. destruct (Fg r i j k Hr Hi Hj Hk) as (G0 & G1 & G2).
    do 3 eexists. split; [apply Fb; assumption|]. split; [exact G0|]. split; [exact G1|]. split; [exact G2|].
    unfold is_grad, phi3. repeat split.
    + apply (der_ext (fun t => ell n Z i t * (ell n Z j (P r 1%nat) * ell n Z k (P r 2%nat)))%R); [intros; ring|].
      rewrite Rmult_assoc. apply der_scal_r. apply ell_der.
    + apply (der_ext (fun t => ell n Z i (P r 0%nat) * ell n Z k (P r 2%nat) * ell n Z j t)%R); [intros; ring|].
      replace (ell n Z i (P r 0%nat) * dell n Z j (P r 1%nat) * ell n Z k (P r 2%nat))%R with
        (ell n Z i (P r 0%nat) * ell n Z k (P r 2%nat) * dell n Z j (P r 1%nat))%R by ring.
      apply der_scal. apply ell_der.
    + apply der_scal. apply ell_der.
  - intros r Hr. set (x := P r 0) in *. set (y := P r 1) in *. set (z := P r 2) in *.
    assert (N2 : 2 <= n) by apply verts_pos. assert (N0 : 0 < n) by lia.
    set (E0 := fun i => ell n Z i x). set (E1 := fun i => ell n Z i y). set (E2 := fun i => ell n Z i z).
    set (D0 := fun i => dell n Z i x). set (D1 := fun i => dell n Z i y). set (D2 := fun i => dell n Z i z).
    assert (S0 : rsum n E0 = 1%R) by (apply ell_sum; assumption).
    assert (S1 : rsum n E1 = 1%R) by (apply ell_sum; assumption).
    assert (S2 : rsum n E2 = 1%R) by (apply ell_sum; assumption).
    assert (T0 : rsum n D0 = 0%R) by (apply dell_sum; assumption).
    assert (T1 : rsum n D1 = 0%R) by (apply dell_sum; assumption).
    assert (T2 : rsum n D2 = 0%R) by (apply dell_sum; assumption).
    assert (U0 : rsum n (fun i => Z i * E0 i)%R = x) by (apply ell_lin; assumption).
    assert (U1 : rsum n (fun i => Z i * E1 i)%R = y) by (apply ell_lin; assumption).
    assert (U2 : rsum n (fun i => Z i * E2 i)%R = z) by (apply ell_lin; assumption).
    assert (V0 : rsum n (fun i => Z i * D0 i)%R = 1%R) by (apply dell_lin; assumption).
    assert (V1 : rsum n (fun i => Z i * D1 i)%R = 1%R) by (apply dell_lin; assumption).
    assert (V2 : rsum n (fun i => Z i * D2 i)%R = 1%R) by (apply dell_lin; assumption).
    exists (fun i j k => E0 i * E1 j * E2 k)%R.
    exists (fun i j k d => match d with 0 => D0 i * E1 j * E2 k | 1 => E0 i * D1 j * E2 k | _ => E0 i * E1 j * D2 k end)%R.
    split.
    { intros i j k Hi Hj Hk. split; [apply Fb; assumption|]. destruct (Fg r i j k Hr Hi Hj Hk) as (G0 & G1 & G2).
      intros [|[|[|d]]] Hd; [exact G0|exact G1|exact G2|lia]. }
    assert (X : forall f g hh, sum3 n (fun i j k => Z i * (f i * g j * hh k))%R = (rsum n (fun i => Z i * f i) * rsum n g * rsum n hh)%R).
    { intros f g hh. rewrite <- sum3_prod. apply sum3_ext. intros. ring. }
    assert (Y : forall f g hh, sum3 n (fun i j k => Z j * (f i * g j * hh k))%R = (rsum n f * rsum n (fun j => Z j * g j) * rsum n hh)%R).
    { intros f g hh. rewrite <- sum3_prod. apply sum3_ext. intros. ring. }
    assert (W : forall f g hh, sum3 n (fun i j k => Z k * (f i * g j * hh k))%R = (rsum n f * rsum n g * rsum n (fun k => Z k * hh k))%R).
    { intros f g hh. rewrite <- sum3_prod. apply sum3_ext. intros. ring. }
    split; [rewrite sum3_prod, S0, S1, S2; ring|]. split; [|split].
    + intros [|[|[|d]]] Hd; try lia; rewrite sum3_prod, ?S0, ?S1, ?S2, ?T0, ?T1, ?T2; ring.
    + intros [|[|[|e]]] He; try lia; cbn [coord]; rewrite ?X, ?Y, ?W, ?S0, ?S1, ?S2, ?U0, ?U1, ?U2; subst x y z; ring.
    + intros [|[|[|e]]] [|[|[|d]]] He Hd; try lia; cbn [coord Nat.eqb]; rewrite ?X, ?Y, ?W, ?S0, ?S1, ?S2, ?T0, ?T1, ?T2, ?U0, ?U1, ?U2, ?V0, ?V1, ?V2; ring.
Qed.
