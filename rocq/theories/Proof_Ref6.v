(** Corner surfaces of the reference element (C56), weight theorems (C36), sizes (C50). *)
From Coq Require Import List Arith ZArith Lia Bool Reals Lra.
Import ListNotations.
Require Import Verif.Base Verif.NatSum Verif.RSum Verif.Model_Ref Verif.Spec_Ref Verif.Proof_Ref Verif.Proof_Ref5.
Local Open Scope nat_scope.

Lemma cpow_0 w : cpow w 0 = Ok 1%R.
Proof. unfold cpow. destruct (Req_EM_T 0 0); [reflexivity|lra]. Qed.
Lemma cpow_1 w : cpow w 1 = Ok w.
Proof. unfold cpow. destruct (Req_EM_T 1 0); [lra|]. destruct (Req_EM_T 1 1); [reflexivity|lra]. Qed.

Lemma unit_normals_ok l s : l < 8 -> s < 3 -> get unit_normals (l * 3 + s) = Ok (sgn (off s l)).
Proof.
  intros Hl Hs.
  assert (C : l = 0 \/ l = 1 \/ l = 2 \/ l = 3 \/ l = 4 \/ l = 5 \/ l = 6 \/ l = 7) by lia.
  assert (D : s = 0 \/ s = 1 \/ s = 2) by lia.
  destruct C as [C|[C|[C|[C|[C|[C|[C|C]]]]]]]; destruct D as [D|[D|D]]; subst; reflexivity.
Qed.
Lemma sgn_abs b : Rabs (sgn b) = 1%R.
Proof. unfold sgn. destruct (b =? 0); [rewrite Rabs_left by lra; lra|apply Rabs_R1]. Qed.

(** product of the shares in the two directions other than [s] *)
Definition surf_w (f : nat -> R) (s i j k : nat) : R :=
  match s with 0 => f j * f k | 1 => f i * f k | _ => f i * f j end%R.

(** write 3 entries *)
Lemma write3 (v : list R) lst a : length v = 3 -> a + 3 <= length lst ->
  exists lst', loop 3 (fun d g => do x <- get v d; set g (a + d) (Some x)) lst = Ok lst' /\
    length lst' = length lst /\ (forall d, d < 3 -> nth (a + d) lst' None = Some (nth d v 0%R)) /\
    (forall p, p < a \/ a + 3 <= p -> nth p lst' None = nth p lst None).
Proof.
  intros L H.
  edestruct (loop_inv (fun i l => length l = length lst /\ (forall k, k < i -> nth (a + k) l None = Some (nth k v 0%R)) /\
     (forall j, j < a \/ a + 3 <= j -> nth j l None = nth j lst None)) 3) as (l & E & H1 & H2 & H3).
  3: { exists l. rewrite E. auto. }
  - split; [reflexivity|]. split; [intros; lia|auto].
  - intros i l Hi (M1 & M2 & M3). rewrite (get_ok v i 0%R) by lia. cbn [bind]. rewrite set_ok by lia.
    eexists. split; [reflexivity|]. rewrite upd_length. split; [exact M1|]. split.
    + intros k Hk. destruct (Nat.eq_dec k i) as [->|Ne]; [rewrite nth_upd_eq by lia; reflexivity|].
      rewrite nth_upd_neq by lia. apply M2. lia.
    + intros j Hj. rewrite nth_upd_neq by lia. auto.
Qed.

Definition surf_step (parts : list (option R)) (r l s : nat) (st : list (option R) * list (option R)) :=
  let '(nrm, swt) := st in
        do u <- get unit_normals (l * 3 + s);
        let v := surf_vec u s in
        do nrm1 <- loop 3 (fun d a => do x <- get v d; set a (r * 9 + s * 3 + d) (Some x)) nrm;
        do v0 <- get v 0; do v1 <- get v 1; do v2 <- get v 2;
        do w0 <- getu parts (r * 3 + 0); do w1 <- getu parts (r * 3 + 1);
        do w2 <- getu parts (r * 3 + 2);
        do a <- cpow w0 (1 - Rabs v0); do b <- cpow w1 (1 - Rabs v1); do c <- cpow w2 (1 - Rabs v2);
        do swt1 <- set swt (r * 3 + s) (Some (a * b * c)%R);
        Ok (nrm1, swt1).

Lemma surf_step_ok parts r l s (f : nat -> R) i j k nrm swt :
  l < 8 -> s < 3 -> r * 9 + 9 <= length nrm -> r * 3 + 3 <= length swt ->
  (forall d, d < 3 -> getu parts (r * 3 + d) = Ok (f (coord d i j k))) ->
  exists nrm' swt', surf_step parts r l s (nrm, swt) = Ok (nrm', swt') /\ length nrm' = length nrm /\ length swt' = length swt /\
    (forall d, d < 3 -> nth (r * 9 + s * 3 + d) nrm' None = Some (if d =? s then sgn (off s l) else 0%R)) /\
    nth (r * 3 + s) swt' None = Some (surf_w f s i j k) /\
    (forall p, p < r * 9 + s * 3 \/ r * 9 + s * 3 + 3 <= p -> nth p nrm' None = nth p nrm None) /\
    (forall p, p <> r * 3 + s -> nth p swt' None = nth p swt None).
Proof.
  intros Hl Hs Ln Ls Hp. unfold surf_step. rewrite unit_normals_ok by assumption. cbn [bind]. cbv zeta.
  destruct (write3 (surf_vec (sgn (off s l)) s) nrm (r * 9 + s * 3)) as (n' & E & L' & A & B); [|lia|].
  { destruct s as [|[|s]]; reflexivity. }
  rewrite E. cbn [bind]. rewrite (Hp 0), (Hp 1), (Hp 2) by lia. cbn [coord].
  assert (W : forall a, (1 - Rabs 0 = 1)%R /\ (1 - Rabs (sgn a) = 0)%R) by (intros a; rewrite Rabs_R0, sgn_abs; lra).
  destruct (W (off s l)) as (W1 & W2).
  assert (D : s = 0 \/ s = 1 \/ s = 2) by lia.
  assert (V : exists v0 v1 v2, surf_vec (sgn (off s l)) s = [v0; v1; v2] /\
     (do a <- cpow (f i) (1 - Rabs v0); do b <- cpow (f j) (1 - Rabs v1); do c <- cpow (f k) (1 - Rabs v2); Ok (a * b * c)%R)
      = Ok (surf_w f s i j k)).
  { destruct D as [-> | [-> | ->]]; cbn [surf_vec]; do 3 eexists; (split; [reflexivity|]); rewrite W1, W2, cpow_0, !cpow_1; cbn [bind surf_w];
    f_equal; ring. }
  destruct V as (v0 & v1 & v2 & Ev & Ew). rewrite Ev. cbn [get nth_error bind].
  destruct (cpow (f i) (1 - Rabs v0)) as [a|]; [|discriminate]. cbn [bind] in *.
  destruct (cpow (f j) (1 - Rabs v1)) as [b|]; [|discriminate]. cbn [bind] in *.
  destruct (cpow (f k) (1 - Rabs v2)) as [c|]; [|discriminate]. cbn [bind] in *. injection Ew as Ew.
  rewrite set_ok by lia. cbn [bind]. do 2 eexists. split; [reflexivity|]. rewrite upd_length.
  split; [exact L'|]. split; [reflexivity|]. split; [|split; [|split]].
  - intros d Hd. rewrite A by exact Hd. f_equal.
    destruct D as [-> | [-> | ->]]; (destruct d as [|[|[|d]]]; [| | |lia]); reflexivity.
  - rewrite nth_upd_eq by lia. rewrite Ew. reflexivity.
  - exact B.
  - intros p Hp'. apply nth_upd_neq. congruence.
Qed.

Lemma surf_corner_ok parts r l (f : nat -> R) i j k nrm swt :
  l < 8 -> r * 9 + 9 <= length nrm -> r * 3 + 3 <= length swt ->
  (forall d, d < 3 -> getu parts (r * 3 + d) = Ok (f (coord d i j k))) ->
  exists nrm' swt', loop 3 (surf_step parts r l) (nrm, swt) = Ok (nrm', swt') /\ length nrm' = length nrm /\ length swt' = length swt /\
    (forall s d, s < 3 -> d < 3 -> nth (r * 9 + s * 3 + d) nrm' None = Some (if d =? s then sgn (off s l) else 0%R)) /\
    (forall s, s < 3 -> nth (r * 3 + s) swt' None = Some (surf_w f s i j k)) /\
    (forall p, p < r * 9 \/ r * 9 + 9 <= p -> nth p nrm' None = nth p nrm None) /\
    (forall p, p < r * 3 \/ r * 3 + 3 <= p -> nth p swt' None = nth p swt None).
Proof.
  intros Hl Ln Ls Hp.
  edestruct (loop_inv (fun q '(n', s') => length n' = length nrm /\ length s' = length swt /\
    (forall s d, s < q -> d < 3 -> nth (r * 9 + s * 3 + d) n' None = Some (if d =? s then sgn (off s l) else 0%R)) /\
    (forall s, s < q -> nth (r * 3 + s) s' None = Some (surf_w f s i j k)) /\
    (forall p, p < r * 9 \/ r * 9 + 9 <= p -> nth p n' None = nth p nrm None) /\
    (forall p, p < r * 3 \/ r * 3 + 3 <= p -> nth p s' None = nth p swt None)) 3)
    as ((n' & s') & E & A1 & A2 & A3 & A4 & A5 & A6).
  3: { exists n', s'. rewrite E. repeat (split; [assumption || reflexivity|]). assumption. }
  - cbv beta iota. repeat split; auto; intros; lia.
  - intros q (n' & s') Hq (A1 & A2 & A3 & A4 & A5 & A6).
    destruct (surf_step_ok parts r l q f i j k n' s' Hl Hq ltac:(lia) ltac:(lia) Hp)
      as (n2 & s2 & E & B1 & B2 & B3 & B4 & B5 & B6).
    exists (n2, s2). split; [exact E|]. cbv beta iota. split; [lia|]. split; [lia|]. split; [|split; [|split]].
    + intros s d Hs Hd. destruct (Nat.eq_dec s q) as [->|Ne]; [apply B3; exact Hd|]. rewrite B5 by lia. apply A3; lia.
    + intros s Hs. destruct (Nat.eq_dec s q) as [->|Ne]; [exact B4|]. rewrite B6 by lia. apply A4; lia.
    + intros p Hp'. rewrite B5 by lia. apply A5. exact Hp'.
    + intros p Hp'. rewrite B6 by lia. apply A6. exact Hp'.
Qed.

Definition crn (nc q l : nat) : nat :=
  rid (2 * nc) (2 * (q mod nc) + off 0 l) (2 * (q / nc mod nc) + off 1 l) (2 * (q / nc / nc) + off 2 l).
Lemma crn_lt nc q l : q < nc * nc * nc -> crn nc q l < 2 * nc * (2 * nc) * (2 * nc).
Proof.
  intros H. destruct (pos3 nc q H) as (P1 & P2 & P3 & _).
  pose proof (off_lt 0 l). pose proof (off_lt 1 l). pose proof (off_lt 2 l). apply rid_lt; lia.
Qed.
Lemma crn_inj nc q l q' l' : q < nc * nc * nc -> q' < nc * nc * nc -> l < 8 -> l' < 8 -> crn nc q l = crn nc q' l' -> q = q' /\ l = l'.
Proof.
  intros H H' Hl Hl' E. destruct (pos3 nc q H) as (P1 & P2 & P3 & P4). destruct (pos3 nc q' H') as (Q1 & Q2 & Q3 & Q4).
  pose proof (off_lt 0 l). pose proof (off_lt 1 l). pose proof (off_lt 2 l).
  pose proof (off_lt 0 l'). pose proof (off_lt 1 l'). pose proof (off_lt 2 l').
  unfold crn in E. apply rid_inj in E; [|lia..]. destruct E as (E1 & E2 & E3). split.
  - rewrite P4, Q4. f_equal; lia.
  - rewrite (off_dec l Hl), (off_dec l' Hl'). lia.
Qed.

Lemma surfs_ok n1 parts (f : nat -> R) : 2 <= n1 ->
  (forall i j k d, i < 2 * (n1 - 1) -> j < 2 * (n1 - 1) -> k < 2 * (n1 - 1) -> d < 3 ->
     getu parts (rid (2 * (n1 - 1)) i j k * 3 + d) = Ok (f (coord d i j k))) ->
  exists nrm swt, build_corner_surfs n1 parts = Ok (nrm, swt) /\
  let nc := n1 - 1 in
  forall i j k l, i < nc -> j < nc -> k < nc -> l < 8 ->
    let r := rid (2 * nc) (2 * i + off 0 l) (2 * j + off 1 l) (2 * k + off 2 l) in
    forall s, s < 3 ->
      (forall d, d < 3 -> ref_corner_surface_normals nrm r s d = Ok (if d =? s then sgn (off s l) else 0%R)) /\
      ref_corner_g_surface_weights swt r s = Ok (surf_w f s (2 * i + off 0 l) (2 * j + off 1 l) (2 * k + off 2 l)).
Proof.
  intros Hn Hp. unfold build_corner_surfs. cbv zeta.
  replace (2 * (n1 - 2) + 2) with (2 * (n1 - 1)) by lia. set (nc := n1 - 1) in *.
  set (body := fun k j i (st : list (option R) * list (option R)) =>
    do (nrm', swt', _) <-
     loop 2 (fun kr st => loop 2 (fun jr st => loop 2 (fun ir '(nrm, swt, corner_rlid) =>
      do (nrm1, swt1) <- loop 3 (surf_step parts (2 * i + 2 * (2 * nc) * j + 2 * (2 * nc) * (2 * nc) * k + ir + 2 * nc * jr + 2 * nc * (2 * nc) * kr) corner_rlid) (nrm, swt);
      Ok (nrm1, swt1, corner_rlid + 1)) st) st) (fst st, snd st, 0);
    Ok (nrm', swt')).
  match goal with |- exists nrm swt, ?X = _ /\ _ => replace X with (loop nc (fun k st => loop nc (fun j st => loop nc (fun i st => body k j i st) st) st)
    (repeat None (2 * nc * (2 * nc) * (2 * nc) * 9), repeat None (2 * nc * (2 * nc) * (2 * nc) * 3))) by reflexivity end.
  rewrite (loop3 nc nc nc body).
  set (SZ := 2 * nc * (2 * nc) * (2 * nc)).
  set (good := fun q l (nrm swt : list (option R)) => forall s, s < 3 ->
      (forall d, d < 3 -> nth (crn nc q l * 9 + s * 3 + d) nrm None = Some (if d =? s then sgn (off s l) else 0%R)) /\
      nth (crn nc q l * 3 + s) swt None = Some (surf_w f s (2 * (q mod nc) + off 0 l) (2 * (q / nc mod nc) + off 1 l) (2 * (q / nc / nc) + off 2 l))).
  edestruct (loop_inv (fun q '(nrm, swt) => length nrm = SZ * 9 /\ length swt = SZ * 3 /\
     forall q' l, q' < q -> l < 8 -> good q' l nrm swt) (nc * nc * nc)) as ((nrm & swt) & E & L1 & L2 & H).
  3: { exists nrm, swt. split; [exact E|]. intros i j k l Hi Hj Hk Hl s Hs. set (r := rid (2 * nc) (2 * i + off 0 l) (2 * j + off 1 l) (2 * k + off 2 l)).
       assert (G := H (rid nc i j k) l (rid_lt nc i j k Hi Hj Hk) Hl s Hs).
       unfold crn in G. destruct (rid_dec nc i j k Hi Hj) as (R1 & R2 & R3). rewrite R1, R2, R3 in G. fold r in G.
       destruct G as (G1 & G2). split; [intros d Hd|]; apply getu_nth; [apply G1; exact Hd|exact G2]. }
  - cbv beta iota. rewrite !repeat_length. repeat split; intros; lia.
  - intros q (nrm & swt) Hq (L1 & L2 & H). unfold body. cbn [fst snd].
    set (i := q mod nc). set (j := q / nc mod nc). set (k := q / nc / nc).
    rewrite (loop3 2 2 2 (fun kr jr ir '(nrm, swt, corner_rlid) =>
      do (nrm1, swt1) <- loop 3 (surf_step parts (2 * i + 2 * (2 * nc) * j + 2 * (2 * nc) * (2 * nc) * k + ir + 2 * nc * jr + 2 * nc * (2 * nc) * kr) corner_rlid) (nrm, swt);
      Ok (nrm1, swt1, corner_rlid + 1))).
    change (2 * 2 * 2) with 8.
    edestruct (loop_inv (fun l '(n', s', ctr) => length n' = SZ * 9 /\ length s' = SZ * 3 /\ ctr = l /\
       (forall q' l', q' < q -> l' < 8 -> good q' l' n' s') /\ forall l', l' < l -> good q l' n' s') 8)
     as (((n' & s') & ctr) & E & M1 & M2 & _ & M3 & M4).
    3: { cbv beta iota in E. rewrite E. cbn [bind]. exists (n', s'). split; [reflexivity|]. split; [exact M1|]. split; [exact M2|].
         intros q' l Hq' Hl. destruct (Nat.eq_dec q' q) as [->|Ne]; [apply M4; exact Hl|]. apply M3; lia. }
    + cbv beta iota. do 3 (split; [assumption || reflexivity|]). split; [exact H|]. intros; lia.
    + intros l ((n' & s') & ctr) Hl (M1 & M2 & -> & M3 & M4). cbv beta iota.
      assert (ER : 2 * i + 2 * (2 * nc) * j + 2 * (2 * nc) * (2 * nc) * k + l mod 2 + 2 * nc * (l / 2 mod 2) + 2 * nc * (2 * nc) * (l / 2 / 2) = crn nc q l).
      { unfold crn, off. change (2 ^ 0) with 1. change (2 ^ 1) with 2. change (2 ^ 2) with 4. rewrite Nat.div_1_r.
        rewrite (Nat.div_div l 2 2) by lia. change (2 * 2) with 4.
        rewrite (Nat.mod_small (l / 4)) by (apply Nat.div_lt_upper_bound; lia). fold i j k. unfold rid. ring. }
      rewrite ER.
      destruct (pos3 nc q Hq) as (P1 & P2 & P3 & _). fold i j k in P1, P2, P3.
      pose proof (off_lt 0 l). pose proof (off_lt 1 l). pose proof (off_lt 2 l). pose proof (crn_lt nc q l Hq) as CL. fold SZ in CL.
      destruct (surf_corner_ok parts (crn nc q l) l f (2 * i + off 0 l) (2 * j + off 1 l) (2 * k + off 2 l) n' s')
        as (n2 & s2 & E & B1 & B2 & B3 & B4 & B5 & B6); [exact Hl|lia|lia| |].
      { intros d Hd. unfold crn. fold i j k. apply Hp; lia. }
      rewrite E. cbn [bind]. eexists. split; [reflexivity|]. cbv beta iota. split; [lia|]. split; [lia|]. split; [lia|].
      assert (KEEP : forall q' l', crn nc q' l' <> crn nc q l -> good q' l' n' s' -> good q' l' n2 s2).
      { intros q' l' Hne G s Hs. destruct (G s Hs) as (G1 & G2). split.
        - intros d Hd. rewrite B5 by lia. apply G1. exact Hd.
        - rewrite B6 by lia. exact G2. }
      split.
      * intros q' l' Hq' Hl'. apply KEEP; [|apply M3; assumption].
        intros X. apply crn_inj in X; try assumption; lia.
      * intros l' Hl'. destruct (Nat.eq_dec l' l) as [->|Ne].
        -- intros s Hs. split; [intros d Hd; apply B3; assumption|apply B4; exact Hs].
        -- apply KEEP; [|apply M4; lia]. intros X. apply crn_inj in X; try assumption; lia.
Qed.

Open Scope R_scope.
(** 1D sum of the signs at a node *)
Lemma sgn_at n1 I : (2 <= n1)%nat -> (I < n1)%nat ->
  rsum (n1 - 1) (fun i => at_ I (i + 0) (sgn 0) + at_ I (i + 1) (sgn 1)) =
  if (I =? 0)%nat then -1 else if (I =? n1 - 1)%nat then 1 else 0.
Proof.
  intros Hn HI. rewrite rsum_plus. unfold sgn. cbn [Nat.eqb].
  assert (A : rsum (n1 - 1) (fun i => at_ I (i + 0) (-1)) = if (I =? n1 - 1)%nat then 0 else -1).
  { destruct (Nat.eqb_spec I (n1 - 1)) as [->|Ne].
    - apply rsum_zero. intros i Hi. unfold at_. destruct (Nat.eqb_spec (i + 0) (n1 - 1)); [lia|reflexivity].
    - rewrite (rsum_single _ I); [|lia|].
      + unfold at_. rewrite !Nat.add_0_r, Nat.eqb_refl. reflexivity.
      + intros i Hi Hne. unfold at_. destruct (Nat.eqb_spec (i + 0) I); [lia|reflexivity]. }
  assert (B : rsum (n1 - 1) (fun i => at_ I (i + 1) 1) = if (I =? 0)%nat then 0 else 1).
  { destruct (Nat.eqb_spec I 0) as [->|Ne].
    - apply rsum_zero. intros i Hi. unfold at_. destruct (Nat.eqb_spec (i + 1) 0); [lia|reflexivity].
    - rewrite (rsum_single _ (I - 1)%nat); [|lia|].
      + unfold at_. destruct (Nat.eqb_spec (I - 1 + 1) I); [|lia]. reflexivity.
      + intros i Hi Hne. unfold at_. destruct (Nat.eqb_spec (i + 1) I); [lia|reflexivity]. }
  rewrite A, B. destruct (Nat.eqb_spec I (n1 - 1)), (Nat.eqb_spec I 0); try lia; lra.
Qed.

(** All tables at once, seen through the accessors. *)
Lemma weights_spec n1 (w : list R) : (2 <= n1)%nat -> length w = n1 ->
  exists crn nod cw g parts ng nrm swt,
    build_ref_corners n1 = Ok (crn, nod) /\ corner_weights_1d n1 w = Ok cw /\
    build_corner_weights n1 cw = Ok g /\ build_corner_parts n1 cw = Ok parts /\
    build_node_weights n1 w = Ok ng /\ build_corner_surfs n1 parts = Ok (nrm, swt) /\
  exists (cof nof : nat -> nat -> nat) (cwt nwt : nat -> R) (sw : nat -> nat -> R) (nm : nat -> nat -> nat -> R),
    let nc := (n1 - 1)%nat in
    (forall c l, (c < nc * nc * nc)%nat -> (l < 8)%nat ->
       ref_corners_in_cell crn c l = Ok (cof c l) /\ ref_nodes_in_cell nod c l = Ok (nof c l) /\
       getu g (cof c l) = Ok (cwt (cof c l)) /\
       forall s, (s < 3)%nat -> ref_corner_g_surface_weights swt (cof c l) s = Ok (sw (cof c l) s) /\
         forall d, (d < 3)%nat -> ref_corner_surface_normals nrm (cof c l) s d = Ok (nm (cof c l) s d)) /\
    (forall m, (m < n1 * n1 * n1)%nat -> getu ng m = Ok (nwt m)) /\
    (** node weights are product weights *)
    (forall I J K, (I < n1)%nat -> (J < n1)%nat -> (K < n1)%nat -> nwt (rid n1 I J K) = nth I w 0 * nth J w 0 * nth K w 0) /\
    (** the corner weights at a node sum to the node weight *)
    (forall m, (m < n1 * n1 * n1)%nat ->
       rsum (nc * nc * nc) (fun c => rsum 8 (fun l => if (nof c l =? m)%nat then cwt (cof c l) else 0)) = nwt m) /\
    (** all corner weights together *)
    rsum (2 * nc * (2 * nc) * (2 * nc)) cwt = rsum n1 (fun i => nth i w 0) ^ 3 /\
    (** normals point along direction s, outwards from the cell, and are zero in the other directions *)
    (forall i j k l s d, (i < nc)%nat -> (j < nc)%nat -> (k < nc)%nat -> (l < 8)%nat -> (s < 3)%nat -> (d < 3)%nat ->
       nm (cof (rid nc i j k) l) s d = if (d =? s)%nat then sgn (off s l) else 0) /\
    (** area-weighted normals of the corners at a node cancel inside and leave the outward area vector on the surface *)
    (forall I J K s, (I < n1)%nat -> (J < n1)%nat -> (K < n1)%nat -> (s < 3)%nat ->
       rsum (nc * nc * nc) (fun c => rsum 8 (fun l =>
         if (nof c l =? rid n1 I J K)%nat then sw (cof c l) s * nm (cof c l) s s else 0)) =
       (if (coord s I J K =? 0)%nat then -1 else if (coord s I J K =? n1 - 1)%nat then 1 else 0) *
       surf_w (fun i => nth i w 0) s I J K).
Proof.
  intros Hn L.
  destruct (corners_spec n1 Hn) as (crn & nod & E1 & H1).
  destruct (corner_weights_ok n1 w Hn L) as (cw & g & parts & E2 & E3 & E4 & H2). cbv zeta in H2.
  destruct (tensor_ok n1 w L) as (ng & E5 & H3).
  destruct (surfs_ok n1 parts (corner_share n1 w) Hn) as (nrm & swt & E6 & H4).
  { intros i j k d Hi Hj Hk Hd. apply H2; assumption. }
  cbv zeta in H4.
  exists crn, nod, cw, g, parts, ng, nrm, swt. repeat (split; [assumption|]).
  set (nc := (n1 - 1)%nat) in *. set (f := corner_share n1 w) in *.
  set (ci := fun r => (r mod (2 * nc))%nat). set (cj := fun r => ((r / (2 * nc)) mod (2 * nc))%nat). set (ck := fun r => (r / (2 * nc) / (2 * nc))%nat).
  exists (fun c l => rid (2 * nc) (2 * (c mod nc) + off 0 l) (2 * ((c / nc) mod nc) + off 1 l) (2 * (c / nc / nc) + off 2 l)).
  exists (fun c l => rid n1 (c mod nc + off 0 l) ((c / nc) mod nc + off 1 l) (c / nc / nc + off 2 l)).
  exists (fun r => f (ci r) * f (cj r) * f (ck r)).
  exists (fun m => nth (m mod n1) w 0 * nth ((m / n1) mod n1) w 0 * nth (m / n1 / n1) w 0).
  exists (fun r s => surf_w f s (ci r) (cj r) (ck r)).
  exists (fun r s d => if (d =? s)%nat then sgn (coord s (ci r) (cj r) (ck r) mod 2) else 0).
  cbv zeta beta.
  assert (DEC : forall c l, (c < nc * nc * nc)%nat -> (l < 8)%nat ->
     let r := rid (2 * nc) (2 * (c mod nc) + off 0 l) (2 * ((c / nc) mod nc) + off 1 l) (2 * (c / nc / nc) + off 2 l) in
     ci r = (2 * (c mod nc) + off 0 l)%nat /\ cj r = (2 * ((c / nc) mod nc) + off 1 l)%nat /\ ck r = (2 * (c / nc / nc) + off 2 l)%nat).
  { intros c l Hc Hl r. destruct (pos3 nc c Hc) as (P1 & P2 & P3 & _).
    pose proof (off_lt 0 l). pose proof (off_lt 1 l). apply rid_dec; lia. }
  assert (SG : forall a b, (b < 2)%nat -> ((2 * a + b) mod 2 = b)%nat).
  { intros a b Hb. rewrite (Nat.mul_comm 2). apply digit_lo. exact Hb. }
  split.
  { intros c l Hc Hl. destruct (pos3 nc c Hc) as (P1 & P2 & P3 & P4). destruct (DEC c l Hc Hl) as (D1 & D2 & D3).
    pose proof (off_lt 0 l) as O0. pose proof (off_lt 1 l) as O1. pose proof (off_lt 2 l) as O2.
    set (i := (c mod nc)%nat) in *. set (j := ((c / nc) mod nc)%nat) in *. set (k := (c / nc / nc)%nat) in *.
    rewrite D1, D2, D3. rewrite P4.
    destruct (H1 i j k l P3 P2 P1 Hl) as (-> & ->). split; [reflexivity|]. split; [reflexivity|].
    destruct (H2 (2 * i + off 0 l)%nat (2 * j + off 1 l)%nat (2 * k + off 2 l)%nat) as (-> & _); [lia..|]. split; [reflexivity|].
    intros s Hs. destruct (H4 i j k l P3 P2 P1 Hl s Hs) as (A & ->). split; [reflexivity|].
    intros d Hd. rewrite A by exact Hd. do 2 f_equal. destruct (d =? s)%nat; [|reflexivity]. f_equal.
    destruct s as [|[|[|s]]]; [| | |lia]; cbn [coord]; rewrite SG by assumption; reflexivity. }
  assert (NW : forall I J K, (I < n1)%nat -> (J < n1)%nat -> (K < n1)%nat ->
     nth (rid n1 I J K mod n1) w 0 * nth ((rid n1 I J K / n1) mod n1) w 0 * nth (rid n1 I J K / n1 / n1) w 0
      = nth I w 0 * nth J w 0 * nth K w 0).
  { intros I J K HI HJ HK. destruct (rid_dec n1 I J K HI HJ) as (-> & -> & ->). reflexivity. }
  split.
  { intros m Hm. destruct (pos3 n1 m Hm) as (P1 & P2 & P3 & P4). rewrite P4 at 1. apply H3; assumption. }
  split; [exact NW|].
  split.
  { intros m Hm. destruct (pos3 n1 m Hm) as (P1 & P2 & P3 & P4).
    set (I := (m mod n1)%nat) in *. set (J := ((m / n1) mod n1)%nat) in *. set (K := (m / n1 / n1)%nat) in *.
    rewrite <- (share_at n1 w I), <- (share_at n1 w J), <- (share_at n1 w K) by assumption.
    rewrite P4. fold nc f.
    rewrite (rsum_ext (nc * nc * nc) _ (fun c => rsum 8 (fun l =>
      if (rid n1 (c mod nc + off 0 l) ((c / nc) mod nc + off 1 l) (c / nc / nc + off 2 l) =? rid n1 I J K)%nat
      then f (2 * (c mod nc) + off 0 l)%nat * f (2 * ((c / nc) mod nc) + off 1 l)%nat * f (2 * (c / nc / nc) + off 2 l)%nat else 0))).
    2:{ intros c Hc. apply rsum_ext. intros l Hl. destruct (DEC c l Hc Hl) as (-> & -> & ->). reflexivity. }
    apply (node_sum n1 (fun c l => rid n1 (c mod nc + off 0 l) ((c / nc) mod nc + off 1 l) (c / nc / nc + off 2 l))
      (fun c l => f (2 * (c mod nc) + off 0 l)%nat * f (2 * ((c / nc) mod nc) + off 1 l)%nat * f (2 * (c / nc / nc) + off 2 l)%nat)
      (fun i a => f (2 * i + a)%nat) (fun i a => f (2 * i + a)%nat) (fun i a => f (2 * i + a)%nat)); try assumption.
    intros i j k l Hi Hj Hk Hl. fold nc in Hi, Hj, Hk |- *. destruct (rid_dec nc i j k Hi Hj) as (-> & -> & ->). split; reflexivity. }
  split.
  { unfold ci, cj, ck. rewrite (rsum_grid (2 * nc) f f f). unfold f, nc. rewrite share_total by exact Hn. ring. }
  split.
  { intros i j k l s d Hi Hj Hk Hl Hs Hd. assert (HC := rid_lt nc i j k Hi Hj Hk).
    destruct (DEC _ l HC Hl) as (-> & -> & ->). destruct (rid_dec nc i j k Hi Hj) as (-> & -> & ->).
    pose proof (off_lt 0 l) as O0. pose proof (off_lt 1 l) as O1. pose proof (off_lt 2 l) as O2.
    destruct (d =? s)%nat; [|reflexivity]. f_equal.
    destruct s as [|[|[|s]]]; [| | |lia]; cbn [coord]; apply SG; assumption. }
  intros I J K s HI HJ HK Hs.
  set (F := fun d i a => if (d =? s)%nat then sgn a else f (2 * i + a)%nat).
  rewrite (rsum_ext (nc * nc * nc) _ (fun c => rsum 8 (fun l =>
      if (rid n1 (c mod nc + off 0 l) ((c / nc) mod nc + off 1 l) (c / nc / nc + off 2 l) =? rid n1 I J K)%nat
      then F 0%nat (c mod nc)%nat (off 0 l) * F 1%nat ((c / nc) mod nc)%nat (off 1 l) * F 2%nat (c / nc / nc)%nat (off 2 l) else 0))).
  2:{ intros c Hc. apply rsum_ext. intros l Hl. destruct (DEC c l Hc Hl) as (-> & -> & ->).
      pose proof (off_lt 0 l) as O0. pose proof (off_lt 1 l) as O1. pose proof (off_lt 2 l) as O2.
      match goal with |- (if ?b then _ else _) = _ => destruct b end; [|reflexivity]. unfold F. rewrite Nat.eqb_refl.
      destruct s as [|[|[|s]]]; [| | |lia]; cbn [coord surf_w Nat.eqb]; rewrite SG by assumption; ring. }
  etransitivity; [apply (node_sum n1 (fun c l => rid n1 (c mod nc + off 0 l) ((c / nc) mod nc + off 1 l) (c / nc / nc + off 2 l))
      (fun c l => F 0%nat (c mod nc)%nat (off 0 l) * F 1%nat ((c / nc) mod nc)%nat (off 1 l) * F 2%nat (c / nc / nc)%nat (off 2 l))
      (F 0%nat) (F 1%nat) (F 2%nat) I J K Hn HI HJ HK);
    intros i j k l Hi Hj Hk Hl; fold nc in Hi, Hj, Hk |- *; destruct (rid_dec nc i j k Hi Hj) as (-> & -> & ->); split; reflexivity|].
  cbv zeta.
  pose proof (share_at n1 w I Hn HI) as SI. pose proof (share_at n1 w J Hn HJ) as SJ. pose proof (share_at n1 w K Hn HK) as SK.
  pose proof (sgn_at n1 I Hn HI) as TI. pose proof (sgn_at n1 J Hn HJ) as TJ. pose proof (sgn_at n1 K Hn HK) as TK.
  unfold F. destruct s as [|[|[|s]]]; [| | |lia]; cbn [Nat.eqb coord surf_w]; unfold f, nc in *;
   rewrite ?SI, ?SJ, ?SK, ?TI, ?TJ, ?TK; ring.
Qed.
