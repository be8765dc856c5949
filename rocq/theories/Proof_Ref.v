(** Proofs about the index spaces of the reference element. *)
From Coq Require Import List Arith ZArith Lia Bool Sorted Reals.
Import ListNotations.
Require Import Verif.Base Verif.NatSum Verif.Model_Ref Verif.Spec_Ref.

(** ---- positions ---- *)
Lemma pos3 n q : q < n * n * n ->
  q / n / n < n /\ q / n mod n < n /\ q mod n < n /\ q = rid n (q mod n) (q / n mod n) (q / n / n).
Proof.
  intros H. assert (n <> 0) by (intros ->; lia).
  destruct (divmod_pos q n (n * n) H) as (A1 & A2 & A3).
  destruct (divmod_pos (q / n) n n A1) as (B1 & B2 & B3).
  repeat (split; [assumption|]). unfold rid. nia.
Qed.
Lemma rid_lt n i j k : i < n -> j < n -> k < n -> rid n i j k < n * n * n.
Proof. unfold rid. intros. assert (i + j * n < n * n) by nia. nia. Qed.
Lemma rid_dec n i j k : i < n -> j < n ->
  rid n i j k mod n = i /\ rid n i j k / n mod n = j /\ rid n i j k / n / n = k.
Proof.
  intros Hi Hj. assert (E : rid n i j k = (k * n + j) * n + i) by (unfold rid; ring). rewrite E.
  destruct (digit_lo n (k * n + j) i Hi) as (-> & ->).
  destruct (digit_lo n k j Hj) as (-> & ->). auto.
Qed.
Lemma rid_inj n i j k i' j' k' : i < n -> j < n -> i' < n -> j' < n ->
  rid n i j k = rid n i' j' k' -> i = i' /\ j = j' /\ k = k'.
Proof.
  intros H1 H2 H3 H4 E. destruct (rid_dec n i j k H1 H2) as (A & B & C).
  destruct (rid_dec n i' j' k' H3 H4) as (A' & B' & C'). rewrite E in *. lia.
Qed.
Lemma off_lt d l : off d l < 2.
Proof. apply Nat.mod_upper_bound. lia. Qed.
Lemma off_dec l : l < 8 -> l = off 0 l + 2 * off 1 l + 4 * off 2 l.
Proof. intros H. do 8 (destruct l as [|l]; [reflexivity|]). lia. Qed.
Lemma off_enc a b c : a < 2 -> b < 2 -> c < 2 ->
  let l := a + 2 * b + 4 * c in l < 8 /\ off 0 l = a /\ off 1 l = b /\ off 2 l = c.
Proof.
  intros Ha Hb Hc. destruct a as [|[|a]]; try lia; destruct b as [|[|b]]; try lia;
  destruct c as [|[|c]]; try lia; cbv; repeat split; lia.
Qed.

Lemma getu_nth {A} (l : list (option A)) i v : nth i l None = Some v -> getu l i = Ok v.
Proof.
  intros H. unfold getu. destruct (Nat.ltb_spec i (length l)) as [L|L].
  - rewrite (nth_error_nth' l None L), H. reflexivity.
  - rewrite nth_overflow in H by exact L. discriminate.
Qed.

(** ---- writing eight entries per cell with a running cell counter ---- *)
Lemma write8 (vals : list nat) lst a : length vals = 8 -> a + 8 <= length lst ->
  exists lst', loop 8 (fun l g => do v <- get vals l; set g (a + l) (Some v)) lst = Ok lst' /\
    length lst' = length lst /\
    (forall l, l < 8 -> nth (a + l) lst' None = Some (nth l vals 0)) /\
    (forall p, p < a \/ a + 8 <= p -> nth p lst' None = nth p lst None).
Proof.
  intros L H.
  edestruct (loop_inv (fun i l => length l = length lst /\ (forall k, k < i -> nth (a + k) l None = Some (nth k vals 0)) /\
     (forall j, j < a \/ a + 8 <= j -> nth j l None = nth j lst None)) 8) as (l & E & H1 & H2 & H3).
  3: { exists l. rewrite E. auto. }
  - split; [reflexivity|]. split; [intros; lia|auto].
  - intros i l Hi (L1 & L2 & L3). rewrite (get_ok vals i 0) by lia. cbn [bind]. rewrite set_ok by lia.
    eexists. split; [reflexivity|]. rewrite upd_length. split; [exact L1|]. split.
    + intros k Hk. destruct (Nat.eq_dec k i) as [->|Ne]; [rewrite nth_upd_eq by lia; reflexivity|].
      rewrite nth_upd_neq by lia. apply L2. lia.
    + intros j Hj. rewrite nth_upd_neq by lia. auto.
Qed.

Lemma grid8 n (f : nat -> nat -> nat -> list nat) : (forall i j k, length (f i j k) = 8) ->
  exists lst,
    loop n (fun k st => loop n (fun j st => loop n (fun i '(lst, ctr) =>
      do lst' <- loop 8 (fun l g => do v <- get (f i j k) l; set g (ctr * 8 + l) (Some v)) lst;
      Ok (lst', ctr + 1)) st) st) (repeat None (n * n * n * 8), 0) = Ok (lst, n * n * n) /\
    forall q l, q < n * n * n -> l < 8 ->
      nth (q * 8 + l) lst None = Some (nth l (f (q mod n) (q / n mod n) (q / n / n)) 0).
Proof.
  intros Hf.
  rewrite (loop3 n n n (fun k j i '(lst, ctr) =>
      do lst' <- loop 8 (fun l g => do v <- get (f i j k) l; set g (ctr * 8 + l) (Some v)) lst;
      Ok (lst', ctr + 1))).
  edestruct (loop_inv (fun q '(lst, ctr) => length lst = n * n * n * 8 /\ ctr = q /\
     forall q' l, q' < q -> l < 8 ->
       nth (q' * 8 + l) lst None = Some (nth l (f (q' mod n) (q' / n mod n) (q' / n / n)) 0)) (n * n * n))
    as ((lst & ctr) & E & L & -> & H).
  3: { exists lst. rewrite E. split; [reflexivity|exact H]. }
  - cbv beta iota. rewrite repeat_length. repeat split; try reflexivity. intros; lia.
  - intros q (lst & ctr) Hq (L & -> & H).
    destruct (write8 (f (q mod n) (q / n mod n) (q / n / n)) lst (q * 8) (Hf _ _ _)) as (lst' & E & L' & A & B); [lia|].
    cbv beta iota. rewrite E. cbn [bind]. eexists. split; [reflexivity|]. cbv beta iota.
    split; [lia|]. split; [lia|]. intros q' l Hq' Hl. destruct (Nat.eq_dec q' q) as [->|Ne]; [auto|].
    rewrite B by lia. apply H; lia.
Qed.

Ltac offs := repeat match goal with |- context [off ?d ?l] =>
  let v := eval compute in (off d l) in change (off d l) with v end.

Lemma zone_cells_nth nc i j k l : l < 8 ->
  nth l (zone_cells nc i j k) 0 = rid nc (2 * i + off 0 l) (2 * j + off 1 l) (2 * k + off 2 l).
Proof.
  intros H. do 8 (destruct l as [|l]; [cbn [nth zone_cells]; offs; rewrite ?Nat.add_0_r; reflexivity|]). lia.
Qed.
Lemma cell_corner_nth n i j k l : l < 8 ->
  nth l (cell_corner_nodes n i j k) 0 = rid n (i + off 0 l) (j + off 1 l) (k + off 2 l).
Proof.
  intros H. do 8 (destruct l as [|l]; [cbn [nth cell_corner_nodes]; offs; rewrite ?Nat.add_0_r; reflexivity|]). lia.
Qed.

(** ---- zones (C34) ---- *)
Lemma sizes_pos p : 1 <= p ->
  ref_sizes_of p = {| rs_nodes_1d := 2 * p + 1; rs_verts_1d := p + 1; rs_zones_1d := p; rs_zone_len := 8;
     rs_cells_1d := 2 * p; rs_corners_1d := 4 * p;
     rs_nodes := (2*p+1)*(2*p+1)*(2*p+1); rs_verts := (p+1)*(p+1)*(p+1); rs_zones := p * p * p;
     rs_cells := 2*p*(2*p)*(2*p); rs_corners := 4*p*(4*p)*(4*p);
     rs_inside := (2*p-1)*(2*p-1)*(2*p-1);
     rs_surface := (2*p+1)*(2*p+1)*(2*p+1) - (2*p-1)*(2*p-1)*(2*p-1);
     rs_patches := (2*p+1)*(2*p*(2*p))*3 |}.
Proof.
  intros H. unfold ref_sizes_of. destruct (Nat.eqb_spec p 0); [lia|].
  replace (2 * p + 1 - 1) with (2 * p) by lia. replace (2 * p + 1 - 2) with (2 * p - 1) by lia.
  replace (2 * (2 * p - 1) + 2) with (4 * p) by lia.
  replace (2 * p / 2) with p by (rewrite Nat.mul_comm, Nat.div_mul by lia; reflexivity). reflexivity.
Qed.

Lemma zones_spec p : 1 <= p -> exists lst, build_zones p = Ok lst /\
  forall i j k l, i < p -> j < p -> k < p -> l < 8 ->
    cell_lid_in_zone p lst (rid p i j k) l = Ok (rid (2 * p) (2 * i + off 0 l) (2 * j + off 1 l) (2 * k + off 2 l)).
Proof.
  intros Hp. unfold build_zones, cell_lid_in_zone. rewrite (sizes_pos p Hp). cbn [rs_zones_1d rs_cells_1d rs_zone_len rs_zones].
  destruct (Nat.eqb_spec p 0); [lia|].
  destruct (grid8 p (zone_cells (2 * p))) as (lst & E & H); [reflexivity|].
  rewrite E. cbn [bind]. exists lst. split; [reflexivity|]. intros i j k l Hi Hj Hk Hl.
  destruct (Nat.ltb_spec l 8); [|lia]. apply getu_nth. rewrite H; [|apply rid_lt; assumption|exact Hl].
  destruct (rid_dec p i j k Hi Hj) as (-> & -> & ->). rewrite zone_cells_nth by exact Hl. reflexivity.
Qed.

Lemma zones_partition p : 1 <= p -> exists lst, build_zones p = Ok lst /\
  (forall z l, z < rs_zones (ref_sizes_of p) -> l < 8 ->
     exists c, cell_lid_in_zone p lst z l = Ok c /\ c < rs_cells (ref_sizes_of p)) /\
  (forall c, c < rs_cells (ref_sizes_of p) ->
     exists z l, (z < rs_zones (ref_sizes_of p) /\ l < 8 /\ cell_lid_in_zone p lst z l = Ok c) /\
  forall z' l', z' < rs_zones (ref_sizes_of p) -> l' < 8 -> cell_lid_in_zone p lst z' l' = Ok c -> z' = z /\ l' = l).
Proof.
  intros Hp. destruct (zones_spec p Hp) as (lst & E & H). exists lst. split; [exact E|].
  rewrite (sizes_pos p Hp). cbn [rs_zones rs_cells]. split.
  - intros z l Hz Hl. destruct (pos3 p z Hz) as (Z1 & Z2 & Z3 & Z4). rewrite Z4.
    rewrite H by assumption. eexists. split; [reflexivity|].
    pose proof (off_lt 0 l). pose proof (off_lt 1 l). pose proof (off_lt 2 l). apply rid_lt; lia.
  - intros c Hc. destruct (pos3 (2 * p) c Hc) as (C1 & C2 & C3 & C4).
    set (I := c mod (2 * p)) in *. set (J := c / (2 * p) mod (2 * p)) in *. set (K := c / (2 * p) / (2 * p)) in *.
    assert (DI := Nat.div_mod I 2 ltac:(lia)). assert (DJ := Nat.div_mod J 2 ltac:(lia)). assert (DK := Nat.div_mod K 2 ltac:(lia)).
    assert (MI := Nat.mod_upper_bound I 2 ltac:(lia)). assert (MJ := Nat.mod_upper_bound J 2 ltac:(lia)).
    assert (MK := Nat.mod_upper_bound K 2 ltac:(lia)).
    destruct (off_enc (I mod 2) (J mod 2) (K mod 2) MI MJ MK) as (O1 & O2 & O3 & O4).
    set (l := I mod 2 + 2 * (J mod 2) + 4 * (K mod 2)) in *.
    exists (rid p (I / 2) (J / 2) (K / 2)), l. split.
    + split; [apply rid_lt; lia|]. split; [exact O1|]. rewrite H by (try assumption; lia).
      rewrite O2, O3, O4, <- DI, <- DJ, <- DK. f_equal. symmetry. exact C4.
    + intros z' l' Hz' Hl' E'. destruct (pos3 p z' Hz') as (Z1 & Z2 & Z3 & Z4).
      rewrite Z4 in E'. rewrite H in E' by assumption. injection E' as E'. rewrite C4 in E'.
      pose proof (off_lt 0 l'). pose proof (off_lt 1 l'). pose proof (off_lt 2 l').
      apply rid_inj in E'; [|lia..]. destruct E' as (EI & EJ & EK).
      assert (z' mod p = I / 2 /\ off 0 l' = I mod 2) as (? & ?) by lia.
      assert (z' / p mod p = J / 2 /\ off 1 l' = J mod 2) as (? & ?) by lia.
      assert (z' / p / p = K / 2 /\ off 2 l' = K mod 2) as (? & ?) by lia.
      split; [rewrite Z4; congruence|]. rewrite (off_dec l' Hl'). unfold l. lia.
Qed.

Lemma zones_order0 : exists lst, build_zones 0 = Ok lst /\ cell_lid_in_zone 0 lst 0 0 = Ok 0 /\
  forall l, 1 <= l -> cell_lid_in_zone 0 lst 0 l = Err OOB.
Proof.
  eexists. split; [reflexivity|]. split; [reflexivity|]. intros l Hl. destruct l; [lia|reflexivity].
Qed.

(** ---- nodes of the cells, corners (C35) ---- *)
Lemma cell_nodes_spec n1 : exists lst, build_cell_nodes_in_elem n1 = Ok lst /\
  forall i j k l, i < n1 - 1 -> j < n1 - 1 -> k < n1 - 1 -> l < 8 ->
    cell_nodes_in_elem lst (rid (n1 - 1) i j k) l = Ok (rid n1 (i + off 0 l) (j + off 1 l) (k + off 2 l)).
Proof.
  unfold build_cell_nodes_in_elem. destruct (grid8 (n1 - 1) (cell_corner_nodes n1)) as (lst & E & H); [reflexivity|].
  cbv zeta. rewrite E. cbn [bind]. exists lst. split; [reflexivity|]. intros i j k l Hi Hj Hk Hl.
  apply getu_nth. rewrite H; [|apply rid_lt; assumption|exact Hl].
  destruct (rid_dec (n1 - 1) i j k Hi Hj) as (-> & -> & ->). rewrite cell_corner_nth by exact Hl. reflexivity.
Qed.

Lemma corners_spec n1 : 2 <= n1 -> exists crn nod, build_ref_corners n1 = Ok (crn, nod) /\
  forall i j k l, i < n1 - 1 -> j < n1 - 1 -> k < n1 - 1 -> l < 8 ->
    ref_corners_in_cell crn (rid (n1 - 1) i j k) l =
      Ok (rid (2 * (n1 - 1)) (2 * i + off 0 l) (2 * j + off 1 l) (2 * k + off 2 l)) /\
  ref_nodes_in_cell nod (rid (n1 - 1) i j k) l = Ok (rid n1 (i + off 0 l) (j + off 1 l) (k + off 2 l)).
Proof.
  intros Hn. unfold build_ref_corners. cbv zeta. set (nc := n1 - 1). set (r1 := 2 * (n1 - 2) + 2).
  assert (Er : r1 = 2 * nc) by (unfold r1, nc; lia). clearbody r1. subst r1.
  set (body := fun k j i (st : list (option nat) * list (option nat) * nat) =>
      loop 2 (fun kr st => loop 2 (fun jr st => loop 2 (fun ir '(crn, nod, index) =>
        do crn' <- set crn index (Some (2 * i + 2 * (2 * nc) * j + 2 * (2 * nc) * (2 * nc) * k + ir + 2 * nc * jr + 2 * nc * (2 * nc) * kr));
        do nod' <- set nod index (Some (rid n1 (i + ir) (j + jr) (k + kr)));
        Ok (crn', nod', index + 1)) st) st) st).
  change (exists crn nod, (do (crn, nod, _) <- loop nc (fun k st => loop nc (fun j st => loop nc (fun i st => body k j i st) st) st)
    (repeat None (2 * nc * (2 * nc) * (2 * nc)), repeat None (2 * nc * (2 * nc) * (2 * nc)), 0); Ok (crn, nod)) = Ok (crn, nod) /\
  forall i j k l, i < nc -> j < nc -> k < nc -> l < 8 ->
    ref_corners_in_cell crn (rid nc i j k) l = Ok (rid (2 * nc) (2 * i + off 0 l) (2 * j + off 1 l) (2 * k + off 2 l)) /\
  ref_nodes_in_cell nod (rid nc i j k) l = Ok (rid n1 (i + off 0 l) (j + off 1 l) (k + off 2 l))).
  rewrite (loop3 nc nc nc body).
  set (C := fun q l => rid (2 * nc) (2 * (q mod nc) + off 0 l) (2 * (q / nc mod nc) + off 1 l) (2 * (q / nc / nc) + off 2 l)).
  set (D := fun q l => rid n1 (q mod nc + off 0 l) (q / nc mod nc + off 1 l) (q / nc / nc + off 2 l)).
  edestruct (loop_inv (fun q '(crn, nod, ix) => length crn = nc * nc * nc * 8 /\ length nod = nc * nc * nc * 8 /\ ix = q * 8 /\
  forall q' l, q' < q -> l < 8 -> nth (q' * 8 + l) crn None = Some (C q' l) /\ nth (q' * 8 + l) nod None = Some (D q' l))
     (nc * nc * nc)) as (((crn & nod) & ix) & E & L1 & L2 & _ & H).
  3: { rewrite E. cbn [bind]. exists crn, nod. split; [reflexivity|]. intros i j k l Hi Hj Hk Hl.
       destruct (H (rid nc i j k) l (rid_lt nc i j k Hi Hj Hk) Hl) as (H1 & H2).
       unfold C, D in H1, H2. destruct (rid_dec nc i j k Hi Hj) as (R1 & R2 & R3). rewrite R1, R2, R3 in H1, H2.
       unfold ref_corners_in_cell, ref_nodes_in_cell. rewrite (Nat.add_comm l). split; apply getu_nth; assumption. }
  - cbv beta iota. rewrite !repeat_length. repeat split; try lia; try nia.
  - intros q ((crn & nod) & ix) Hq (L1 & L2 & -> & H). unfold body.
    rewrite (loop3 2 2 2 (fun kr jr ir '(crn, nod, index) =>
        do crn' <- set crn index (Some (2 * (q mod nc) + 2 * (2 * nc) * (q / nc mod nc) + 2 * (2 * nc) * (2 * nc) * (q / nc / nc) + ir + 2 * nc * jr + 2 * nc * (2 * nc) * kr));
        do nod' <- set nod index (Some (rid n1 (q mod nc + ir) (q / nc mod nc + jr) (q / nc / nc + kr)));
        Ok (crn', nod', index + 1))).
    change (2 * 2 * 2) with 8.
    edestruct (loop_inv (fun l '(crn', nod', ix) => length crn' = nc * nc * nc * 8 /\ length nod' = nc * nc * nc * 8 /\ ix = q * 8 + l /\
  (forall p, p < q * 8 -> nth p crn' None = nth p crn None /\ nth p nod' None = nth p nod None) /\
  forall l', l' < l -> nth (q * 8 + l') crn' None = Some (C q l') /\ nth (q * 8 + l') nod' None = Some (D q l')) 8)
     as (((crn' & nod') & ix) & E & M1 & M2 & Eix & M3 & M4).
    3: { exists (crn', nod', ix). split; [exact E|]. cbv beta iota. split; [exact M1|]. split; [exact M2|]. split; [lia|].
         intros q' l Hq' Hl. destruct (Nat.eq_dec q' q) as [->|Ne]; [apply M4; exact Hl|].
         destruct (M3 (q' * 8 + l) ltac:(lia)) as (-> & ->). apply H; lia. }
    + cbv beta iota. split; [exact L1|]. split; [exact L2|]. split; [lia|]. split; [auto|]. intros; lia.
    + intros l ((c & d) & ix) Hl (M1 & M2 & -> & M3 & M4). cbv beta iota. rewrite !set_ok by lia. cbn [bind].
      eexists. split; [reflexivity|]. cbv beta iota. rewrite !upd_length. split; [exact M1|]. split; [exact M2|].
      split; [lia|]. split.
      * intros p Hp. rewrite !nth_upd_neq by lia. auto.
      * intros l' Hl'. destruct (Nat.eq_dec l' l) as [->|Ne].
        -- rewrite !nth_upd_eq by lia. unfold C, D, off.
           change (2 ^ 0) with 1. change (2 ^ 1) with 2. change (2 ^ 2) with 4. rewrite Nat.div_1_r.
           rewrite (Nat.div_div l 2 2) by lia. change (2 * 2) with 4.
           rewrite (Nat.mod_small (l / 4)) by (apply Nat.div_lt_upper_bound; lia).
           split; [|reflexivity]. f_equal. unfold rid. ring.
        -- rewrite !nth_upd_neq by lia. apply M4. lia.
Qed.

Lemma corners_enumerate n1 : 2 <= n1 -> exists crn nod cel, build_ref_corners n1 = Ok (crn, nod) /\
  build_cell_nodes_in_elem n1 = Ok cel /\
  let nc := n1 - 1 in
  (forall c l, c < nc * nc * nc -> l < 8 ->
     exists r m, ref_corners_in_cell crn c l = Ok r /\ r < 2 * nc * (2 * nc) * (2 * nc) /\
  ref_nodes_in_cell nod c l = Ok m /\ cell_nodes_in_elem cel c l = Ok m /\ m < n1 * n1 * n1) /\
  (forall r, r < 2 * nc * (2 * nc) * (2 * nc) ->
     exists c l, (c < nc * nc * nc /\ l < 8 /\ ref_corners_in_cell crn c l = Ok r) /\
  forall c' l', c' < nc * nc * nc -> l' < 8 -> ref_corners_in_cell crn c' l' = Ok r -> c' = c /\ l' = l).
Proof.
  intros Hn. destruct (corners_spec n1 Hn) as (crn & nod & E & H). destruct (cell_nodes_spec n1) as (cel & E2 & H2).
  exists crn, nod, cel. split; [exact E|]. split; [exact E2|]. cbv zeta. set (nc := n1 - 1) in *. split.
  - intros c l Hc Hl. destruct (pos3 nc c Hc) as (Z1 & Z2 & Z3 & Z4). rewrite Z4.
    destruct (H (c mod nc) (c / nc mod nc) (c / nc / nc) l Z3 Z2 Z1 Hl) as (A1 & A2). rewrite A1, A2, H2 by assumption.
    pose proof (off_lt 0 l). pose proof (off_lt 1 l). pose proof (off_lt 2 l).
    do 2 eexists. split; [reflexivity|]. split; [apply rid_lt; lia|]. split; [reflexivity|]. split; [reflexivity|].
    apply rid_lt; lia.
  - intros c Hc. destruct (pos3 (2 * nc) c Hc) as (C1 & C2 & C3 & C4).
    set (I := c mod (2 * nc)) in *. set (J := c / (2 * nc) mod (2 * nc)) in *. set (K := c / (2 * nc) / (2 * nc)) in *.
    assert (DI := Nat.div_mod I 2 ltac:(lia)). assert (DJ := Nat.div_mod J 2 ltac:(lia)). assert (DK := Nat.div_mod K 2 ltac:(lia)).
    assert (MI := Nat.mod_upper_bound I 2 ltac:(lia)). assert (MJ := Nat.mod_upper_bound J 2 ltac:(lia)).
    assert (MK := Nat.mod_upper_bound K 2 ltac:(lia)).
    destruct (off_enc (I mod 2) (J mod 2) (K mod 2) MI MJ MK) as (O1 & O2 & O3 & O4).
    set (l := I mod 2 + 2 * (J mod 2) + 4 * (K mod 2)) in *.
    exists (rid nc (I / 2) (J / 2) (K / 2)), l. split.
    + split; [apply rid_lt; lia|]. split; [exact O1|].
      destruct (H (I / 2) (J / 2) (K / 2) l) as (-> & _); [lia..|exact O1|].
      rewrite O2, O3, O4, <- DI, <- DJ, <- DK. f_equal. symmetry. exact C4.
    + intros z' l' Hz' Hl' E'. destruct (pos3 nc z' Hz') as (Z1 & Z2 & Z3 & Z4).
      rewrite Z4 in E'. destruct (H _ _ _ l' Z3 Z2 Z1 Hl') as (E1 & _). rewrite E1 in E'. injection E' as E'. rewrite C4 in E'.
      pose proof (off_lt 0 l'). pose proof (off_lt 1 l'). pose proof (off_lt 2 l').
      apply rid_inj in E'; [|lia..]. destruct E' as (EI & EJ & EK).
      assert (z' mod nc = I / 2 /\ off 0 l' = I mod 2) as (? & ?) by lia.
      assert (z' / nc mod nc = J / 2 /\ off 1 l' = J mod 2) as (? & ?) by lia.
      assert (z' / nc / nc = K / 2 /\ off 2 l' = K mod 2) as (? & ?) by lia.
      split; [rewrite Z4; congruence|]. rewrite (off_dec l' Hl'). unfold l. lia.
Qed.
