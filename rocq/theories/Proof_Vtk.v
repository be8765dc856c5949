(** The exchange with VTK: proofs. *)
From Coq Require Import List Arith NArith Lia Bool.
Import ListNotations.
Require Import Verif.Base Verif.Spec_Common Verif.Model_Common Verif.Prop_Common Verif.Model_Ref Verif.Model_Vtk Verif.Spec_Vtk Verif.Spec_Box Verif.Proof_Box.
Local Open Scope nat_scope.

(** * writes to distinct places *)
Lemma put_iter {X A} (l : list X) (f : X -> nat) (g : X -> A) (a0 : list (option A)) :
  NoDup l -> (forall x y, In x l -> In y l -> f x = f y -> x = y) -> (forall x, In x l -> f x < length a0) ->
  exists a, iter l (fun x a => set a (f x) (Some (g x))) a0 = Ok a /\ length a = length a0 /\ (forall x, In x l -> holds a (f x) (g x)) /\
    (forall i, (forall x, In x l -> f x <> i) -> nth_error a i = nth_error a0 i).
Proof.
  intros N Inj Lt.
  destruct (iter_inv (fun pre a => length a = length a0 /\ (forall x, In x pre -> holds a (f x) (g x)) /\ (forall i, (forall x, In x pre -> f x <> i) -> nth_error a i = nth_error a0 i))
     l (fun x a => set a (f x) (Some (g x))) a0) as (a & E & H).
  - split; [reflexivity|]. split; [intros x []|reflexivity].
  - intros pre x post a El (L & S & U). assert (Hx : In x l) by (rewrite El; apply in_app_iff; right; left; reflexivity).
    rewrite set_ok by (rewrite L; apply Lt; exact Hx). eexists. split; [reflexivity|]. rewrite upd_length. split; [exact L|]. split.
    + intros y Hy. unfold holds. rewrite upd_nth by (rewrite L; apply Lt; exact Hx). apply in_app_iff in Hy. destruct Hy as [Hy|[<-|[]]].
      * destruct (Nat.eqb_spec (f y) (f x)) as [e|]; [|apply S; exact Hy]. assert (y = x); [|subst; reflexivity]. apply Inj; try assumption. rewrite El. apply in_app_iff. left. exact Hy.
      * rewrite Nat.eqb_refl. reflexivity.
    + intros i Hi. rewrite upd_nth by (rewrite L; apply Lt; exact Hx). destruct (Nat.eqb_spec i (f x)) as [->|].
      * exfalso. apply (Hi x); [apply in_app_iff; right; left; reflexivity|reflexivity].
      * apply U. intros y Hy. apply Hi. apply in_app_iff. left. exact Hy.
  - exists a. split; [exact E|]. exact H.
Qed.

(** * the numberings *)
Lemma vert_lt p I J K : I <= p -> J <= p -> K <= p -> vert p I J K < num_verts p.
Proof. intros. apply (number_lt (p + 1) (p + 1) (p + 1)); lia. Qed.
Lemma vert_inj p I J K I' J' K' : I <= p -> J <= p -> I' <= p -> J' <= p -> vert p I J K = vert p I' J' K' -> I = I' /\ J = J' /\ K = K'.
Proof. intros. apply (number_inj (p + 1) (p + 1)); try lia. assumption. Qed.
Lemma vert_surj p m : m < num_verts p -> exists I J K, I <= p /\ J <= p /\ K <= p /\ m = vert p I J K.
Proof. intros H. destruct (number_surj (p + 1) (p + 1) (p + 1) m H) as (I & J & K & A & B & C & E). exists I, J, K. repeat split; try lia. exact E. Qed.
Lemma verts_per_elem_eq p : verts_per_elem p = num_verts p.
Proof. unfold verts_per_elem, num_verts. cbn [Nat.pow]. lia. Qed.

Lemma grid_len a b c : length (grid_list a b c) = a * b * c.
Proof.
  unfold grid_list.
  assert (Q : forall {X Y} (l : list X) (g : X -> list Y) n, (forall x, In x l -> length (g x) = n) -> length (flat_map g l) = length l * n).
  { intros X Y l g n. induction l as [|x l IH]; intros H; cbn; [reflexivity|]. rewrite app_length, IH by (intros; apply H; right; assumption). rewrite (H x) by (left; reflexivity). lia. }
  rewrite (Q _ _ (seq 0 c) _ (b * a)).
  - rewrite seq_length. lia.
  - intros k _. rewrite (Q _ _ (seq 0 b) _ a); [rewrite seq_length; lia|]. intros j _. rewrite map_length, seq_length. reflexivity.
Qed.

Lemma pif_surj p pif m : numbers_vertices p pif -> m < num_verts p -> exists I J K, I <= p /\ J <= p /\ K <= p /\ m = pif I J K.
Proof.
  intros (L & Inj) Hm.
  set (l := map (fun x : nat * nat * nat => let '(i, j, k) := x in pif i j k) (grid_list (p + 1) (p + 1) (p + 1))).
  assert (N : NoDup l).
  { unfold l. assert (G : forall l0, NoDup l0 -> (forall x, In x l0 -> In x (grid_list (p + 1) (p + 1) (p + 1))) -> NoDup (map (fun x : nat * nat * nat => let '(i, j, k) := x in pif i j k) l0)).
    { induction l0 as [|[[i j] k] l0 IH]; intros H Hin; cbn; [constructor|]. inversion H; subst. constructor; [|apply IH; [assumption|intros; apply Hin; right; assumption]].
      intros Hc. apply in_map_iff in Hc. destruct Hc as ([[i' j'] k'] & E & Hc). pose proof (Hin _ (or_introl eq_refl)) as G1. pose proof (Hin _ (or_intror Hc)) as G2.
      apply grid_In in G1, G2. apply Inj in E; try lia. destruct E as (-> & -> & ->). contradiction. }
    apply G; [apply grid_NoDup|auto]. }
  assert (I1 : In m l).
  { assert (Inc : incl (seq 0 (num_verts p)) l); [|apply Inc; apply in_seq; lia].
    apply (NoDup_length_incl N).
    - rewrite seq_length. unfold l. rewrite map_length, grid_len. unfold num_verts. lia.
    - intros x Hx. unfold l in Hx. apply in_map_iff in Hx. destruct Hx as ([[i j] k] & <- & G). apply grid_In in G. apply in_seq. split; [lia|]. apply L; lia. }
  unfold l in I1. apply in_map_iff in I1. destruct I1 as ([[i j] k] & E & G). apply grid_In in G. exists i, j, k. repeat split; lia.
Qed.

Lemma mixed_vert p I J K : I <= p -> J <= p -> K <= p -> (N.of_nat (num_verts p) <= 2 ^ 64)%N ->
  mixed_radix_to_base_10 [N.of_nat (p + 1); N.of_nat (p + 1); N.of_nat (p + 1)] [N.of_nat I; N.of_nat J; N.of_nat K] = Ok (N.of_nat (vert p I J K)).
Proof.
  intros HI HJ HK B.
  destruct (C02_digits_round_trip [N.of_nat (p + 1); N.of_nat (p + 1); N.of_nat (p + 1)] [N.of_nat I; N.of_nat J; N.of_nat K]) as (v & E & Ev & _).
  - repeat constructor; lia.
  - unfold prodN. cbn [fold_right]. unfold num_verts in B. lia.
  - rewrite E. f_equal. rewrite Ev. unfold positional, vert. cbn. lia.
Qed.

Lemma map_forward pif p : numbers_vertices p (pif p) -> (N.of_nat (num_verts p) <= 2 ^ 64)%N ->
  exists F, make_vtk_vert_map pif p false (repeat None (num_verts p)) = Ok F /\ length F = num_verts p /\
    forall I J K, I <= p -> J <= p -> K <= p -> holds F (vert p I J K) (pif p I J K).
Proof.
  intros (L & Inj) B. unfold make_vtk_vert_map. cbv zeta. rewrite loop3_iter.
  destruct (put_iter (grid_list (p + 1) (p + 1) (p + 1)) (fun x => let '(k, j, i) := x in vert p i j k) (fun x => let '(k, j, i) := x in pif p i j k) (repeat None (num_verts p))) as (F & E & LF & H & _).
  - apply grid_NoDup.
  - intros [[k j] i] [[k' j'] i'] G G' Ev. apply grid_In in G, G'. apply vert_inj in Ev; try lia. destruct Ev as (-> & -> & ->). reflexivity.
  - intros [[k j] i] G. apply grid_In in G. rewrite repeat_length. apply vert_lt; lia.
  - exists F. split; [|split].
    + rewrite <- E. apply iter_ext_in. intros [[k j] i] s G. apply grid_In in G. rewrite mixed_vert by (lia || exact B). cbn [bind negb]. rewrite Nat2N.id. reflexivity.
    + rewrite LF. apply repeat_length.
    + intros i j k HI HJ HK. apply (H (k, j, i)). apply grid_In. lia.
Qed.
Lemma map_reverse pif p : numbers_vertices p (pif p) -> (N.of_nat (num_verts p) <= 2 ^ 64)%N ->
  exists F, make_vtk_vert_map pif p true (repeat None (num_verts p)) = Ok F /\ length F = num_verts p /\
    forall I J K, I <= p -> J <= p -> K <= p -> holds F (pif p I J K) (vert p I J K).
Proof.
  intros (L & Inj) B. unfold make_vtk_vert_map. cbv zeta. rewrite loop3_iter.
  destruct (put_iter (grid_list (p + 1) (p + 1) (p + 1)) (fun x => let '(k, j, i) := x in pif p i j k) (fun x => let '(k, j, i) := x in vert p i j k) (repeat None (num_verts p))) as (F & E & LF & H & _).
  - apply grid_NoDup.
  - intros [[k j] i] [[k' j'] i'] G G' Ev. apply grid_In in G, G'. apply Inj in Ev; try lia. destruct Ev as (-> & -> & ->). reflexivity.
  - intros [[k j] i] G. apply grid_In in G. rewrite repeat_length. apply L; lia.
  - exists F. split; [|split].
    + rewrite <- E. apply iter_ext_in. intros [[k j] i] s G. apply grid_In in G. rewrite mixed_vert by (lia || exact B). cbn [bind negb]. rewrite Nat2N.id. reflexivity.
    + rewrite LF. apply repeat_length.
    + intros i j k HI HJ HK. apply (H (k, j, i)). apply grid_In. lia.
Qed.

(** * reading *)
Lemma holds_getu {A} (t : list (option A)) i v : holds t i v -> getu t i = Ok v.
Proof. unfold holds, getu. intros ->. reflexivity. Qed.
Lemma holds_inj {A} (t : list (option A)) i v w : holds t i v -> holds t i w -> v = w.
Proof. unfold holds. intros -> H. inversion H. reflexivity. Qed.
Lemma list_ext {A} (a b : list A) : length a = length b -> (forall i, i < length a -> nth_error a i = nth_error b i) -> a = b.
Proof.
  revert b. induction a as [|x a IH]; intros [|y b] L H; cbn in L; try lia; [reflexivity|]. f_equal.
  - specialize (H 0 ltac:(cbn; lia)). cbn in H. congruence.
  - apply IH; [lia|]. intros i Hi. apply (H (S i)). cbn. lia.
Qed.
Lemma get_lt {A} (l : list A) i : i < length l -> exists x, nth_error l i = Some x /\ get l i = Ok x.
Proof. intros H. unfold get. destruct (nth_error l i) as [x|] eqn:E; [eauto|]. apply nth_error_None in E. lia. Qed.

Definition copy_point {D} (pts : list (option D)) (v : nat) (c : list (option D)) : res (list (option D)) :=
  do x0 <- get pts (v * 3 + 0); do x1 <- get pts (v * 3 + 1); do x2 <- get pts (v * 3 + 2);
  do c <- set c (v * 3 + 0) x0; do c <- set c (v * 3 + 1) x1; set c (v * 3 + 2) x2.
Lemma copy_points {D} (pts : list (option D)) n : length pts = n * 3 -> loop n (copy_point pts) (repeat None (n * 3)) = Ok pts.
Proof.
  intros L.
  destruct (loop_inv (fun v c => length c = n * 3 /\ forall i, i < v * 3 -> nth_error c i = nth_error pts i) n (copy_point pts) (repeat None (n * 3))) as (c & E & Lc & H).
  - split; [apply repeat_length|intros; lia].
  - intros v c Hv (Lc & H). unfold copy_point.
    destruct (get_lt pts (v * 3 + 0)) as (x0 & N0 & ->); [lia|]. destruct (get_lt pts (v * 3 + 1)) as (x1 & N1 & ->); [lia|]. destruct (get_lt pts (v * 3 + 2)) as (x2 & N2 & ->); [lia|].
    cbn [bind]. rewrite !set_ok by (rewrite ?upd_length; lia). cbn [bind]. rewrite !set_ok by (rewrite ?upd_length; lia). cbn [bind]. rewrite !set_ok by (rewrite ?upd_length; lia).
    eexists. split; [reflexivity|]. rewrite !upd_length. split; [exact Lc|]. intros i Hi. rewrite !upd_nth by (rewrite ?upd_length; lia).
    destruct (Nat.eqb_spec i (v * 3 + 2)) as [->|]; [symmetry; exact N2|]. destruct (Nat.eqb_spec i (v * 3 + 1)) as [->|]; [symmetry; exact N1|].
    destruct (Nat.eqb_spec i (v * 3 + 0)) as [->|]; [symmetry; exact N0|]. apply H. lia.
  - rewrite E. f_equal. apply list_ext; [lia|]. intros i Hi. apply H. lia.
Qed.

Lemma first_bad_none id cells : (forall e t ids, nth_error cells e = Some (t, ids) -> t <> OtherCell) -> first_bad id cells = None.
Proof.
  revert id. induction cells as [|[t ids] cells IH]; intros id H; cbn; [reflexivity|].
  pose proof (H 0 t ids eq_refl) as H0. destruct t; [| |congruence]; apply IH; intros e; exact (H (S e)).
Qed.
Lemma first_bad_some id cells c ids : nth_error cells c = Some (OtherCell, ids) -> (forall e t ids, e < c -> nth_error cells e = Some (t, ids) -> t <> OtherCell) -> first_bad id cells = Some (id + c).
Proof.
  revert id cells. induction c as [|c IH]; intros id [|[t i] cells] N H; cbn in N; try discriminate.
  - inversion N; subst. cbn. rewrite Nat.add_0_r. reflexivity.
  - cbn. pose proof (H 0 t i ltac:(lia) eq_refl) as H0. rewrite <- Nat.add_succ_comm. destruct t; [| |congruence]; (apply IH; [exact N|intros e t' ids' He; apply (H (S e)); lia]).
Qed.

(** two nested loops as one iteration *)
Definition pairs (a b : nat) : list (nat * nat) := flat_map (fun e => map (fun v => (e, v)) (seq 0 b)) (seq 0 a).
Lemma pairs_In a b e v : In (e, v) (pairs a b) <-> e < a /\ v < b.
Proof.
  unfold pairs. rewrite in_flat_map. split.
  - intros (e' & He & H). apply in_map_iff in H. destruct H as (v' & E & Hv). inversion E; subst. rewrite in_seq in *. lia.
  - intros (He & Hv). exists e. split; [apply in_seq; lia|]. apply in_map_iff. exists v. split; [reflexivity|apply in_seq; lia].
Qed.
Lemma pairs_NoDup a b : NoDup (pairs a b).
Proof.
  unfold pairs. apply NoDup_flat; [apply seq_NoDup| |].
  - intros e _. apply FinFun.Injective_map_NoDup; [|apply seq_NoDup]. intros x y E. inversion E. reflexivity.
  - intros e e' x _ _ H H'. apply in_map_iff in H, H'. destruct H as (v & <- & _), H' as (v' & E & _). inversion E. reflexivity.
Qed.
Lemma loop2_iter {S} a b (body : nat -> nat -> S -> res S) s : loop a (fun e s => loop b (fun v s => body e v s) s) s = iter (pairs a b) (fun x s => let '(e, v) := x in body e v s) s.
Proof.
  unfold loop, pairs. rewrite loop_from_iter, <- iter_flat. apply iter_ext_in. intros e s1 _. rewrite loop_from_iter, iter_map. reflexivity.
Qed.

Lemma width_ge p n : num_verts p <= ms_nodes_in_elem (init_element p 3 n).
Proof.
  unfold init_element, num_verts. cbn [ms_nodes_in_elem]. destruct (Nat.eqb_spec p 0) as [->|]; [cbn; lia|]. cbn [Nat.pow]. rewrite Nat.mul_1_r.
  rewrite <- Nat.mul_assoc. apply Nat.mul_le_mono; [lia|]. apply Nat.mul_le_mono; lia.
Qed.

Lemma read_ok {D} pif p (g : grid D) m : numbers_vertices p (pif p) -> (N.of_nat (num_verts p) <= 2 ^ 64)%N ->
  length (g_points g) = g_num_points g * 3 ->
  (forall e t ids, nth_error (g_cells g) e = Some (t, ids) -> t <> OtherCell /\ forall v, v < num_verts p -> exists id, holds ids v id) ->
  exists conn, let w := ms_nodes_in_elem (init_element p 3 (length (g_cells g))) in
    init_swage_mesh pif p g m = Ok (Done (Mesh p (g_num_points g) (length (g_cells g)) (g_points g) w conn)) /\
    length conn = length (g_cells g) * w /\
    (forall e t ids I J K id, nth_error (g_cells g) e = Some (t, ids) -> I <= p -> J <= p -> K <= p -> holds ids (pif p I J K) id -> holds conn (e * w + vert p I J K) id) /\
    (forall e r, e < length (g_cells g) -> num_verts p <= r < w -> nth_error conn (e * w + r) = Some None).
Proof.
  intros Hn B Lp Hc. unfold init_swage_mesh. cbv zeta. cbn [init_nodes m_coords m_order m_num_nodes m_num_elems m_width m_conn].
  change (loop (g_num_points g) _ _) with (loop (g_num_points g) (copy_point (g_points g)) (repeat None (g_num_points g * 3))).
  rewrite copy_points by exact Lp. cbn [bind].
  rewrite first_bad_none by (intros e t ids H; apply Hc in H; tauto).
  rewrite verts_per_elem_eq. destruct (map_reverse pif p Hn B) as (G & -> & LG & HG). cbn [bind].
  cbn [init_elements m_coords m_order m_num_nodes m_num_elems m_width m_conn].
  set (ne := length (g_cells g)). set (w := ms_nodes_in_elem (init_element p 3 ne)). assert (Hw : num_verts p <= w) by apply width_ge.
  set (idf := fun (x : nat * nat) => match nth_error (g_cells g) (fst x) with Some (_, ids) => match getu ids (snd x) with Ok id => id | Err _ => 0 end | None => 0 end).
  set (gf := fun v => match getu G v with Ok s => s | Err _ => 0 end).
  assert (Gf : forall I J K, I <= p -> J <= p -> K <= p -> gf (pif p I J K) = vert p I J K).
  { intros I J K HI HJ HK. unfold gf. rewrite (holds_getu _ _ _ (HG I J K HI HJ HK)). reflexivity. }
  assert (Gl : forall v, v < num_verts p -> getu G v = Ok (gf v) /\ gf v < num_verts p).
  { intros v Hv. destruct (pif_surj p (pif p) v Hn Hv) as (I & J & K & HI & HJ & HK & ->). rewrite Gf by assumption. split; [apply holds_getu; apply HG; assumption|apply vert_lt; assumption]. }
  assert (Gi : forall v v', v < num_verts p -> v' < num_verts p -> gf v = gf v' -> v = v').
  { intros v v' Hv Hv'. destruct (pif_surj p (pif p) v Hn Hv) as (I & J & K & HI & HJ & HK & ->). destruct (pif_surj p (pif p) v' Hn Hv') as (I' & J' & K' & HI' & HJ' & HK' & ->).
    rewrite !Gf by assumption. intros E. apply vert_inj in E; try assumption. destruct E as (-> & -> & ->). reflexivity. }
  assert (Mx : forall e v, e < ne -> v < num_verts p -> e * w + gf v < ne * w). { intros e v He Hv. destruct (Gl v Hv) as (_ & Gv). nia. }
  destruct (put_iter (pairs ne (num_verts p)) (fun x => fst x * w + gf (snd x)) idf (repeat None (ne * w))) as (conn & E & Lc & Hh & Hu).
  - apply pairs_NoDup.
  - intros [e v] [e' v'] P P' Eq. apply pairs_In in P, P'. cbn [fst snd] in Eq. destruct (Gl v) as (_ & Gv); [lia|]. destruct (Gl v') as (_ & Gv'); [lia|].
    assert (e = e') by nia. subst e'. assert (gf v = gf v') by lia. f_equal. apply Gi; tauto.
  - intros [e v] P. apply pairs_In in P. cbn [fst snd]. rewrite repeat_length. apply Mx; tauto.
  - exists conn.
    match goal with |- context [loop ne ?b (repeat None (ne * w))] => assert (EL : loop ne b (repeat None (ne * w)) = Ok conn) end.
    { transitivity (loop ne (fun e a => loop (num_verts p) (fun v a => set a (e * w + gf v) (Some (idf (e, v)))) a) (repeat None (ne * w)));
        [|rewrite (loop2_iter ne (num_verts p) (fun e v a => set a (e * w + gf v) (Some (idf (e, v))))), <- E; apply iter_ext_in; intros [e v] s0 _; reflexivity].
      apply loop_ext. intros e c He. destruct (get_lt (g_cells g) e He) as ([t ids] & Ne & ->). cbn [bind snd].
      apply loop_ext. intros v c1 Hv. destruct (Hc e t ids Ne) as (_ & Hi). destruct (Hi v Hv) as (id & Hid). rewrite (holds_getu _ _ _ Hid). cbn [bind].
      destruct (Gl v Hv) as (-> & _). cbn [bind]. unfold idf. cbn [fst snd]. rewrite Ne. rewrite (holds_getu _ _ _ Hid). reflexivity. }
    rewrite EL. cbn [bind]. split; [reflexivity|]. split; [rewrite Lc; apply repeat_length|]. split.
    + intros e t ids I J K id Ne HI HJ HK Hid. assert (He : e < ne) by (apply nth_error_Some; unfold ne; rewrite Ne; discriminate).
      assert (Hv : pif p I J K < num_verts p) by (apply Hn; assumption).
      specialize (Hh (e, pif p I J K)). cbn [fst snd] in Hh. rewrite Gf in Hh by assumption. unfold idf in Hh. cbn [fst snd] in Hh. rewrite Ne, (holds_getu _ _ _ Hid) in Hh.
      apply Hh. apply pairs_In. auto.
    + intros e r He Hr. rewrite Hu.
      * rewrite (nth_error_nth' _ None) by (rewrite repeat_length; nia). rewrite nth_repeat. reflexivity.
      * intros [e' v] P. apply pairs_In in P. cbn [fst snd]. destruct (Gl v) as (_ & Gv); [tauto|]. intros Eq. assert (e' = e) by nia. nia.
Qed.
