(** The box mesh, read back and refined: lattice of nodes. *)
From Coq Require Import Reals List Arith ZArith Lra Lia Sorted Bool.
Import ListNotations.
Require Import Verif.Base Verif.RBase Verif.NatSum Verif.Spec_Quad Verif.Spec_Patch Verif.Spec_High Verif.Proof_High Verif.Proof_High3 Verif.Model_Ref Verif.Model_Refine Verif.Model_Full Verif.Spec_Full Verif.Proof_Full Verif.Proof_Full3 Verif.Proof_Full4 Verif.Prop_Full
  Verif.Model_Box Verif.Spec_Box Verif.Proof_Box Verif.Prop_Box Verif.Model_Conn Verif.Model_Average Verif.Model_File Verif.Spec_File Verif.Proof_File Verif.Proof_File2 Verif.Model_Patch.
Local Open Scope nat_scope.

(** position of cell e in the box *)
Definition box_pos (ni nj e d : nat) : Z := Z.of_nat (tri3 (e mod ni) (e / ni mod nj) (e / (ni * nj)) d).
Lemma box_pos_cell ni nj nk i j k : i < ni -> j < nj -> k < nk -> forall d, box_pos ni nj (cell_of ni nj i j k) d = Z.of_nat (tri3 i j k d).
Proof.
  intros Hi Hj Hk d. unfold box_pos, cell_of, number. f_equal. set (e := i + j * ni + k * (ni * nj)).
  assert (E1 : e = i + (j + k * nj) * ni) by (unfold e; ring).
  assert (E2 : e / ni = j + k * nj) by (rewrite E1, Nat.div_add, Nat.div_small by lia; lia).
  assert (E3 : e / (ni * nj) = k) by (rewrite <- Nat.div_div by lia; rewrite E2, Nat.div_add, Nat.div_small by lia; lia).
  destruct d as [|[|d]]; cbn [tri3].
  - rewrite E1, Nat.mod_add, Nat.mod_small by lia. reflexivity.
  - rewrite E2, Nat.mod_add, Nat.mod_small by lia. reflexivity.
  - exact E3.
Qed.
Lemma cell_of_lt ni nj nk i j k : i < ni -> j < nj -> k < nk -> cell_of ni nj i j k < ni * nj * nk.
Proof. intros. unfold cell_of, number. assert (i + j * ni < ni * nj) by nia. nia. Qed.

Lemma meshbox_mesh fmt ni nj nk lx ly lz sx sy sz : 1 <= ni -> 1 <= nj -> 1 <= nk -> exact_coords fmt sx lx ni -> exact_coords fmt sy ly nj -> exact_coords fmt sz lz nk ->
  let nc := ni * nj * nk in
  exists t m N X, meshbox_file fmt ni nj nk lx ly lz sx sy sz = Ok t /\ parse_mesh t = Ok m /\ cm_cells m = nc /\ cm_nodes m = (ni + 1) * (nj + 1) * (nk + 1) /\ cdescribes m N X /\
    box_elements 1 nc N X (tri3 sx sy sz) (tri3 (lx / INR ni) (ly / INR nj) (lz / INR nk))%R (box_pos ni nj) /\
    (forall i j k l, i < ni -> j < nj -> k < nk -> l < 8 -> N (cell_of ni nj i j k) l = point_of ni nj (i + corner_coord l 0) (j + corner_coord l 1) (k + corner_coord l 2)).
Proof.
  intros Hi Hj Hk Fx Fy Fz nc. destruct (meshbox_lists fmt ni nj nk lx ly lz sx sy sz Hi Hj Hk) as (t & X & V & Et & HT & HV & HX & HC). fold nc in HT, HV.
  destruct (lists_parse _ _ _ _ _ HT HV) as (m & Em & En & Ec & HM). exists t, m, (fun e l => V e (vert l)), X. split; [exact Et|]. split; [exact Em|]. split; [exact Ec|]. split; [exact En|]. split; [exact HM|].
  assert (P : forall i j k l, i < ni -> j < nj -> k < nk -> l < 8 -> V (cell_of ni nj i j k) (vert l) = point_of ni nj (i + corner_coord l 0) (j + corner_coord l 1) (k + corner_coord l 2)).
  { intros i j k l Hi' Hj' Hk' Hl. specialize (HC i j k (vert l) Hi' Hj' Hk' (vert_lt l Hl)). do 8 (destruct l as [|l]; [exact HC|]). lia. }
  split; [|exact P].
  intros e a b c He Ha Hb Hc. cbv zeta. change (1 + 1) with 2. destruct (number_surj ni nj nk e He) as (i & j & k & Hi' & Hj' & Hk' & ->). fold (cell_of ni nj i j k).
  rewrite !(box_pos_cell ni nj nk) by assumption. rewrite P by (assumption || lia). cbn [tri3].
  assert (Q : corner_coord (a + b * 2 + c * 2 * 2) 0 = a /\ corner_coord (a + b * 2 + c * 2 * 2) 1 = b /\ corner_coord (a + b * 2 + c * 2 * 2) 2 = c).
  { destruct a as [|[|a]], b as [|[|b]], c as [|[|c]]; try lia; repeat split; reflexivity. }
  destruct Q as (-> & -> & ->).
  destruct (HX (i + a) (j + b) (k + c)) as (X0 & X1 & X2); try lia. rewrite X0, X1, X2, Fx, Fy, Fz by lia. rewrite !plus_INR, <- !INR_IZR_INZ. change (INR 1) with 1%R.
  assert (INR ni <> 0)%R by (apply not_0_INR; lia). assert (INR nj <> 0)%R by (apply not_0_INR; lia). assert (INR nk <> 0)%R by (apply not_0_INR; lia).
  repeat split; field; assumption.
Qed.

(** distinct cells are at distinct positions *)
Lemma box_pos_inj ni nj nk e e' : 1 <= ni -> 1 <= nj -> e < ni * nj * nk -> e' < ni * nj * nk -> (forall d, d < 3 -> box_pos ni nj e d = box_pos ni nj e' d) -> e = e'.
Proof.
  intros Hi Hj He He' H. destruct (number_surj ni nj nk e He) as (i & j & k & Hi' & Hj' & Hk' & ->). destruct (number_surj ni nj nk e' He') as (i2 & j2 & k2 & Hi2 & Hj2 & Hk2 & ->).
  fold (cell_of ni nj i j k) in *. fold (cell_of ni nj i2 j2 k2) in *.
  assert (H0 := H 0 ltac:(lia)). assert (H1 := H 1 ltac:(lia)). assert (H2 := H 2 ltac:(lia)). rewrite !(box_pos_cell ni nj nk) in H0, H1, H2 by assumption. cbn [tri3] in *.
  apply Nat2Z.inj in H0, H1, H2. subst. reflexivity.
Qed.

(** two cells with a common node *)
Lemma box_touch ni nj nk N : 2 <= ni * nj * nk ->
  (forall i j k l, i < ni -> j < nj -> k < nk -> l < 8 -> N (cell_of ni nj i j k) l = point_of ni nj (i + corner_coord l 0) (j + corner_coord l 1) (k + corner_coord l 2)) ->
  exists e l e' l', e < ni * nj * nk /\ l < 8 /\ e' < ni * nj * nk /\ l' < 8 /\ e <> e' /\ 0 < e + l /\ 0 < e' + l' /\ N e l = N e' l'.
Proof.
  intros H2 HN. assert (1 <= ni /\ 1 <= nj /\ 1 <= nk) as (Hi & Hj & Hk) by (destruct ni, nj, nk; lia).
  assert (2 <= ni \/ 2 <= nj \/ 2 <= nk) as [A|[A|A]] by (destruct ni as [|[|ni]], nj as [|[|nj]], nk as [|[|nk]]; cbn in *; lia).
  - exists (cell_of ni nj 0 0 0), 1, (cell_of ni nj 1 0 0), 0. rewrite !HN by lia. repeat split; try lia; try (apply cell_of_lt; lia); try (unfold cell_of, number; nia).
  - exists (cell_of ni nj 0 0 0), 2, (cell_of ni nj 0 1 0), 0. rewrite !HN by lia. repeat split; try lia; try (apply cell_of_lt; lia); try (unfold cell_of, number; nia).
  - exists (cell_of ni nj 0 0 0), 4, (cell_of ni nj 0 0 1), 0. rewrite !HN by lia. repeat split; try lia; try (apply cell_of_lt; lia); try (unfold cell_of, number; nia).
Qed.

Lemma NoDup_map_in {A B} (f : A -> B) l : (forall x y, In x l -> In y l -> f x = f y -> x = y) -> NoDup l -> NoDup (map f l).
Proof.
  intros H ND. induction ND as [|x l Nx ND IH]; cbn; constructor.
  - intros I. apply in_map_iff in I. destruct I as (y & E & I). apply Nx. rewrite (H x y) by (cbn; auto). exact I.
  - apply IH. intros. apply H; cbn; auto.
Qed.

(** * lattice of the refined nodes *)
Lemma line_place p o s u i : p <= 9 -> i <= Spec_Full.sub1 p -> line_at p o s (u * Spec_Full.sub1 p + i) = (o + s * shifted (lob (pts1 p)) (Z.of_nat u) i)%R.
Proof.
  intros Hp Hi. destruct (pts1_sub p) as (_ & A2). set (ns := Spec_Full.sub1 p) in *. destruct (gap_facts_ok p ltac:(lia)) as (F0 & F1 & _). fold ns in F1. unfold line_at, shifted. fold ns. rewrite <- INR_IZR_INZ.
  destruct (Nat.eq_dec i ns) as [->|Ne].
  - replace (u * ns + ns) with (S u * ns) by lia. rewrite Nat.div_mul, Nat.mod_mul by lia. rewrite F0, F1, S_INR. f_equal. f_equal. lra.
  - rewrite Nat.div_add_l, Nat.div_small by lia. rewrite (Nat.add_comm (u * ns)), Nat.mod_add, Nat.mod_small by lia. rewrite Nat.add_0_r. reflexivity.
Qed.
Lemma line_lt p o s q q' : p <= 9 -> (0 < s)%R -> q < q' -> (line_at p o s q < line_at p o s q')%R.
Proof.
  intros Hp Hs H. destruct (pts1_sub p) as (_ & A2). set (ns := Spec_Full.sub1 p) in *. destruct (gap_facts_ok p ltac:(lia)) as (F0 & F1 & F2 & F3). fold ns in F1, F2, F3.
  assert (Step : forall q, (line_at p o s q < line_at p o s (S q))%R).
  { clear q q' H. intros q. assert (Em : q mod ns < ns) by (apply Nat.mod_upper_bound; lia). assert (Eq : q = q / ns * ns + q mod ns) by (rewrite Nat.mul_comm; apply Nat.div_mod; lia).
    rewrite Eq. rewrite <- Nat.add_succ_r. unfold ns in *. rewrite !line_place by lia. unfold shifted. specialize (F3 (q mod Spec_Full.sub1 p) Em).
    apply Rplus_lt_compat_l. apply Rmult_lt_compat_l; lra. }
  induction H as [|q' H IH]; [apply Step|]. specialize (Step q'). lra.
Qed.
Lemma line_inj p o s q q' : p <= 9 -> (0 < s)%R -> line_at p o s q = line_at p o s q' -> q = q'.
Proof. intros Hp Hs E. destruct (Nat.lt_trichotomy q q') as [H|[H|H]]; [|exact H|]; apply (line_lt p o s) in H; try assumption; lra. Qed.

Section Lattice.
  Variables (p ni nj nk ne : nat) (m : cmesh) (N : nat -> nat -> nat) (X : nat -> nat -> R) (o s : nat -> R) (nn : nat) (nd : nat -> nat).
  Let ns := Spec_Full.sub1 p.
  Let n1 := pts1 p.
  Let ng := n1 ^ 3.
  Hypotheses (Hp : p <= 5) (Hi : 1 <= ni) (Hj : 1 <= nj) (Hk : 1 <= nk) (Ene : ni * nj * nk = S ne) (Ec : cm_cells m = S ne) (HB : box_elements 1 (S ne) N X o s (box_pos ni nj))
    (Hs : forall d, d < 3 -> (0 < s d)%R)
    (Hlt : forall g, g < S ne * ng -> nd g < nn)
    (Hsurj : forall v, v < nn -> exists g, g < S ne * ng /\ nd g = v)
    (Hz : forall g, g < S ne * ng -> (nd g = 0 <-> g = 0))
    (Hpos : forall g g', 0 < g < S ne * ng -> 0 < g' < S ne * ng -> (nd g = nd g' <-> forall d, d < 3 -> tri_pos p N X g d = tri_pos p N X g' d)).

  Definition gpt (i j k x y z : nat) : nat := cell_of ni nj i j k * pts1 p ^ 3 + (x + y * pts1 p + z * pts1 p * pts1 p).
  Lemma gpt_lt i j k x y z : i < ni -> j < nj -> k < nk -> x <= ns -> y <= ns -> z <= ns -> gpt i j k x y z < S ne * ng.
  Proof.
    intros Hi' Hj' Hk' Hx Hy Hz'. unfold gpt. fold n1. destruct (pts1_sub p) as (A1 & A2). fold n1 ns in A1, A2.
    assert (G := cell_of_lt ni nj nk i j k Hi' Hj' Hk'). rewrite Ene in G. assert (L := grid3_lt n1 x y z ltac:(lia) ltac:(lia) ltac:(lia)). unfold ng. nia.
  Qed.
  Lemma gpt_pos i j k x y z d : i < ni -> j < nj -> k < nk -> x <= ns -> y <= ns -> z <= ns -> d < 3 ->
    tri_pos p N X (gpt i j k x y z) d = line_at p (o d) (s d) (tri3 (i * ns + x) (j * ns + y) (k * ns + z) d).
  Proof.
    intros Hi' Hj' Hk' Hx Hy Hz' Hd. destruct (pts1_sub p) as (A1 & A2). fold n1 ns in A1, A2.
    assert (G := cell_of_lt ni nj nk i j k Hi' Hj' Hk'). rewrite Ene in G. unfold gpt.
    rewrite (tri_box p ne m N X o s (box_pos ni nj) 0 Hp Ec HB ltac:(lia)) by (fold n1; lia || assumption). unfold place. rewrite (box_pos_cell ni nj nk) by assumption.
    unfold ns in *. destruct d as [|[|[|d]]]; cbn [tri3 tri]; [rewrite line_place by lia; reflexivity..|lia].
  Qed.
  Lemma gpt_split g : g < S ne * ng -> exists i j k x y z, i < ni /\ j < nj /\ k < nk /\ x <= ns /\ y <= ns /\ z <= ns /\ g = gpt i j k x y z.
  Proof.
    intros Hg. destruct (pts1_sub p) as (A1 & A2). fold n1 ns in A1, A2. destruct (gauss_split n1 (S ne) g ltac:(lia) Hg) as (e & x & y & z & He & Hx & Hy & Hz' & ->).
    rewrite <- Ene in He. destruct (number_surj ni nj nk e He) as (i & j & k & Hi' & Hj' & Hk' & ->). exists i, j, k, x, y, z. repeat (split; [assumption || lia|]). reflexivity.
  Qed.
  Lemma gpt_zero i j k x y z : i < ni -> j < nj -> k < nk -> x <= ns -> y <= ns -> z <= ns -> (gpt i j k x y z = 0 <-> i * ns + x = 0 /\ j * ns + y = 0 /\ k * ns + z = 0).
  Proof.
    intros Hi' Hj' Hk' Hx Hy Hz'. destruct (pts1_sub p) as (A1 & A2). fold n1 ns in A1, A2. unfold gpt, cell_of, number. fold n1. fold ng.
    assert (1 <= ng) by (unfold ng; apply Nat.neq_0_lt_0, Nat.pow_nonzero; lia). split.
    - intros E. assert (K0 : i + j * ni + k * (ni * nj) = 0) by nia. assert (i = 0) by lia. assert (j = 0) by nia. assert (k = 0) by nia. assert (x = 0) by nia. assert (y = 0) by nia. assert (z = 0) by nia. subst. lia.
    - intros (E1 & E2 & E3). assert (i = 0) by nia. assert (j = 0) by nia. assert (k = 0) by nia. assert (x = 0) by lia. assert (y = 0) by lia. assert (z = 0) by lia. subst. lia.
  Qed.
  (** the node at a lattice point: through the element that starts there, or the last one *)
  Definition canon (n q : nat) : nat := Nat.min (q / ns) (n - 1).
  Lemma canon_ok n q : 1 <= n -> q <= n * ns -> canon n q < n /\ canon n q * ns <= q /\ q - canon n q * ns <= ns.
  Proof.
    intros Hn Hq. destruct (pts1_sub p) as (_ & A2). fold ns in A2. unfold canon. assert (E := Nat.div_mod q ns ltac:(lia)). assert (L := Nat.mod_upper_bound q ns ltac:(lia)).
    destruct (Nat.min_spec (q / ns) (n - 1)) as [(H & ->)|(H & ->)]; [split; [lia|split; nia]|]. split; [lia|]. destruct n as [|n]; [lia|]. replace (S n - 1) with n in * by lia. split; nia.
  Qed.
  Definition lat (a b c : nat) : nat := nd (gpt (canon ni a) (canon nj b) (canon nk c) (a - canon ni a * ns) (b - canon nj b * ns) (c - canon nk c * ns)).

  Lemma same_node i j k x y z i' j' k' x' y' z' : i < ni -> j < nj -> k < nk -> x <= ns -> y <= ns -> z <= ns -> i' < ni -> j' < nj -> k' < nk -> x' <= ns -> y' <= ns -> z' <= ns ->
    (nd (gpt i j k x y z) = nd (gpt i' j' k' x' y' z') <-> i * ns + x = i' * ns + x' /\ j * ns + y = j' * ns + y' /\ k * ns + z = k' * ns + z').
  Proof.
    intros A1 A2 A3 A4 A5 A6 B1 B2 B3 B4 B5 B6.
    assert (L := gpt_lt i j k x y z A1 A2 A3 A4 A5 A6). assert (L' := gpt_lt i' j' k' x' y' z' B1 B2 B3 B4 B5 B6).
    assert (Z := gpt_zero i j k x y z A1 A2 A3 A4 A5 A6). assert (Z' := gpt_zero i' j' k' x' y' z' B1 B2 B3 B4 B5 B6).
    assert (T := fun d Hd => gpt_pos i j k x y z d A1 A2 A3 A4 A5 A6 Hd). assert (T' := fun d Hd => gpt_pos i' j' k' x' y' z' d B1 B2 B3 B4 B5 B6 Hd).
    set (g := gpt i j k x y z) in *. set (g' := gpt i' j' k' x' y' z') in *.
    assert (Z1 := Hz g L). assert (Z2 := Hz g' L').
    destruct (Nat.eq_dec g 0) as [G|G].
    - rewrite (proj2 Z1 G). destruct (proj1 Z G) as (-> & -> & ->). split.
      + intros E. symmetry in E. destruct (proj1 Z' (proj1 Z2 E)) as (-> & -> & ->). auto.
      + intros (E1 & E2 & E3). symmetry. apply Z2, Z'. auto.
    - destruct (Nat.eq_dec g' 0) as [G'|G'].
      + rewrite (proj2 Z2 G'). destruct (proj1 Z' G') as (-> & -> & ->). split; [intros E; exfalso; apply G, Z1, E|]. intros E. apply Z1, Z, E.
      + rewrite Hpos by lia. split.
        * intros H. assert (Q : forall d, d < 3 -> tri3 (i * ns + x) (j * ns + y) (k * ns + z) d = tri3 (i' * ns + x') (j' * ns + y') (k' * ns + z') d).
          { intros d Hd. specialize (H d Hd). rewrite T, T' in H by exact Hd. apply line_inj in H; [exact H|lia|apply Hs; exact Hd]. }
          split; [exact (Q 0 ltac:(lia))|split; [exact (Q 1 ltac:(lia))|exact (Q 2 ltac:(lia))]].
        * intros (E1 & E2 & E3) d Hd. rewrite T, T', E1, E2, E3 by exact Hd. reflexivity.
  Qed.
  Lemma lat_gpt i j k x y z : i < ni -> j < nj -> k < nk -> x <= ns -> y <= ns -> z <= ns -> nd (gpt i j k x y z) = lat (i * ns + x) (j * ns + y) (k * ns + z).
  Proof.
    intros A1 A2 A3 A4 A5 A6. unfold lat. destruct (canon_ok ni (i * ns + x) Hi ltac:(nia)) as (C1 & C2 & C3). destruct (canon_ok nj (j * ns + y) Hj ltac:(nia)) as (C4 & C5 & C6).
    destruct (canon_ok nk (k * ns + z) Hk ltac:(nia)) as (C7 & C8 & C9). apply same_node; try assumption. lia.
  Qed.
  Lemma lat_lt a b c : a <= ni * ns -> b <= nj * ns -> c <= nk * ns -> lat a b c < nn.
  Proof.
    intros A B C. destruct (canon_ok ni a Hi A) as (C1 & C2 & C3). destruct (canon_ok nj b Hj B) as (C4 & C5 & C6). destruct (canon_ok nk c Hk C) as (C7 & C8 & C9). apply Hlt, gpt_lt; assumption.
  Qed.
  Lemma lat_inj a b c a' b' c' : a <= ni * ns -> b <= nj * ns -> c <= nk * ns -> a' <= ni * ns -> b' <= nj * ns -> c' <= nk * ns -> lat a b c = lat a' b' c' -> a = a' /\ b = b' /\ c = c'.
  Proof.
    intros A B C A' B' C' E. unfold lat in E. destruct (canon_ok ni a Hi A) as (C1 & C2 & C3). destruct (canon_ok nj b Hj B) as (C4 & C5 & C6). destruct (canon_ok nk c Hk C) as (C7 & C8 & C9).
    destruct (canon_ok ni a' Hi A') as (D1 & D2 & D3). destruct (canon_ok nj b' Hj B') as (D4 & D5 & D6). destruct (canon_ok nk c' Hk C') as (D7 & D8 & D9).
    apply same_node in E; try assumption. lia.
  Qed.
  Lemma lat_surj v : v < nn -> exists a b c, a <= ni * ns /\ b <= nj * ns /\ c <= nk * ns /\ v = lat a b c.
  Proof.
    intros Hv. destruct (Hsurj v Hv) as (g & Hg & <-). destruct (gpt_split g Hg) as (i & j & k & x & y & z & A1 & A2 & A3 & A4 & A5 & A6 & ->).
    exists (i * ns + x), (j * ns + y), (k * ns + z). split; [nia|]. split; [nia|]. split; [nia|]. apply lat_gpt; assumption.
  Qed.
  Lemma lat_coord a b c g : a <= ni * ns -> b <= nj * ns -> c <= nk * ns -> g < S ne * ng -> nd g = lat a b c -> forall d, d < 3 -> tri_pos p N X g d = line_at p (o d) (s d) (tri3 a b c d).
  Proof.
    intros A B C Hg E d Hd. destruct (gpt_split g Hg) as (i & j & k & x & y & z & A1 & A2 & A3 & A4 & A5 & A6 & ->). rewrite lat_gpt in E by assumption.
    apply lat_inj in E; [|nia|nia|nia|assumption|assumption|assumption]. destruct E as (<- & <- & <-). apply gpt_pos; assumption.
  Qed.
  Lemma lat_count : nn = (ni * ns + 1) * (nj * ns + 1) * (nk * ns + 1).
  Proof.
    set (G := grid_list (ni * ns + 1) (nj * ns + 1) (nk * ns + 1)). set (F := fun t : nat * nat * nat => let '(a, b, c) := t in lat a b c).
    assert (LG : length G = (ni * ns + 1) * (nj * ns + 1) * (nk * ns + 1)).
    { unfold G. assert (Q : forall A B C, length (grid_list A B C) = A * B * C).
      { intros A B C. unfold grid_list. induction C as [|C IH]; [cbn; lia|]. rewrite seq_S, flat_map_app, app_length, IH. cbn [flat_map Nat.add]. rewrite app_nil_r.
        assert (Q : forall L : list nat, length (flat_map (fun j : nat => map (fun i : nat => (i, j, C)) (seq 0 A)) L) = length L * A).
        { induction L as [|y L IHL]; [reflexivity|]. cbn [flat_map]. rewrite app_length, map_length, seq_length, IHL. cbn [length]. lia. }
        rewrite Q, seq_length. nia. }
      apply Q. }
    assert (ND : NoDup (map F G)).
    { apply NoDup_map_in; [|apply grid_NoDup]. intros [[a b] c] [[a' b'] c'] I I' E. apply grid_In in I, I'. unfold F in E. apply lat_inj in E; try lia. destruct E as (-> & -> & ->). reflexivity. }
    rewrite <- LG, <- (map_length F G). apply Nat.le_antisymm.
    - rewrite <- (seq_length nn 0) at 1. apply NoDup_incl_length; [apply seq_NoDup|]. intros v I. apply in_seq in I. destruct (lat_surj v ltac:(lia)) as (a & b & c & A & B & C & ->).
      apply in_map_iff. exists (a, b, c). split; [reflexivity|]. apply grid_In. lia.
    - rewrite <- (seq_length nn 0). apply NoDup_incl_length; [exact ND|]. intros v I. apply in_map_iff in I. destruct I as ([[a b] c] & <- & I). apply grid_In in I. apply in_seq. unfold F. assert (L := lat_lt a b c ltac:(lia) ltac:(lia) ltac:(lia)). lia.
  Qed.
End Lattice.
