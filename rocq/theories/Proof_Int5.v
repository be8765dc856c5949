(** refine_mesh with ints on grids of equal boxes. *)
From Coq Require Import Reals List Arith ZArith Lra Lia Bool.
Import ListNotations.
Require Import Verif.Base Verif.NatSum Verif.RBase Verif.RSum Verif.Model_Geom Verif.Proof_Geom Verif.Model_Vtk Verif.Model_Refine Verif.Model_Conn Verif.Spec_Lagrange Verif.Spec_Quad Verif.Spec_High Verif.Proof_Lob Verif.Proof_High Verif.Proof_High3 Verif.Model_Ref
  Verif.Model_Full Verif.Model_Int Verif.Spec_Patch Verif.Spec_Full Verif.Spec_Int Verif.Proof_Full Verif.Proof_Full2 Verif.Proof_Full3 Verif.Proof_Full4 Verif.Prop_Full Verif.Proof_Int Verif.Proof_Int2 Verif.Proof_Int4 Verif.Model_Patch.
Local Open Scope nat_scope.

(** * users of a node *)
Lemma uses_le K ni N v V (f : nat -> nat -> nat) : 0 < K -> (forall c l, c < ni -> l < K -> N c l = v -> f c l < V) ->
  (forall c l c' l', c < ni -> l < K -> c' < ni -> l' < K -> N c l = v -> N c' l' = v -> f c l = f c' l' -> c = c' /\ l = l') -> uses K ni N v <= V.
Proof.
  intros HK Hf Hi. unfold uses. set (L := filter _ _).
  assert (HL : forall q, In q L -> q / K < ni /\ q mod K < K /\ N (q / K) (q mod K) = v).
  { intros q I. unfold L in I. apply filter_In in I. destruct I as (I & E). apply in_seq in I. apply Nat.eqb_eq in E. split; [apply Nat.div_lt_upper_bound; lia|]. split; [apply Nat.mod_upper_bound; lia|exact E]. }
  assert (Nd : NoDup L) by (unfold L; apply NoDup_filter, seq_NoDup).
  assert (Q : length (map (fun q => f (q / K) (q mod K)) L) <= length (seq 0 V)).
  { apply NoDup_incl_length.
    - clearbody L. induction L as [|q L IH]; [constructor|]. cbn [map]. inversion Nd as [|? ? Nq Nd']; subst. constructor; [|apply IH; [intros x I; apply HL; right; exact I|exact Nd']].
      intros I. apply in_map_iff in I. destruct I as (q' & E & I). destruct (HL q (or_introl eq_refl)) as (A1 & A2 & A3). destruct (HL q' (or_intror I)) as (B1 & B2 & B3).
      destruct (Hi _ _ _ _ B1 B2 A1 A2 B3 A3 E) as (E1 & E2). assert (q' = q) by (rewrite (Nat.div_mod q' K), (Nat.div_mod q K), E1, E2 by lia; reflexivity). subst. contradiction.
    - intros x I. apply in_map_iff in I. destruct I as (q & <- & I). destruct (HL q I) as (A1 & A2 & A3). apply in_seq. specialize (Hf _ _ A1 A2 A3). lia. }
  rewrite map_length, seq_length in Q. exact Q.
Qed.

Section Boxes32.
  Variables (p ne : nat) (m : cmesh) (N : nat -> nat -> nat) (X : nat -> nat -> R) (o s : nat -> R) (E : nat -> nat -> Z) (D : nat).
  Hypotheses (Hp : p <= 5) (HM : cdescribes m N X) (Ec : cm_cells m = S ne) (HB : box_elements 1 (S ne) N X o s E)
    (HD : D < 3) (Hs : forall d, d < 3 -> (0 < s D <= s d)%R) (Hbig : (s D <= 7 * INR (Nat.max 1 p))%R)
    (H0e : p = 0 -> exists e l e' l', e < S ne /\ l < 8 /\ e' < S ne /\ l' < 8 /\ e <> e' /\ 0 < e + l /\ 0 < e' + l' /\ forall d, d < 3 -> X (N e l) d = X (N e' l') d).
  Let n1 := pts1 p.
  Let ns := Spec_Full.sub1 p.
  Let ng := n1 ^ 3.
  Let nc := S ne * (ns * ns * ns).
  Let g0 : R := (1 - lob n1 (ns - 1))%R.

  (** what is known about the refined mesh *)
  Definition box_facts (r : refined) (C : connectivity) (nd : nat -> nat) (CN : nat -> nat -> nat) (CX : nat -> nat -> R) : Prop :=
    refine_cells p m = Ok r /\ build_connectivity ng (S ne) (mg_node (rf_merged r)) (rf_mesh r) = Ok C /\ cm_cells (rf_mesh r) = nc /\ cdescribes (rf_mesh r) CN CX /\
    (forall e l, e < S ne -> l < ng -> getu (mg_node (rf_merged r)) (e * ng + l) = Ok (nd (e * ng + l)) /\ nd (e * ng + l) < cm_nodes (rf_mesh r)) /\
    (forall v, v < cm_nodes (rf_mesh r) -> exists g, g < S ne * ng /\ forall d, d < 3 -> CX v d = tri_pos p N X g d) /\
    (forall e i j k l, e < S ne -> i < ns -> j < ns -> k < ns -> l < 8 -> CN (cell_id p e i j k) l < cm_nodes (rf_mesh r) /\
       forall d, d < 3 -> CX (CN (cell_id p e i j k) l) d = place p o s E e d (tri i j k d + corner_coord l d)) /\
    (forall e i j k, e < S ne -> i < n1 -> j < n1 -> k < n1 -> forall d, d < 3 -> CX (nd (e * ng + (i + j * n1 + k * n1 * n1))) d = place p o s E e d (tri i j k d)) /\
    corner_spacing CN CX (nc - 1) (s D * (g0 / 2))%R.

  Lemma box_facts_ok : exists r C nd CN CX, box_facts r C nd CN CX.
  Proof.
    destruct (C61_boxes p ne m N X o s E D Hp HM Ec HB HD Hs Hbig H0e) as (r & C & nd & CN & CX & pt & ER & H). fold n1 ns in H. fold ng in H. cbv zeta in H.
    destruct H as (Hcells & HMr & Hnd & Hown & Hz & Hpos & HCN & _).
    assert (Ecc : cm_cells (rf_mesh r) = nc) by (rewrite Hcells; unfold nc; cbn [Nat.pow]; ring).
    unfold refine_mesh in ER. destruct (refine_cells p m) as [r'|] eqn:Er; [|discriminate]. cbn [bind] in ER. rewrite Ec, pts1_model in ER. fold n1 ng in ER.
    destruct (build_connectivity ng (S ne) (mg_node (rf_merged r')) (rf_mesh r')) as [C'|] eqn:EC; [|discriminate]. cbn [bind] in ER. injection ER as <- <-.
    exists r', C', nd, CN, CX. unfold box_facts. split; [exact Er|]. split; [exact EC|]. split; [exact Ecc|]. split; [exact HMr|].
    destruct (pts1_sub p) as (A1 & A2). fold n1 ns in A1, A2.
    split. { intros e l He Hl. destruct (Hnd (e * ng + l) ltac:(nia)) as (Q1 & Q2 & _). split; [exact Q1|exact Q2]. }
    split. { intros v Hv. destruct (Hown v Hv) as (g & Hg & <-). exists g. split; [exact Hg|]. intros d Hd. apply (Hnd g Hg). exact Hd. }
    assert (HC : forall e i j k l d, e < S ne -> i < ns -> j < ns -> k < ns -> l < 8 -> d < 3 -> CX (CN (cell_id p e i j k) l) d = place p o s E e d (tri i j k d + corner_coord l d)).
    { intros e i j k c d He Hi Hj Hk Hc Hd. rewrite HCN by assumption.
      assert (c mod 2 < 2) by (apply Nat.mod_upper_bound; lia). assert (c / 2 mod 2 < 2) by (apply Nat.mod_upper_bound; lia). assert (c / 4 < 2) by (apply Nat.div_lt_upper_bound; lia).
      assert (L : corner_pt p i j k c < ng) by (unfold corner_pt, ng; cbv zeta; fold n1; apply grid3_lt; lia).
      destruct (Hnd (e * ng + corner_pt p i j k c) ltac:(nia)) as (_ & _ & Q). rewrite Q by exact Hd.
      unfold corner_pt. cbv zeta. fold n1. assert (T := tri_box p ne m N X o s E D Hp Ec HB HD e (i + c mod 2) (j + c / 2 mod 2) (k + c / 4) d He). fold n1 ng in T. rewrite T by lia. f_equal.
      assert (Q' : c / 4 mod 2 = c / 4) by (apply Nat.mod_small; lia).
      unfold corner_coord. destruct d as [|[|[|d]]]; cbn [tri Nat.pow Nat.mul Nat.add]; rewrite ?Nat.div_1_r, ?Q'; lia. }
    split. { intros e i j k l He Hi Hj Hk Hl. split; [apply (proj1 HMr); [rewrite Ecc; apply cell_id_lt; assumption|exact Hl]|]. intros d Hd. apply HC; assumption. }
    split. { intros e i j k He Hi Hj Hk d Hd. assert (L := grid3_lt n1 i j k Hi Hj Hk). fold ng in L. destruct (Hnd (e * ng + (i + j * n1 + k * n1 * n1)) ltac:(nia)) as (_ & _ & Q). rewrite Q by exact Hd.
      assert (T := tri_box p ne m N X o s E D Hp Ec HB HD e i j k d He). fold n1 ng in T. apply T; assumption. }
    exact (last_spacing p ne m o s E D Hp Ec HD Hs CN CX HC).
  Qed.

  Lemma same_pos e e' q q' : (forall d, d < 3 -> q d < n1 /\ q' d < n1 /\ place p o s E e d (q d) = place p o s E e' d (q' d)) -> forall d, d < 3 -> same_place ns (E e d) (q d) (E e' d) (q' d).
  Proof.
    intros H d Hd. destruct (H d Hd) as (H1 & H2 & H3). destruct (place_apart p ne m o s E D Hp Ec HD Hs Hbig e e' d (q d) (q' d) Hd H1 H2) as [(_ & Q)|Q]; [exact Q|].
    rewrite H3, Rminus_eq_0, Rabs_R0 in Q. assert (Hh : (0 < node_bin p (s D))%R) by (eapply h_pos; eassumption). lra.
  Qed.

  Hypothesis Inj : forall e e', e < S ne -> e' < S ne -> (forall d, d < 3 -> E e d = E e' d) -> e = e'.

  Lemma cell_users r C nd CN CX v : box_facts r C nd CN CX -> uses 8 nc CN v <= 8.
  Proof.
    intros (_ & _ & _ & _ & _ & _ & HC & _). destruct (pts1_sub p) as (A1 & A2). fold n1 ns in A1, A2.
    apply (uses_le 8 nc CN v 8 (fun _ l => l)); [lia|auto|]. intros c l c' l' Hc Hl Hc' Hl' Q Q' El. subst l'. split; [|reflexivity].
    destruct (cell_split p (S ne) c Hc) as (e & i & j & k & He & Hi & Hj & Hk & ->). destruct (cell_split p (S ne) c' Hc') as (e' & i' & j' & k' & He' & Hi' & Hj' & Hk' & ->). fold ns in Hi, Hj, Hk, Hi', Hj', Hk'.
    destruct (HC e i j k l He Hi Hj Hk Hl) as (_ & P1). destruct (HC e' i' j' k' l He' Hi' Hj' Hk' Hl) as (_ & P2). rewrite Q in P1. rewrite Q' in P2.
    assert (SP : forall d, d < 3 -> E e d = E e' d /\ tri i j k d = tri i' j' k' d).
    { intros d Hd. assert (T1 : tri i j k d < ns) by (apply tri_lt; assumption). assert (T2 : tri i' j' k' d < ns) by (apply tri_lt; assumption).
      assert (S := same_pos e e' (fun d => tri i j k d + corner_coord l d) (fun d => tri i' j' k' d + corner_coord l d)).
      destruct (S ltac:(intros a Ha; assert (B := corner_bit l a); assert (tri i j k a < ns) by (apply tri_lt; assumption); assert (tri i' j' k' a < ns) by (apply tri_lt; assumption); split; [lia|]; split; [lia|]; rewrite <- P1, <- P2 by exact Ha; reflexivity) d Hd) as [(S1 & S2)|[(S1 & S2 & S3)|(S1 & S2 & S3)]]; [split; [exact S1|lia]|lia|lia]. }
    assert (Ee : e = e') by (apply Inj; [exact He|exact He'|]; intros d Hd; apply SP; exact Hd). subst e'.
    destruct (SP 0 ltac:(lia)) as (_ & Q0). destruct (SP 1 ltac:(lia)) as (_ & Q1). destruct (SP 2 ltac:(lia)) as (_ & Q2). cbn [tri] in Q0, Q1, Q2. subst. reflexivity.
  Qed.
  Lemma elem_users r C nd CN CX v : box_facts r C nd CN CX -> uses ng (S ne) (fun e l => nd (e * ng + l)) v <= 8.
  Proof.
    intros (_ & _ & _ & _ & _ & _ & _ & HG & _). destruct (pts1_sub p) as (A1 & A2). fold n1 ns in A1, A2.
    assert (Png : 0 < ng) by (unfold ng; cbn [Nat.pow]; nia).
    set (b := fun x => if Nat.eqb x ns then 1 else 0).
    assert (Bb : forall x, b x < 2) by (intros x; unfold b; destruct (Nat.eqb x ns); lia).
    assert (SS : forall e e' d x x', same_place ns (E e d) x (E e' d) x' -> b x = b x' -> E e d = E e' d /\ x = x').
    { clear -A2. intros e e' d x x' SP Hb. subst b. cbv beta in Hb. destruct SP as [SP|[(S1 & S2 & S3)|(S1 & S2 & S3)]]; [exact SP| |]; rewrite S2, S3, Nat.eqb_refl in Hb; destruct (Nat.eqb_spec 0 ns); lia. }
    assert (Sp : forall l, l < ng -> l = grid n1 l 0 + grid n1 l 1 * n1 + grid n1 l 2 * n1 * n1 /\ grid n1 l 0 < n1 /\ grid n1 l 1 < n1 /\ grid n1 l 2 < n1).
    { intros l Hl. destruct (gauss_split n1 1 l ltac:(lia) ltac:(fold ng; lia)) as (e & i & j & k & He & Hi & Hj & Hk & ->). replace e with 0 by lia. cbn [Nat.mul Nat.add].
      destruct (grid_at n1 i j k Hi Hj Hk) as (-> & -> & ->). auto. }
    apply (uses_le ng (S ne) _ v 8 (fun _ l => b (grid n1 l 0) + 2 * b (grid n1 l 1) + 4 * b (grid n1 l 2))); [exact Png| |].
    - intros c l _ _ _. assert (B0 := Bb (grid n1 l 0)). assert (B1 := Bb (grid n1 l 1)). assert (B2 := Bb (grid n1 l 2)). lia.
    - intros e l e' l' He Hl He' Hl' Q Q' Ef. destruct (Sp l Hl) as (El & L0 & L1 & L2). destruct (Sp l' Hl') as (El' & L0' & L1' & L2').
      set (i := grid n1 l 0) in *. set (j := grid n1 l 1) in *. set (k := grid n1 l 2) in *. set (i' := grid n1 l' 0) in *. set (j' := grid n1 l' 1) in *. set (k' := grid n1 l' 2) in *.
      assert (P1 := HG e i j k He L0 L1 L2). assert (P2 := HG e' i' j' k' He' L0' L1' L2'). rewrite <- El in P1. rewrite <- El' in P2. rewrite Q in P1. rewrite Q' in P2.
      assert (S := same_pos e e' (fun d => tri i j k d) (fun d => tri i' j' k' d)).
      specialize (S ltac:(intros a Ha; split; [apply tri_lt; assumption|]; split; [apply tri_lt; assumption|]; rewrite <- P1, <- P2 by exact Ha; reflexivity)).
      assert (Eb : b i = b i' /\ b j = b j' /\ b k = b k').
      { assert (B0 := Bb i). assert (B1 := Bb j). assert (B2 := Bb k). assert (B0' := Bb i'). assert (B1' := Bb j'). assert (B2' := Bb k'). lia. }
      destruct Eb as (E0 & E1 & E2).
      destruct (SS e e' 0 i i' (S 0 ltac:(lia)) E0) as (X0 & Y0). destruct (SS e e' 1 j j' (S 1 ltac:(lia)) E1) as (X1 & Y1). destruct (SS e e' 2 k k' (S 2 ltac:(lia)) E2) as (X2 & Y2).
      split; [apply Inj; [exact He|exact He'|]; intros [|[|[|d]]] Hd; [exact X0|exact X1|exact X2|lia]|]. rewrite El, El', Y0, Y1, Y2. reflexivity.
  Qed.

  Theorem boxes32_fit lo L : spans (cm_nodes m) X lo L -> (forall i, i < 3 -> (lo i <= 10 ^ 16 /\ - 10 ^ 16 <= lo i + L i)%R) ->
    let h := node_bin p (s D) in let l := fun i => ((L i + / 10 ^ 14) / h)%R in let B := fun i => ((L i + 1 + / 10 ^ 14) / h)%R in
    let n := fun i => ((L i + / 10 ^ 12) / (s D * (g0 / 2) / 3))%R in
    (forall i, i < 3 -> (B i <= IZR INT_MAX)%R) -> (l 0%nat + l 1%nat * B 0%nat + l 2%nat * B 0%nat * B 1%nat + 10 <= IZR INT_MAX)%R ->
    (n 0%nat + n 1%nat * n 0%nat + n 2%nat * n 0%nat * n 1%nat + 10 <= IZR INT_MAX)%R ->
    (Z.of_nat (S ne * (64 * (ns * ns * ns))) <= INT_MAX)%Z -> (Z.of_nat (S ne * (8 * ng)) <= INT_MAX)%Z ->
    refine_mesh32 p m = refine_mesh p m.
  Proof.
    intros Sp HR h l B n HB0 HK HF HZ HZ'. destruct box_facts_ok as (r & C & nd & CN & CX & BF). assert (BF' := BF).
    destruct BF' as (Er & EC & Ecc & HMr & HG & Hown & HC & _ & LS).
    assert (Hh : (0 < h <= 1)%R) by (eapply h_pos; eassumption).
    assert (HSp : corner_spacing N X ne (s D)) by (eapply elem_spacing; try eassumption; lia).
    destruct (pts1_sub p) as (A1 & A2). fold n1 ns in A1, A2.
    assert (Bng : ns * ns * ns <= ng /\ 8 <= ng) by (unfold ng; cbn [Nat.pow]; nia).
    assert (E1 : refine_cells32 p m = refine_cells p m).
    { apply (cells32_small p m N X (s D) ne ltac:(lia) HM Ec HSp Hh lo L Sp HR); [|exact HB0|exact HK]. rewrite INR_IZR_INZ. apply IZR_le. fold n1 ng. change INT_MAX with 2147483647%Z in *. nia. }
    unfold refine_mesh32, refine_mesh. rewrite E1, Er. cbn [bind]. rewrite Ec, pts1_model. fold n1 ng.
    assert (Pnc : nc = S (nc - 1)) by (unfold nc; nia). rewrite Pnc in Ecc.
    destruct (gap_facts_ok p ltac:(lia)) as (F0 & F1 & F2 & F3). fold n1 ns g0 in F0, F1, F2, F3. assert (Gs : (g0 <= 2)%R) by exact (shift_small ns (lob n1) g0 F0 F1 F2 A2 F3).
    assert (Sm : (0 < s D * (g0 / 2) <= 10 ^ 4)%R).
    { assert (S0 := Hs D HD). assert (INR (Nat.max 1 p) <= 5)%R by (replace 5%R with (INR 5) by (cbn; lra); apply le_INR; lia). split; [apply Rmult_lt_0_compat; lra|].
      apply Rle_trans with (35 * 1)%R; [apply Rmult_le_compat; lra|]. lra. }
    rewrite (conn32_fit (rf_mesh r) CN CX (s D * (g0 / 2))%R (nc - 1) HMr Ecc LS Sm ng (S ne) (mg_node (rf_merged r)) (fun e l => nd (e * ng + l)) HG lo L 8 8); [reflexivity| | |exact HF| | | | | |].
    - intros v d Hv Hd. destruct (Hown v Hv) as (g & Hg & Qg). rewrite (Qg d Hd). destruct (tri_in_range p m N X g ltac:(lia) HM ltac:(rewrite Ec; exact Hg) d Hd) as (a & b & Ha & Hb & Q).
      assert (S1 := Sp a d Ha Hd). assert (S2 := Sp b d Hb Hd). lra.
    - intros i Hi. specialize (HR i Hi). assert (10 ^ 16 <= 10 ^ 64)%R by (apply Rle_pow; [lra|lia]). lra.
    - intros v _. rewrite <- Pnc. eapply cell_users; exact BF.
    - intros v _. eapply elem_users; exact BF.
    - rewrite <- Pnc. unfold nc. nia.
    - rewrite <- Pnc. unfold nc. nia.
    - nia.
    - nia.
  Qed.

End Boxes32.

Lemma side5 (f : nat -> R) v : f 4 = v -> f 5 = v -> f 6 = v -> f 7 = v -> side_mean f 5 = v.
Proof. intros H4 H5 H6 H7. unfold side_mean. cbn. rewrite H4, H5, H6, H7. field. Qed.

Section Boxes32_over.
  Variables (p ne : nat) (m : cmesh) (N : nat -> nat -> nat) (X : nat -> nat -> R) (o s : nat -> R) (E : nat -> nat -> Z) (D : nat).
  Hypotheses (Hp : p <= 5) (HM : cdescribes m N X) (Ec : cm_cells m = S ne) (HB : box_elements 1 (S ne) N X o s E)
    (HD : D < 3) (Hs : forall d, d < 3 -> (0 < s D <= s d)%R) (Hbig : (s D <= 7 * INR (Nat.max 1 p))%R)
    (H0e : p = 0 -> exists e l e' l', e < S ne /\ l < 8 /\ e' < S ne /\ l' < 8 /\ e <> e' /\ 0 < e + l /\ 0 < e' + l' /\ forall d, d < 3 -> X (N e l) d = X (N e' l') d).
  Let n1 := pts1 p.
  Let ns := Spec_Full.sub1 p.
  Let ng := n1 ^ 3.
  Let g0 : R := (1 - lob n1 (ns - 1))%R.

  Theorem boxes32_faces_over e e' (k0 k1 k2 : R) : e < S ne -> e' < S ne -> (0 <= k0)%R -> (0 <= k1)%R -> (0 <= k2)%R ->
    let delta := (s D * (g0 / 2) / 3)%R in let ext := fun d => (s d * (IZR (E e' d) + 1 - IZR (E e d)))%R in
    (k0 * delta <= ext 0%nat)%R -> (k1 * delta <= ext 1%nat)%R -> (k2 * delta <= ext 2%nat)%R -> (2147483648 <= k0 * k1 * k2)%R ->
    refine_mesh32 p m = Err Overflow.
  Proof.
    intros He He' P0 P1 P2 delta ext K0 K1 K2 HK. destruct (box_facts_ok p ne m N X o s E D Hp HM Ec HB HD Hs Hbig H0e) as (r & C & nd & CN & CX & BF).
    destruct BF as (Er & EC & Ecc & HMr & HG & Hown & HC & _ & LS). fold n1 in EC, HG, LS. fold ns in Ecc, HC, LS. fold g0 in LS. fold ng in EC, HG.
    unfold refine_mesh32. destruct (so_refine_cells p m) as [-> | ->]; [|reflexivity]. rewrite Er. cbn [bind]. rewrite Ec, pts1_model. fold n1 ng.
    destruct (pts1_sub p) as (A1 & A2). fold n1 ns in A1, A2.
    destruct (gap_facts_ok p ltac:(lia)) as (F0 & F1 & F2 & F3). fold n1 ns g0 in F0, F1, F2, F3. assert (Gs : (g0 <= 2)%R) by exact (shift_small ns (lob n1) g0 F0 F1 F2 A2 F3).
    assert (Sm : (0 < s D * (g0 / 2) <= 10 ^ 4)%R).
    { assert (S0 := Hs D HD). assert (INR (Nat.max 1 p) <= 5)%R by (replace 5%R with (INR 5) by (cbn; lra); apply le_INR; lia). split; [apply Rmult_lt_0_compat; lra|].
      apply Rle_trans with (35 * 1)%R; [apply Rmult_le_compat; lra|]. lra. }
    set (nc := S ne * (ns * ns * ns)) in *. assert (Pnc : nc = S (nc - 1)) by (unfold nc; nia). rewrite Pnc in Ecc.
    set (c := cell_id p e 0 0 0). set (c' := cell_id p e' (ns - 1) (ns - 1) (ns - 1)).
    assert (Hc' : c' < S (nc - 1)) by (rewrite <- Pnc; apply cell_id_lt; fold ns; lia).
    assert (Lo : CN c 0 < cm_nodes (rf_mesh r) /\ forall d, d < 3 -> CX (CN c 0) d = (o d + s d * IZR (E e d))%R).
    { destruct (HC e 0 0 0 0 He ltac:(lia) ltac:(lia) ltac:(lia) ltac:(lia)) as (B & Q). split; [exact B|]. intros d Hd. unfold c. rewrite Q by exact Hd.
      replace (tri 0 0 0 d + corner_coord 0 d) with 0 by (destruct d as [|[|[|d]]]; [reflexivity|reflexivity|reflexivity|lia]). unfold place, shifted. fold n1. rewrite F0. field. }
    assert (Hi : forall l d, l < 8 -> d < 3 -> corner_coord l d = 1 -> CX (CN c' l) d = (o d + s d * (IZR (E e' d) + 1))%R).
    { intros l d Hl Hd Bt. destruct (HC e' (ns - 1) (ns - 1) (ns - 1) l He' ltac:(lia) ltac:(lia) ltac:(lia) Hl) as (_ & Q). unfold c'. rewrite Q by exact Hd. rewrite Bt.
      replace (tri (ns - 1) (ns - 1) (ns - 1) d + 1) with ns by (destruct d as [|[|[|d]]]; cbn [tri]; lia). unfold place, shifted. fold n1. rewrite F1. field. }
    assert (B7 : CN c' 7 < cm_nodes (rf_mesh r)) by (apply (HC e' (ns - 1) (ns - 1) (ns - 1) 7 He'); lia).
    destruct Lo as (B0 & Lo).
    rewrite (conn32_large (rf_mesh r) CN CX (s D * (g0 / 2))%R (nc - 1) HMr Ecc LS Sm ng (S ne) (mg_node (rf_merged r)) c' 5 (CN c 0) (CN c' 7) (CN c 0) (CN c' 7) (CN c 0) k0 k1 k2 Hc' ltac:(lia) B0 B7 B0 B7 B0 P0 P1 P2); [reflexivity| | | |lra|exists C; exact EC].
    - rewrite Lo, Hi by (lia || reflexivity). fold delta. eapply Rle_trans; [exact K0|]. unfold ext. lra.
    - rewrite Lo, Hi by (lia || reflexivity). fold delta. eapply Rle_trans; [exact K1|]. unfold ext. lra.
    - replace (face_centre CN CX c' 5 2) with (o 2%nat + s 2%nat * (IZR (E e' 2%nat) + 1))%R.
      + rewrite Lo by lia. fold delta. eapply Rle_trans; [exact K2|]. unfold ext. lra.
      + assert (Q4 := Hi 4 2 ltac:(lia) ltac:(lia) eq_refl). assert (Q5 := Hi 5 2 ltac:(lia) ltac:(lia) eq_refl). assert (Q6 := Hi 6 2 ltac:(lia) ltac:(lia) eq_refl). assert (Q7 := Hi 7 2 ltac:(lia) ltac:(lia) eq_refl).
        symmetry. exact (side5 (fun l => CX (CN c' l) 2) _ Q4 Q5 Q6 Q7).
  Qed.
End Boxes32_over.
