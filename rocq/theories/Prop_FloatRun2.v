(** C82: the averaging example on a box in binary64, from the file to the field at rest. *)
From Coq Require Import Reals List Arith ZArith Lra Lia Bool.
Import ListNotations.
Require Import Verif.Base Verif.RBase Verif.RSum Verif.NatSum Verif.Spec_Patch Verif.Spec_High Verif.Model_Refine Verif.Model_Full Verif.Spec_Full Verif.Proof_Full Verif.Proof_Full3 Verif.Proof_Full4 Verif.Spec_Box Verif.Proof_Box
  Verif.Model_Conn Verif.Model_Average Verif.Spec_Average Verif.Proof_Average5 Verif.Prop_Average Verif.Prop_Average2 Verif.Model_File Verif.Spec_File Verif.Proof_File Verif.Proof_File3 Verif.Prop_File
  Verif.Spec_Dump Verif.Prop_Init Verif.Proof_Lattice Verif.Spec_Run Verif.Proof_Run Verif.Prop_Run Verif.Prop_Run2 Verif.Spec_Float Verif.Float_Base Verif.Spec_FloatGeom Verif.Spec_FloatAverage Verif.Model_FloatAverage
  Verif.Proof_FloatAverage Verif.Proof_FloatAverage2 Verif.Proof_FloatAverage3 Verif.Prop_FloatAverage Verif.Spec_FloatRun Verif.Proof_FloatRun2 Verif.Prop_FloatRun Verif.Proof_FloatRun3 Verif.Model_Patch.
Local Open Scope nat_scope.

Lemma e53 : (2 ^ 53 = 9007199254740992)%R.
Proof. rewrite pow_IZR. reflexivity. Qed.
Lemma gamma_18 : (0 <= gamma u64 18 <= 19 / 9007199254740992)%R.
Proof.
  unfold gamma, u64. rewrite e53. replace (INR 18) with 18%R by (rewrite INR_IZR_INZ; reflexivity). lra.
Qed.
Lemma gamma_9 : (0 <= gamma u64 9 <= 10 / 9007199254740992)%R.
Proof.
  unfold gamma, u64. rewrite e53. replace (INR 9) with 9%R by (rewrite INR_IZR_INZ; reflexivity). lra.
Qed.

(** a cell value computed from node values close to h *)
Lemma cell_err N f h c e : (forall l, l < 8 -> (Rabs (f (N c l)) <= 10)%R) -> (forall l, l < 8 -> (Rabs (f (N c l) - h (N c l)) <= e)%R) ->
  (Rabs (cell_meanf binary64 N f c - cell_mean N h c) <= 2 / 10 ^ 14 + e)%R.
Proof.
  intros Hf He. assert (U := u64_range). destruct (meanf_within u64 binary64 ltac:(lra) binary64_rounds 8 (fun l => f (N c l))) as (t & Ht & E).
  unfold cell_meanf. rewrite E.
  assert (G9 := gamma_9). assert (H9 : (INR 9 * u64 < 1)%R) by (unfold u64; rewrite e53; replace (INR 9) with 9%R by (rewrite INR_IZR_INZ; reflexivity); lra).
  assert (S := sum_gamma u64 ltac:(lra) 9 8 (fun l => (f (N c l) / INR 8)%R) t H9 Ht).
  assert (I8 : INR 8 = 8%R) by (rewrite INR_IZR_INZ; reflexivity). rewrite I8 in *.
  assert (Q : (rsum 8 (fun l => Rabs (f (N c l) / 8)) <= 10)%R).
  { eapply Rle_trans; [apply (rsum_le 8 _ (fun _ => (10 / 8)%R))|rewrite rsum_const, I8; lra]. intros l Hl. unfold Rdiv. rewrite Rabs_mult, (Rabs_pos_eq (/ 8)) by lra. apply Rmult_le_compat_r; [lra|apply Hf; exact Hl]. }
  assert (B : (Rabs (rsum 8 (fun l => f (N c l) / 8) - cell_mean N h c) <= e)%R).
  { unfold cell_mean. replace (rsum 8 (fun l => h (N c l)) / 8)%R with (rsum 8 (fun l => h (N c l) / 8)%R) by (unfold Rdiv; rewrite rsum_scal_r; reflexivity). rewrite <- rsum_minus.
    eapply Rle_trans; [apply rsum_abs|]. eapply Rle_trans; [apply (rsum_le 8 _ (fun _ => (e / 8)%R))|rewrite rsum_const, I8; lra].
    intros l Hl. replace (f (N c l) / 8 - h (N c l) / 8)%R with ((f (N c l) - h (N c l)) * / 8)%R by field. rewrite Rabs_mult, (Rabs_pos_eq (/ 8)) by lra. apply Rmult_le_compat_r; [lra|apply He; exact Hl]. }
  set (a := rsum 8 (fun l => f (N c l) / 8 * t l)%R) in *. set (b := rsum 8 (fun l => f (N c l) / 8)%R) in *.
  replace (a - cell_mean N h c)%R with ((a - b) + (b - cell_mean N h c))%R by ring. eapply Rle_trans; [apply Rabs_triang|]. apply Rplus_le_compat; [|exact B].
  eapply Rle_trans; [exact S|]. apply Rle_trans with (10 / 9007199254740992 * 10)%R; [apply Rmult_le_compat; try lra; apply rsum_nonneg; intros; apply Rabs_pos|lra].
Qed.

(** A box as in C66_box, with at most ten million mesh lines from one condition to the other: the run in binary64
    stays close to the exact one for every number of cycles; it never falls and stays in [0, 10]; after finitely
    many cycles it stands still, next to the profile that falls in equal steps from 10 to 0 from line to line *)
Theorem C82_box : forall fmt inp ni nj nk lx ly lz sx sy sz D, let p := in_order inp in let ns := Spec_Full.sub1 p in
  let o := tri3 sx sy sz in let len := tri3 lx ly lz in let w := tri3 (lx / INR ni)%R (ly / INR nj)%R (lz / INR nk)%R in
  let A := ni * ns in let B := nj * ns in let C := nk * ns in let n := tri3 A B C D in
  p <= 5 -> 2 <= ni * nj * nk -> exact_coords fmt sx lx ni -> exact_coords fmt sy ly nj -> exact_coords fmt sz lz nk ->
  (0 < lx)%R -> (0 < ly)%R -> (0 < lz)%R -> (forall d, d < 3 -> (/ 10 ^ 6 <= w d)%R) -> (exists d, d < 3 /\ (w d <= 7 * INR (Nat.max 1 p))%R) ->
  D < 3 -> nth_error (in_bcs inp) 0 = Some (D, o D) -> nth_error (in_bcs inp) 3 = Some (D, o D + len D)%R -> (Z.of_nat n <= 10000000)%Z ->
  exists t sv start mat node run_ exact_ K, meshbox_file fmt ni nj nk lx ly lz sx sy sz = Ok t /\ setup inp t = Ok (sv, start, mat) /\ let M := sv_mesh sv in
    (forall v, v < cm_nodes M -> exists a b c, a <= A /\ b <= B /\ c <= C /\ v = node a b c) /\
    (forall a b c, a <= A -> b <= B -> c <= C -> node a b c < cm_nodes M /\ (forall d, d < 3 -> cm_coord M (node a b c) d = Ok (line_at p (o d) (w d) (tri3 a b c d)))) /\
    (forall k, loop k (fun _ => advancef binary64 sv) (Run start mat [] 0 (repeat 0%R 250) (10 ^ 8)%R 0%R) = Ok (run_ k)) /\
    (forall k, loop k (fun _ => advance sv) (Run start mat [] 0 (repeat 0%R 250) (10 ^ 8)%R 0%R) = Ok (exact_ k)) /\
    (forall a b c, a <= A -> b <= B -> c <= C -> let q := INR (tri3 a b c D) in let T := fun k => val (ru_node (run_ k)) (node a b c) in
       (forall k, (Rabs (T k - val (ru_node (exact_ k)) (node a b c)) <= 5 / 10 ^ 14 * (2 * q * (INR n - q) + 1))%R /\ (0 <= T k <= T (S k))%R /\ (T k <= 10)%R) /\
       (forall k, K <= k -> T k = T K) /\ (Rabs (T K - 10 * (1 - q / INR n)) <= 5 / 10 ^ 14 * (2 * q * (INR n - q) + 1))%R) /\
    (forall i j k x y z, i < ni -> j < nj -> k < nk -> x < ns -> y < ns -> z < ns -> forall s,
       (Rabs (val (ru_mat (run_ s)) (cell_id p (cell_of ni nj i j k) x y z) - val (ru_mat (exact_ s)) (cell_id p (cell_of ni nj i j k) x y z)) <= 5 / 10 ^ 14 * (INR n * INR n / 2 + 2))%R /\
       (K < s -> (Rabs (val (ru_mat (run_ s)) (cell_id p (cell_of ni nj i j k) x y z) - 10 * (1 - (INR (tri3 (i * ns + x)%nat (j * ns + y)%nat (k * ns + z)%nat D) + 1 / 2) / INR n)) <= 5 / 10 ^ 14 * (INR n * INR n / 2 + 2))%R)).
Proof.
  intros fmt inp ni nj nk lx ly lz sx sy sz D p ns o len w A B C n Hp H2 Fx Fy Fz Px Py Pz Hwide Hsm HD E0 E3 Hn.
  destruct (box_solver fmt inp ni nj nk lx ly lz sx sy sz D Hp H2 Fx Fy Fz Px Py Pz Hwide Hsm HD E0 E3) as (t & sv & start & mat & node & Et & Es & H). cbv zeta in H.
  fold p in H. fold ns in H. fold o w A B C n in H.
  destruct H as (HM1 & HM2 & HSe & HSn & Lst & Lmat & HM4 & HMc & CN & CX & EC & EN & L & Q & HS & Pn & H8 & HM5 & HLQ & HSm & CNode).
  assert (1 <= ni /\ 1 <= nj /\ 1 <= nk) as (Hi & Hj & Hk) by (destruct ni, nj, nk; lia).
  assert (P12 := pts1_sub p). fold ns in P12. destruct P12 as (_ & Ps).
  set (M := sv_mesh sv) in *. set (nn := cm_nodes M) in *. set (nc := cm_cells M) in *.
  assert (Nn : (1 <= INR n)%R) by (replace 1%R with (INR 1) by reflexivity; apply le_INR; exact Pn). assert (Nb : (INR n <= 10000000)%R) by (rewrite INR_IZR_INZ; apply IZR_le; exact Hn).
  assert (Tn : forall a b c, a <= A -> b <= B -> c <= C -> tri3 a b c D <= n) by (intros a b c Ha Hb Hc; unfold n; destruct D as [|[|[|d]]]; [..|lia]; cbn [tri3]; assumption).
  set (Wf := fun q => (2 * INR q * (INR n - INR q) + 1)%R).
  assert (Field : forall g : nat -> R, exists h, forall a b c, a <= A -> b <= B -> c <= C -> h (node a b c) = g (tri3 a b c D)).
  { intros g. destruct (finite_choice 0%R (fun v y => exists a b c, a <= A /\ b <= B /\ c <= C /\ v = node a b c /\ y = g (tri3 a b c D)) nn) as (h' & Hh').
    { intros v Hv. destruct (HM4 v Hv) as (a & b & c & Ha & Hb & Hc & Ev). eexists. exists a, b, c. repeat (split; [eassumption|]). reflexivity. }
    exists h'. intros a b c Ha Hb Hc. destruct (Hh' (node a b c) (proj1 (HMc a b c Ha Hb Hc))) as (a' & b' & c' & Ha' & Hb' & Hc' & Ev & ->). apply HM5 in Ev; try assumption. destruct Ev as (-> & -> & ->). reflexivity. }
  destruct (Field Wf) as (wf & Hwf). destruct (Field (fun q => (10 * (1 - INR q / INR n))%R)) as (h & Hh).
  assert (Qb : forall q, q <= n -> (0 <= INR q <= INR n)%R) by (intros q Hq; split; [apply pos_INR|apply le_INR; exact Hq]).
  assert (Wb : forall q, q <= n -> (1 <= Wf q <= INR n * INR n / 2 + 1)%R).
  { intros q Hq. specialize (Qb q Hq). unfold Wf. split; [nra|]. assert (0 <= (INR n - 2 * INR q) * (INR n - 2 * INR q))%R by apply Rle_0_sqr. nra. }
  set (cc := (INR n * INR n / 2 + 1)%R).
  assert (Hdrop : drops CN nn nc L Q wf cc).
  { intros v Hv. destruct (HM4 v Hv) as (a & b & c & Ha & Hb & Hc & ->). rewrite (Hwf a b c Ha Hb Hc). split; [apply Wb, Tn; assumption|]. intros N0 N3.
    destruct (HLQ a b c Ha Hb Hc) as (B0 & B3). specialize (Tn a b c Ha Hb Hc). assert (0 < tri3 a b c D < n) by (rewrite B0 in N0; rewrite B3 in N3; lia).
    assert (Sm := HSm Wf wf Hwf a b c Ha Hb Hc H). cbv zeta in Sm. rewrite Sm. unfold Wf. set (q := tri3 a b c D) in *. rewrite minus_INR, plus_INR by lia. change (INR 1) with 1%R. lra. }
  assert (G18 := gamma_18). assert (Cb : (cc <= 50000000000001)%R) by (unfold cc; nra). assert (C1 : (1 <= cc)%R) by (unfold cc; nra).
  assert (HCc : (gamma u64 18 * cc <= / 2)%R) by (apply Rle_trans with (19 / 9007199254740992 * 50000000000001)%R; [apply Rmult_le_compat; lra|lra]).
  assert (Hrest : forall v, v < nn -> cycle_result CN nc L Q h h v).
  { intros v Hv. destruct (HM4 v Hv) as (a & b & c & Ha & Hb & Hc & ->). destruct (HLQ a b c Ha Hb Hc) as (B0 & B3). unfold cycle_result. rewrite (Hh a b c Ha Hb Hc), B0, B3. split; [|split].
    - intros ->. cbn [INR]. field. lra.
    - intros _ ->. field. lra.
    - intros N0 N3. specialize (Tn a b c Ha Hb Hc). assert (0 < tri3 a b c D < n) by lia. assert (Sm := HSm (fun q => (10 * (1 - INR q / INR n))%R) h Hh a b c Ha Hb Hc H). cbv zeta in Sm. rewrite Sm. set (q := tri3 a b c D) in *. rewrite minus_INR, plus_INR by lia. change (INR 1) with 1%R. field. lra. }
  assert (Hlink : forall q a b c, a <= A -> b <= B -> c <= C -> tri3 a b c D = q -> linked CN nc (fun m => on_patches (L 0) Q m \/ on_patches (L 3) Q m) (node a b c)).
  { induction q as [|q IH]; intros a b c Ha Hb Hc Eq; [apply linked_here; left; apply HLQ; assumption|].
    set (g := fun (d u N0 : nat) => if d =? D then u - 1 else if u <? N0 then u else u - 1).
    assert (Split : forall d u n0, 1 <= n0 -> u <= n0 * ns -> (d = D -> 1 <= u) -> exists e x bt, e < n0 /\ x < ns /\ bt <= 1 /\ u = e * ns + x + bt /\ (d = D -> bt = 1)).
    { intros d u n0 Hn0 Hu Hd. set (u' := g d u (n0 * ns)). assert (1 <= n0 * ns) by nia. assert (Hu' : u' < n0 * ns /\ u' <= u <= u' + 1 /\ (d = D -> u = u' + 1)).
      { unfold u', g. destruct (Nat.eqb_spec d D) as [Ed|Nd]; [specialize (Hd Ed); lia|]. destruct (Nat.ltb_spec u (n0 * ns)); lia. }
      exists (u' / ns), (u' mod ns), (u - u'). split; [apply Nat.div_lt_upper_bound; [lia|rewrite Nat.mul_comm; lia]|]. split; [apply Nat.mod_upper_bound; lia|]. split; [lia|].
      assert (Dm := Nat.div_mod u' ns ltac:(lia)). split; [rewrite (Nat.mul_comm (u' / ns)); lia|]. intros Ed. destruct Hu' as (_ & _ & Hu'). specialize (Hu' Ed). lia. }
    destruct (Split 0 a ni Hi Ha) as (e1 & x1 & b1 & He1 & Hx1 & Hb1 & Ea & D1); [intros Ed; rewrite <- Ed in Eq; cbn [tri3] in Eq; lia|].
    destruct (Split 1 b nj Hj Hb) as (e2 & x2 & b2 & He2 & Hx2 & Hb2 & Eb & D2); [intros Ed; rewrite <- Ed in Eq; cbn [tri3] in Eq; lia|].
    destruct (Split 2 c nk Hk Hc) as (e3 & x3 & b3 & He3 & Hx3 & Hb3 & Ec & D3); [intros Ed; rewrite <- Ed in Eq; cbn [tri3] in Eq; lia|].
    set (cell := cell_id p (cell_of ni nj e1 e2 e3) x1 x2 x3).
    assert (Hcell : cell < nc).
    { rewrite HM2. replace (A * B * C) with (ni * nj * nk * (ns * ns * ns)) by (unfold A, B, C; ring). apply (cell_id_lt p); try assumption. apply cell_of_lt; assumption. }
    assert (Cor : forall u1 u2 u3, u1 <= 1 -> u2 <= 1 -> u3 <= 1 -> let l := u1 + 2 * u2 + 4 * u3 in l < 8 /\ CN cell l = node (e1 * ns + x1 + u1) (e2 * ns + x2 + u2) (e3 * ns + x3 + u3)).
    { intros u1 u2 u3 H1' H2' H3' l. split; [unfold l; lia|]. unfold cell. rewrite CNode by (try assumption; unfold l; lia).
      assert (u1 = 0 \/ u1 = 1) as [-> | ->] by lia; assert (u2 = 0 \/ u2 = 1) as [-> | ->] by lia; assert (u3 = 0 \/ u3 = 1) as [-> | ->] by lia; reflexivity. }
    destruct (Cor b1 b2 b3 Hb1 Hb2 Hb3) as (Hl & El). rewrite <- Ea, <- Eb, <- Ec in El. rewrite <- El.
    destruct (Cor (if 0 =? D then 0 else b1) (if 1 =? D then 0 else b2) (if 2 =? D then 0 else b3)) as (Hl' & El'); [destruct (0 =? D); lia|destruct (1 =? D); lia|destruct (2 =? D); lia|].
    eapply (linked_cell CN nc _ cell _ _ Hcell Hl Hl'). rewrite El'. assert (D = 0 \/ D = 1 \/ D = 2) as [ED|[ED|ED]] by lia; rewrite ED in *; cbn [Nat.eqb tri3] in *.
    all: first [specialize (D1 eq_refl) | specialize (D2 eq_refl) | specialize (D3 eq_refl)]; apply IH; first [reflexivity|lia]. }
  assert (Hlinked : forall v, v < nn -> linked CN nc (fun m => on_patches (L 0) Q m \/ on_patches (L 3) Q m) v) by (intros v Hv; destruct (HM4 v Hv) as (a & b & c & Ha & Hb & Hc & ->); eapply Hlink; try eassumption; reflexivity).
  destruct (C80_lists sv CN CX (so_mesh _ _ _ _ _ _ _ HS)) as (Al & HA & _).
  set (st := Run start mat [] 0 (repeat 0%R 250) (10 ^ 8)%R 0%R).
  assert (Eap : apply_boundary sv (repeat 0%R nn) = Ok start).
  { unfold setup in Es. destruct (read_mesh _ t) as [(m0 & (r & cn))|]; [|discriminate]. cbn [bind] in Es. destruct (generate_bcs _ _ _) as [sets|]; [|discriminate]. cbn [bind] in Es.
    destruct (initialize_state _ _ _) as [mt|]; [|discriminate]. cbn [bind] in Es. destruct (apply_boundary _ _) as [nd|] eqn:Ea; [|discriminate]. cbn [bind] in Es. injection Es as <- <- <-. exact Ea. }
  assert (H8' : forall v, v < nn -> corner_count CN nc v <= 8) by (intros v _; apply H8).
  destruct (C80_settles sv CN CX EC EN L Q Al start st HS HA H8' Eap eq_refl Lmat) as (K & r & R1 & R2 & R3).
  set (run_ := fun k => match loop k (fun _ => advancef binary64 sv) st with Ok s' => s' | Err _ => st end).
  set (exact_ := fun k => match loop k (fun _ => advance sv) st with Ok s' => s' | Err _ => st end).
  assert (Er1 : forall k, loop k (fun _ => advancef binary64 sv) st = Ok (run_ k)).
  { intros k. destruct (C80_rising sv CN CX EC EN L Q start st k HS H8' Eap eq_refl Lmat) as (s1 & _ & E1 & _). unfold run_. rewrite E1. reflexivity. }
  assert (Er2 : forall k, loop k (fun _ => advance sv) st = Ok (exact_ k)).
  { intros k. destruct (advances_ok sv CN CX EC EN L Q HS k st Lst Lmat) as (s1 & E1 & _). unfold exact_. rewrite E1. reflexivity. }
  assert (Sb : forall v, v < nn -> (Rabs (val start v) <= 10)%R).
  { intros v Hv. destruct (proj2 (start_facts sv CN CX EC EN L Q start HS Eap) v Hv) as [(_ & ->)|(_ & ->)]; rewrite Rabs_pos_eq; lra. }
  assert (Bnd : forall a b c e, a <= A -> b <= B -> c <= C -> (e <= 20 * gamma u64 18 * wf (node a b c))%R -> (e <= 5 / 10 ^ 14 * (2 * INR (tri3 a b c D) * (INR n - INR (tri3 a b c D)) + 1))%R).
  { intros a b c e Ha Hb Hc He. eapply Rle_trans; [exact He|]. rewrite (Hwf a b c Ha Hb Hc). change (2 * INR (tri3 a b c D) * (INR n - INR (tri3 a b c D)) + 1)%R with (Wf (tri3 a b c D)). destruct (Wb (tri3 a b c D) (Tn a b c Ha Hb Hc)) as (W1 & _). apply Rmult_le_compat_r; lra. }
  assert (Tk : forall k a b c, a <= A -> b <= B -> c <= C -> K <= k -> val (ru_node (run_ k)) (node a b c) = r (node a b c)).
  { intros k a b c Ha Hb Hc Hk'. destruct (R2 k Hk') as (s' & E' & V). rewrite Er1 in E'. injection E' as <-. apply V, HMc; assumption. }
  assert (Rr : forall a b c, a <= A -> b <= B -> c <= C -> (Rabs (r (node a b c) - 10 * (1 - INR (tri3 a b c D) / INR n)) <= 5 / 10 ^ 14 * (2 * INR (tri3 a b c D) * (INR n - INR (tri3 a b c D)) + 1))%R).
  { intros a b c Ha Hb Hc. apply Bnd; try assumption. rewrite <- (Hh a b c Ha Hb Hc). apply (R3 wf cc h Hdrop HCc Hrest Hlinked). apply HMc; assumption. }
  assert (Close : forall k a b c, a <= A -> b <= B -> c <= C -> (Rabs (val (ru_node (run_ k)) (node a b c) - val (ru_node (exact_ k)) (node a b c)) <= 5 / 10 ^ 14 * (2 * INR (tri3 a b c D) * (INR n - INR (tri3 a b c D)) + 1))%R).
  { intros k a b c Ha Hb Hc. apply Bnd; try assumption. assert (U := u64_range).
    destruct (C80_uniform u64 binary64 sv CN CX EC EN L Q 8 st wf cc 10 k) as (s1 & s2 & E1 & E2 & Dd); try assumption.
    - lra.
    - exact binary64_rounds.
    - unfold u64. rewrite e53. replace (INR (8 + 10)) with 18%R by (rewrite INR_IZR_INZ; reflexivity). lra.
    - lra.
    - rewrite Er1 in E1. injection E1 as <-. rewrite Er2 in E2. injection E2 as <-. specialize (Dd (node a b c) (proj1 (HMc a b c Ha Hb Hc))). change (8 + 10) with 18 in Dd. lra. }
  assert (Rise : forall k a b c, a <= A -> b <= B -> c <= C -> (0 <= val (ru_node (run_ k)) (node a b c) <= val (ru_node (run_ (S k))) (node a b c))%R /\ (val (ru_node (run_ k)) (node a b c) <= 10)%R).
  { intros k a b c Ha Hb Hc. destruct (C80_rising sv CN CX EC EN L Q start st k HS H8' Eap eq_refl Lmat) as (s1 & s2 & E1 & E2 & V). assert (E3' := Er1 (S k)). rewrite Proof_File.loop_succ, E1 in E3'. change (advancef binary64 sv s1 = Ok (run_ (S k))) in E3'. rewrite E2 in E3'. injection E3' as <-. rewrite Er1 in E1. injection E1 as <-.
    destruct (V (node a b c) (proj1 (HMc a b c Ha Hb Hc))) as (V1 & V2). split; [exact V1|]. lra. }
  exists t, sv, start, mat, node, run_, exact_, K. split; [exact Et|]. split; [exact Es|]. cbv zeta. split; [exact HM4|]. split; [intros a b c Ha Hb Hc; split; [apply HMc; assumption|intros d Hd; apply HMc; assumption]|].
  split; [exact Er1|]. split; [exact Er2|]. split.
  - intros a b c Ha Hb Hc. split; [|split].
    + intros k. split; [apply Close; assumption|]. apply Rise; assumption.
    + intros k Hk'. rewrite !Tk by (assumption || lia). reflexivity.
    + rewrite Tk by (assumption || lia). apply Rr; assumption.
  - intros i j k x y z Hi' Hj' Hk' Hx Hy Hz s. set (cell := cell_id p (cell_of ni nj i j k) x y z).
    assert (Cg : (5 / 10 ^ 14 * cc + 2 / 10 ^ 14 <= 5 / 10 ^ 14 * (INR n * INR n / 2 + 2))%R) by (unfold cc; lra).
    destruct s as [|s].
    { split; [|lia]. change (ru_mat (run_ 0)) with mat. change (ru_mat (exact_ 0)) with mat. rewrite Rminus_eq_0, Rabs_R0. unfold cc in Cg, C1. lra. }
    assert (Hcell : cell < nc).
    { rewrite HM2. replace (A * B * C) with (ni * nj * nk * (ns * ns * ns)) by (unfold A, B, C; ring). apply (cell_id_lt p); try assumption. apply cell_of_lt; assumption. }
    assert (Vm : val (ru_mat (run_ (S s))) cell = cell_meanf binary64 CN (val (ru_node (run_ s))) cell).
    { destruct (advancesf_ok binary64 sv CN CX EC EN L Q Al HS HA s st Lst Lmat) as (s1 & E1 & L1 & L2 & _). destruct (advancef_ok binary64 sv CN CX EC EN L Q Al HS HA s1 L1 L2) as (s2 & E2 & _ & _ & G & _).
      assert (E3' := Er1 (S s)). rewrite loop_succ, E1 in E3'. cbn [bind] in E3'. rewrite E2 in E3'. injection E3' as <-. rewrite Er1 in E1. injection E1 as <-. apply G. exact Hcell. }
    assert (Ve : val (ru_mat (exact_ (S s))) cell = cell_mean CN (val (ru_node (exact_ s))) cell).
    { destruct (advances_ok sv CN CX EC EN L Q HS s st Lst Lmat) as (s1 & E1 & L1 & L2 & _). destruct (advance_ok sv CN CX EC EN L Q HS s1 L1 L2) as (s2 & E2 & _ & _ & G & _).
      assert (E3' := Er2 (S s)). rewrite loop_succ, E1 in E3'. cbn [bind] in E3'. rewrite E2 in E3'. injection E3' as <-. rewrite Er2 in E1. injection E1 as <-. apply G. exact Hcell. }
    assert (Up : forall u y0 n0 d q, u < n0 -> y0 < ns -> q < 8 -> u * ns + y0 + corner_coord q d <= n0 * ns) by (intros u0 y0 n0 d0 q Hu0 Hy0 Hq0; assert (corner_coord q d0 < 2) by (apply corner_bit); nia).
    assert (Corner : forall l, l < 8 -> exists a b c, a <= A /\ b <= B /\ c <= C /\ CN cell l = node a b c).
    { intros l Hl. eexists _, _, _. split; [|split; [|split; [|apply CNode; assumption]]]; unfold A, B, C; apply Up; assumption. }
    assert (Lo : forall l, l < 8 -> (Rabs (val (ru_node (run_ s)) (CN cell l)) <= 10)%R).
    { intros l Hl. destruct (Corner l Hl) as (a & b & c & Ha & Hb & Hc & ->). destruct (Rise s a b c Ha Hb Hc) as ((R0 & _) & R10). rewrite Rabs_pos_eq; assumption. }
    assert (Wc : forall a b c, a <= A -> b <= B -> c <= C -> (5 / 10 ^ 14 * (2 * INR (tri3 a b c D) * (INR n - INR (tri3 a b c D)) + 1) <= 5 / 10 ^ 14 * cc)%R).
    { intros a b c Ha Hb Hc. apply Rmult_le_compat_l; [lra|]. apply (Wb (tri3 a b c D) (Tn a b c Ha Hb Hc)). }
    split.
    { rewrite Vm, Ve. eapply Rle_trans; [apply (cell_err CN (val (ru_node (run_ s))) (val (ru_node (exact_ s))) cell (5 / 10 ^ 14 * cc) Lo)|lra].
      intros l Hl. destruct (Corner l Hl) as (a & b & c & Ha & Hb & Hc & ->). eapply Rle_trans; [apply Close; assumption|]. apply Wc; assumption. }
    intros Hs. rewrite Vm.
    set (G := fun q => (10 * (1 - INR q / INR n))%R).
    assert (ML := mean_lattice p ni nj nk CN node D G h Hi Hj Hk HD (fun i j k x y z l e1 e2 e3 e4 e5 e6 e7 => CNode i j k x y z e1 e2 e3 e4 e5 e6 l e7) Hh i j k x y z Hi' Hj' Hk' Hx Hy Hz). cbv zeta in ML. fold ns cell in ML.
    assert (CE' : (Rabs (cell_meanf binary64 CN (val (ru_node (run_ s))) cell - cell_mean CN h cell) <= 2 / 10 ^ 14 + 5 / 10 ^ 14 * cc)%R).
    { apply (cell_err CN (val (ru_node (run_ s))) h cell (5 / 10 ^ 14 * cc) Lo).
      intros l Hl. destruct (Corner l Hl) as (a & b & c & Ha & Hb & Hc & ->). rewrite Tk, (Hh a b c Ha Hb Hc) by (assumption || lia). eapply Rle_trans; [apply Rr; assumption|]. apply Wc; assumption. }
    rewrite ML in CE'. unfold G in CE'. rewrite plus_INR in CE'. change (INR 1) with 1%R in CE'. set (q := INR (tri3 (i * ns + x) (j * ns + y) (k * ns + z) D)) in *.
    replace (10 * (1 - (q + 1 / 2) / INR n))%R with ((10 * (1 - q / INR n) + 10 * (1 - (q + 1) / INR n)) / 2)%R by (field; lra). eapply Rle_trans; [exact CE'|]. lra.
Qed.
Print Assumptions C82_box.

(** the shipped input on a box from x = 0 to x = 2, in binary64: 51 dumps; the final node temperatures and the cell
    temperatures in every dump are close to those of the exact run *)
Theorem C82_shipped_box : forall fmt u ni nj nk ly lz sy sz, let w := tri3 (2 / INR ni)%R (ly / INR nj)%R (lz / INR nk)%R in
  let A := ni * 6 in let B := nj * 6 in let C := nk * 6 in
  2 <= ni * nj * nk -> exact_coords fmt 0 2 ni -> exact_coords fmt sy ly nj -> exact_coords fmt sz lz nk ->
  (0 < ly)%R -> (0 < lz)%R -> (forall d, d < 3 -> (/ 10 ^ 6 <= w d)%R) -> (Z.of_nat A <= 10000000)%Z ->
  exists t sv start node s cells exact_, let M := sv_mesh sv in let zero := repeat 0%R (cm_cells M) in
    meshbox_file fmt ni nj nk 2 ly lz 0 sy sz = Ok t /\ setup (shipped_input u) t = Ok (sv, start, zero) /\
    (forall v, v < cm_nodes M -> exists a b c, a <= A /\ b <= B /\ c <= C /\ v = node a b c) /\
    (forall a b c, a <= A -> b <= B -> c <= C -> node a b c < cm_nodes M /\ (forall d, d < 3 -> cm_coord M (node a b c) d = Ok (line_at 3 (tri3 0%R sy sz d) (w d) (tri3 a b c d)))) /\
    simulatef binary64 fmt (shipped_input u) sv start zero = Ok s /\
    (forall k, loop k (fun _ => advance sv) (Run start zero [] 0 (repeat 0%R 250) (10 ^ 8)%R 0%R) = Ok (exact_ k)) /\
    (forall a b c, a <= A -> b <= B -> c <= C -> let T := val (ru_node s) (node a b c) in
       (0 <= T <= 10)%R /\ (Rabs (T - val (ru_node (exact_ 500%nat)) (node a b c)) <= 5 / 10 ^ 14 * (2 * INR a * (INR A - INR a) + 1))%R) /\
    length (ru_dumps s) = 51 /\
    (forall i, i < 51 -> exists d, nth_error (ru_dumps s) i = Some d /\ du_id d = i /\ nth_error (du_vars d) 0 = Some (map fmt (cells i))) /\
    (forall i c, i < 51 -> c < cm_cells M -> length (cells i) = cm_cells M /\ (Rabs (val (cells i) c - val (ru_mat (exact_ (10 * i)%nat)) c) <= 5 / 10 ^ 14 * (INR A * INR A / 2 + 2))%R).
Proof.
  intros fmt u ni nj nk ly lz sy sz w A B C H2 Fx Fy Fz Py Pz Hwide HA.
  assert (1 <= ni /\ 1 <= nj /\ 1 <= nk) as (Hi & Hj & Hk) by (destruct ni, nj, nk; lia).
  assert (Sm : exists d, d < 3 /\ (w d <= 7 * INR (Nat.max 1 (in_order (shipped_input u))))%R).
  { exists 0. split; [lia|]. unfold w. cbn [tri3 in_order shipped_input Nat.max INR]. assert (1 <= INR ni)%R by (replace 1%R with (INR 1) by reflexivity; apply le_INR; exact Hi).
    assert (2 / INR ni <= 2)%R by (apply Rmult_le_reg_r with (INR ni); [lra|]; unfold Rdiv; rewrite Rmult_assoc, Rinv_l by lra; lra). lra. }
  assert (Hp : in_order (shipped_input u) <= 5) by (cbn [in_order shipped_input]; lia).
  assert (B0 : nth_error (in_bcs (shipped_input u)) 0 = Some (0, tri3 0%R sy sz 0)) by reflexivity.
  assert (B3 : nth_error (in_bcs (shipped_input u)) 3 = Some (0, (tri3 0%R sy sz 0%nat + tri3 2%R ly lz 0%nat)%R)) by (cbn [tri3 shipped_input in_bcs nth_error]; rewrite Rplus_0_l; reflexivity).
  destruct (C66_shipped_box fmt u ni nj nk ly lz sy sz H2 Fx Fy Fz Py Pz Hwide) as (t & sv & start & s' & run' & Et & Es & _).
  destruct (box_solver fmt (shipped_input u) ni nj nk 2 ly lz 0 sy sz 0 Hp H2 Fx Fy Fz ltac:(lra) Py Pz Hwide Sm ltac:(lia) B0 B3) as (t1 & sv1 & start1 & mat1 & node1 & Et1 & Es1 & H). cbv zeta in H.
  rewrite Et in Et1. injection Et1 as <-. rewrite Es in Es1. injection Es1 as <- <- <-.
  destruct H as (HM1 & HM2 & HSe & HSn & Lst & Lmat & _ & _ & CN & CX & EC & EN & L & Q & HS & _).
  destruct (C82_box fmt (shipped_input u) ni nj nk 2 ly lz 0 sy sz 0 Hp H2 Fx Fy Fz ltac:(lra) Py Pz Hwide Sm ltac:(lia) B0 B3) as (t2 & sv2 & start2 & mat2 & node & run_ & exact_ & K & Et2 & Es2 & H); [exact HA|]. cbv zeta in H.
  rewrite Et in Et2. injection Et2 as <-. rewrite Es in Es2. injection Es2 as <- <- <-.
  destruct H as (G1 & G2 & G3 & G4 & G5 & G6). cbn [in_order shipped_input] in *. change (Spec_Full.sub1 3) with 6 in *.
  set (M := sv_mesh sv) in *. set (zero := repeat 0%R (cm_cells M)) in *.
  destruct (C81_shipped fmt u sv CN CX EC EN L Q start zero HS Lst Lmat) as (run2 & s & tm & Q1 & Q2 & Q3 & Q4 & _ & Q6 & _); [rewrite HSe, HSn; fold M; rewrite HM2; ring|].
  assert (Same : forall k, run2 k = run_ k) by (intros k; assert (Z := Q1 k); rewrite G3 in Z; injection Z as Z; symmetry; exact Z).
  assert (Lm : forall k, length (ru_mat (run_ k)) = cm_cells M).
  { intros k. destruct (C80_lists sv CN CX (so_mesh _ _ _ _ _ _ _ HS)) as (Al & HA' & _). destruct (advancesf_ok binary64 sv CN CX EC EN L Q Al HS HA' k (Run start zero [] 0 (repeat 0%R 250) (10 ^ 8)%R 0%R) Lst Lmat) as (s1 & E1 & _ & L2 & _).
    rewrite G3 in E1. injection E1 as <-. exact L2. }
  exists t, sv, start, node, s, (fun i => ru_mat (run_ (10 * i))), exact_. cbv zeta. fold M. fold zero.
  split; [exact Et|]. split; [exact Es|]. split; [exact G1|]. split; [exact G2|]. split; [exact Q2|]. split; [exact G4|]. split; [|split; [|split]].
  - intros a b c Ha Hb Hc. rewrite Q3, Same. destruct (G5 a b c Ha Hb Hc) as (V & _). destruct (V 500) as (V1 & V2 & V3). cbn [tri3] in V1. split; [split; [apply V2|exact V3]|exact V1].
  - rewrite Q6, map_length, seq_length. reflexivity.
  - intros i Hi'. rewrite Q6. eexists. split; [rewrite nth_error_map, (nth_error_nth' (seq 0 51) 0) by (rewrite seq_length; lia); cbn [option_map]; rewrite seq_nth by lia; reflexivity|].
    change (0 + i) with i. split; [reflexivity|]. rewrite Same.
    unfold dumps. cbn [du_vars nth_error]. f_equal. unfold per_cell.
    assert (Lk := Lm (10 * i)). remember (ru_mat (run_ (10 * i))) as l eqn:El in *. fold M. rewrite <- Lk. clear. apply nth_ext with (d := fmt 0%R) (d' := fmt 0%R); [rewrite !map_length, seq_length; reflexivity|]. rewrite map_length, seq_length. intros q Hq.
    rewrite (nth_indep _ _ (fmt (val l 0))) by (rewrite map_length, seq_length; exact Hq). rewrite (map_nth (fun c => fmt (val l c))), (map_nth fmt), seq_nth by exact Hq. reflexivity.
  - intros i c Hi' Hc. split; [apply Lm|]. rewrite HM2 in Hc.
    replace (ni * 6 * (nj * 6) * (nk * 6)) with (ni * nj * nk * (6 * 6 * 6)) in Hc by ring.
    destruct (cells_surj 3 (ni * nj * nk) c Hc) as (e & x & y & z & He & H5 & H6 & H7 & ->). destruct (number_surj ni nj nk e He) as (i' & j' & k' & H1 & H3 & H4 & ->). fold (cell_of ni nj i' j' k'). exact (proj1 (G6 i' j' k' x y z H1 H3 H4 H5 H6 H7 (10 * i))).
Qed.
Print Assumptions C82_shipped_box.

(** the hypotheses can be met: eight cells, unit widths *)
Example C82_box_nonvacuous : forall u, exists t sv start mat s, meshbox_file (fun x => x) 2 2 2 2 2 2 0 0 0 = Ok t /\ setup (shipped_input u) t = Ok (sv, start, mat) /\
  simulatef binary64 (fun x => x) (shipped_input u) sv start mat = Ok s /\ length (ru_dumps s) = 51 /\ cm_nodes (sv_mesh sv) > 0.
Proof.
  intros u. destruct (C82_shipped_box (fun x => x) u 2 2 2 2 2 0 0) as (t & sv & start & node & s & cells & exact_ & Et & Es & _ & Hn & Eq & _ & _ & Ed & _); try lra; try (cbn; lia); try (intros i Hi; reflexivity).
  - intros d Hd. destruct d as [|[|[|d]]]; [..|lia]; cbn [tri3 INR]; lra.
  - exists t, sv, start, (repeat 0%R (cm_cells (sv_mesh sv))), s. repeat (split; [assumption|]). specialize (Hn 0 0 0 ltac:(lia) ltac:(lia) ltac:(lia)). lia.
Qed.
