(** The exchange with VTK: writing a mesh to a grid. *)
From Coq Require Import List Arith NArith Lia Bool.
Import ListNotations.
Require Import Verif.Base Verif.Model_Common Verif.Model_Ref Verif.Model_Vtk Verif.Spec_Vtk Verif.Proof_Box Verif.Proof_Vtk.
Local Open Scope nat_scope.

(** (e', s') comes before (e, s) in the order of the loops *)
Definition before (e s e' s' : nat) : Prop := e' < e \/ (e' = e /\ s' < s).

Section Write.
Context {D : Type} (rnd : D -> D) (nv ne npe w sw : nat) (conn : list (option nat)) (coords : list (option D)) (solution : list (option D)) (F : list (option nat)).
Context (cn : nat -> nat -> nat) (fwd : nat -> nat).
Hypothesis Hcn : forall e s, e < ne -> s < npe -> holds conn (e * w + s) (cn e s) /\ cn e s < nv.
Hypothesis Lco : length coords = nv * 3.
Hypothesis Lso : length solution = ne * sw.
Hypothesis Hsw : npe <= sw.
Hypothesis HF : forall s, s < npe -> holds F s (fwd s) /\ fwd s < npe.
Hypothesis Hinj : forall s s', s < npe -> s' < npe -> fwd s = fwd s' -> s = s'.

Definition inner (e s : nat) (st : list (option D) * list (option D) * list (option nat)) : res (list (option D) * list (option D) * list (option nat)) :=
  let '(points, sol, hex) := st in
  do gid <- getu conn (e * w + s);
  do x <- get coords (gid * 3 + 0); do y <- get coords (gid * 3 + 1); do z <- get coords (gid * 3 + 2);
  do points <- set points (gid * 3 + 0) (option_map rnd x); do points <- set points (gid * 3 + 1) (option_map rnd y); do points <- set points (gid * 3 + 2) (option_map rnd z);
  do vtk <- getu F s;
  do hex <- set hex vtk (Some gid);
  do sv <- get solution (e * sw + s);
  do sol <- set sol gid sv;
  Ok (points, sol, hex).

Record winv (e s : nat) (points sol : list (option D)) : Prop := {
  w_lp : length points = nv * 3; w_ls : length sol = nv;
  w_pt : forall e' s' c, before e s e' s' -> e' < ne -> s' < npe -> c < 3 -> nth_error points (cn e' s' * 3 + c) = option_map (option_map rnd) (nth_error coords (cn e' s' * 3 + c));
  w_un : forall gid, gid < nv -> (forall e' s', before e s e' s' -> e' < ne -> s' < npe -> cn e' s' <> gid) -> (forall c, c < 3 -> nth_error points (gid * 3 + c) = Some None) /\ nth_error sol gid = Some None;
  w_so : forall e' s', before e s e' s' -> e' < ne -> s' < npe ->
     (forall e2 s2, before e2 s2 e' s' -> before e s e2 s2 -> e2 < ne -> s2 < npe -> cn e2 s2 <> cn e' s') -> nth_error sol (cn e' s') = nth_error solution (e' * sw + s') }.

Lemma inner_ok e s points sol hex : e < ne -> s < npe -> winv e s points sol -> length hex = npe ->
  (forall s', s' < s -> holds hex (fwd s') (cn e s')) ->
  exists points' sol' hex', inner e s (points, sol, hex) = Ok (points', sol', hex') /\ winv e (S s) points' sol' /\ length hex' = npe /\
    (forall s', s' < S s -> holds hex' (fwd s') (cn e s')).
Proof.
  intros He Hs [Lp Ls Wp Wu Ws] Lh Hh. destruct (Hcn e s He Hs) as (Hc & Lc). destruct (HF s Hs) as (Hf & Lf). unfold inner.
  rewrite (holds_getu _ _ _ Hc). cbn [bind]. set (g := cn e s) in *.
  destruct (get_lt coords (g * 3 + 0)) as (x & Nx & ->); [lia|]. destruct (get_lt coords (g * 3 + 1)) as (y & Ny & ->); [lia|]. destruct (get_lt coords (g * 3 + 2)) as (z & Nz & ->); [lia|].
  cbn [bind]. rewrite set_ok by (rewrite ?upd_length; lia). cbn [bind]. rewrite set_ok by (rewrite ?upd_length; lia). cbn [bind]. rewrite set_ok by (rewrite ?upd_length; lia). cbn [bind].
  rewrite (holds_getu _ _ _ Hf). cbn [bind]. rewrite set_ok by lia. cbn [bind].
  destruct (get_lt solution (e * sw + s)) as (sv & Nsv & ->); [nia|]. cbn [bind]. rewrite set_ok by lia. cbn [bind].
  eexists _, _, _. split; [reflexivity|].
  assert (Bf : forall e' s', before e (S s) e' s' <-> before e s e' s' \/ (e' = e /\ s' = s)) by (intros; unfold before; lia).
  assert (Pn : forall a c, c < 3 -> nth_error (upd (upd (upd points (g * 3 + 0) (option_map rnd x)) (g * 3 + 1) (option_map rnd y)) (g * 3 + 2) (option_map rnd z)) (a * 3 + c) =
     if a =? g then option_map (option_map rnd) (nth_error coords (g * 3 + c)) else nth_error points (a * 3 + c)).
  { intros a c Hc3. rewrite !upd_nth by (rewrite ?upd_length; lia). destruct (Nat.eqb_spec a g) as [->|Na].
    - destruct c as [|[|[|c]]]; [| | |lia]; repeat (match goal with |- context [?u =? ?v] => destruct (Nat.eqb_spec u v); try lia end); rewrite ?Nx, ?Ny, ?Nz; reflexivity.
    - repeat (match goal with |- context [?u =? ?v] => destruct (Nat.eqb_spec u v); try lia end). reflexivity. }
  split; [|split].
  - constructor.
    + rewrite !upd_length. exact Lp.
    + rewrite upd_length. exact Ls.
    + intros e' s' c B He' Hs' Hc3. rewrite Pn by exact Hc3. destruct (Nat.eqb_spec (cn e' s') g) as [E|E]; [rewrite E; reflexivity|].
      apply Bf in B. destruct B as [B|[-> ->]]; [apply Wp; assumption|]. exfalso. apply E. reflexivity.
    + intros gid Hg Hnone. assert (Ng : gid <> g). { intros ->. apply (Hnone e s); try assumption; [apply Bf; auto|reflexivity]. }
      destruct (Wu gid Hg) as (P & S1). { intros e' s' B. apply Hnone. apply Bf. auto. }
      split.
      * intros c Hc3. rewrite Pn by exact Hc3. destruct (Nat.eqb_spec gid g); [contradiction|]. apply P. exact Hc3.
      * rewrite upd_nth by lia. destruct (Nat.eqb_spec gid g); [contradiction|exact S1].
    + intros e' s' B He' Hs' Last. rewrite upd_nth by lia. apply Bf in B. destruct B as [B|[-> ->]].
      * destruct (Nat.eqb_spec (cn e' s') g) as [E|E].
        { exfalso. apply (Last e s); try assumption; [apply Bf; auto|unfold g in E; congruence]. }
        apply Ws; try assumption. intros e2 s2 B2 B3. apply Last; [exact B2|apply Bf; auto].
      * fold g. rewrite Nat.eqb_refl. symmetry. exact Nsv.
  - rewrite upd_length. exact Lh.
  - intros s' Hs'. unfold holds. rewrite upd_nth by lia. destruct (Nat.eqb_spec (fwd s') (fwd s)) as [E|E].
    + apply Hinj in E; try lia. subst s'. reflexivity.
    + apply Hh. assert (s' <> s) by (intros ->; auto). lia.
Qed.

Definition cell_ok (e : nat) (c : cell_type * list (option nat)) : Prop := fst c = LagrangeHex /\ length (snd c) = npe /\ forall s, s < npe -> holds (snd c) (fwd s) (cn e s).

Definition outer (e : nat) (st : list (option D) * list (option D) * list (option nat) * list (cell_type * list (option nat))) :=
  let '(points, sol, hex, elems) := st in
  do (points, sol, hex) <- loop npe (inner e) (points, sol, hex);
  Ok (points, sol, hex, elems ++ [(LagrangeHex, hex)]).

Lemma outer_ok : exists points sol hex elems, loop ne outer (repeat None (nv * 3), repeat None nv, repeat None npe, []) = Ok (points, sol, hex, elems) /\
  winv ne 0 points sol /\ length elems = ne /\ forall e c, nth_error elems e = Some c -> cell_ok e c.
Proof.
  set (P := fun e (st : list (option D) * list (option D) * list (option nat) * list (cell_type * list (option nat))) =>
    winv e 0 (fst (fst (fst st))) (snd (fst (fst st))) /\ length (snd (fst st)) = npe /\ length (snd st) = e /\ forall e' c, nth_error (snd st) e' = Some c -> cell_ok e' c).
  destruct (loop_inv P ne outer (repeat None (nv * 3), repeat None nv, repeat None npe, [])) as ([[[points sol] hex] elems] & E & H).
  - unfold P. cbn [fst snd]. split; [|split; [apply repeat_length|split; [reflexivity|intros [|e'] c; discriminate]]].
    constructor.
    + apply repeat_length.
    + apply repeat_length.
    + intros e' s' c B. unfold before in B. lia.
    + intros gid Hg _. split; [intros c Hc|]; rewrite (nth_error_nth' _ None) by (rewrite repeat_length; nia); rewrite nth_repeat; reflexivity.
    + intros e' s' B. unfold before in B. lia.
  - intros e [[[points sol] hex] elems] He (W & Lh & Le & Hc). cbn [fst snd] in *. unfold outer.
    set (Q := fun s (st : list (option D) * list (option D) * list (option nat)) => winv e s (fst (fst st)) (snd (fst st)) /\ length (snd st) = npe /\ forall s', s' < s -> holds (snd st) (fwd s') (cn e s')).
    destruct (loop_inv Q npe (inner e) (points, sol, hex)) as ([[points' sol'] hex'] & E & (W' & Lh' & Hh')).
    + unfold Q. cbn [fst snd]. split; [exact W|]. split; [exact Lh|intros; lia].
    + intros s [[pt so] hx] Hs (W1 & L1 & H1). cbn [fst snd] in *. destruct (inner_ok e s pt so hx He Hs W1 L1 H1) as (pt' & so' & hx' & E1 & W2 & L2 & H2).
      exists (pt', so', hx'). split; [exact E1|]. unfold Q. cbn [fst snd]. auto.
    + rewrite E. cbn [bind fst snd] in *. eexists. split; [reflexivity|]. unfold P. cbn [fst snd]. split; [|split; [exact Lh'|split]].
      * destruct W' as [Lp Ls Wp Wu Ws]. assert (Bf : forall e' s', s' < npe -> (before (S e) 0 e' s' <-> before e npe e' s')) by (intros; unfold before; lia).
        constructor; try assumption.
        -- intros e' s' c B He' Hs' Hc3. apply Wp; try assumption. apply Bf; assumption.
        -- intros gid Hg Hn. apply Wu; [exact Hg|]. intros e' s' B He' Hs'. apply Hn; try assumption. apply Bf; assumption.
        -- intros e' s' B He' Hs' Last. apply Ws; try assumption; [apply Bf; assumption|]. intros e2 s2 B2 B3 He2 Hs2. apply Last; try assumption. apply Bf; assumption.
      * rewrite app_length. cbn. lia.
      * intros e' c Hn. destruct (Nat.lt_trichotomy e' (length elems)) as [Lt|[Eq|Gt]].
        -- rewrite nth_error_app1 in Hn by exact Lt. apply Hc. exact Hn.
        -- rewrite nth_error_app2 in Hn by lia. rewrite Eq, Nat.sub_diag in Hn. cbn in Hn. inversion Hn; subst. unfold cell_ok. cbn [fst snd]. auto.
        -- rewrite nth_error_app2 in Hn by lia. destruct (e' - length elems) as [|k] eqn:K; [lia|]. cbn in Hn. destruct k; discriminate.
  - unfold P in H. cbn [fst snd] in H. destruct H as (W & _ & Le & Hc). exists points, sol, hex, elems. auto.
Qed.
End Write.
