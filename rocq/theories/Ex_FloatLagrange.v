(** The linear element on [-1,1] in doubles at X = 1 - 5/2^53. *)
From Coq Require Import List Reals NArith ZArith Arith Lia Lra.
Import ListNotations.
From Flocq Require Import Core.
Require Import Verif.Base Verif.RBase Verif.RSum Verif.Spec_Lagrange
  Verif.Model_Common Verif.Model_Lagrange Verif.Proof_Lagrange Verif.Spec_Float Verif.Float_Base Verif.Float_Eval
  Verif.Model_FloatLagrange Verif.Proof_FloatLagrange Verif.Proof_FloatLagrange2.
Open Scope R_scope.

Definition v1 : Z * Z := (1, 0)%Z.
Definition v0 : Z * Z := (0, 0)%Z.
Lemma val1 : 1 = val v1. Proof. unfold val. cbn. ring. Qed.
Lemma val0 : 0 = val v0. Proof. unfold val. cbn. ring. Qed.
Lemma valm1 : -1 = val (-1, 0)%Z. Proof. unfold val. cbn. ring. Qed.
Lemma valneg m e : - val (m, e) = val (- m, e)%Z.
Proof. unfold val. cbn [fst snd]. rewrite opp_IZR. ring. Qed.
Lemma rdivf_val a b c : fdiv a b = Some c -> rdivf binary64 (val a) (val b) = Ok (val c).
Proof. intros H. apply fdiv_ok in H. destruct H as (H & N). unfold rdivf. destruct (Req_EM_T (val b) 0); [contradiction|]. rewrite H. reflexivity. Qed.

(** evaluates the next operation whose operands are known *)
Ltac fstep :=
  match goal with
  | |- context [rdivf binary64 (val ?a) (val ?b)] => let c := eval vm_compute in (fdiv a b) in match c with Some ?c' => rewrite (rdivf_val a b c' eq_refl) end
  | |- context [binary64 (val ?a - val ?b)] => let c := eval vm_compute in (fsub a b) in match c with Some ?c' => rewrite (fsub_ok a b c' eq_refl) end
  | |- context [binary64 (val ?a + val ?b)] => let c := eval vm_compute in (fadd a b) in match c with Some ?c' => rewrite (fadd_ok a b c' eq_refl) end
  | |- context [binary64 (val ?a * val ?b)] => let c := eval vm_compute in (fmul a b) in match c with Some ?c' => rewrite (fmul_ok a b c' eq_refl) end
  | |- context [- val (?m, ?e)] => rewrite (valneg m e); let m' := eval vm_compute in (- m)%Z in change (- m)%Z with m'
  end.

Definition Zlin : nat -> R := fun j => match j with O => -1 | _ => 1 end.
Definition Xv : Z * Z := (2 ^ 53 - 5, -53)%Z.
Definition Xnear : R := 1 - 5 / 2 ^ 53.
Lemma Xnear_val : Xnear = val Xv.
Proof.
  unfold Xnear, val, Xv. cbn [fst snd]. change (-53)%Z with (- (53))%Z. rewrite bpow_opp. rewrite <- IZR_Zpower by lia. rewrite pow_IZR.
  change (Z.pow radix2 53) with 9007199254740992%Z. change (Z.pow 2 (Z.of_nat 53)) with 9007199254740992%Z. change (2 ^ 53 - 5)%Z with 9007199254740987%Z. lra.
Qed.
Lemma Zlin_val j : Zlin j = val (match j with O => (-1, 0)%Z | _ => v1 end).
Proof. destruct j; cbn [Zlin]; [apply valm1|apply val1]. Qed.

Definition wv (j : nat) : Z * Z := match j with O => (-4503599627370496, -53)%Z | _ => (4503599627370496, -53)%Z end.
Lemma weights_lin w0 : exists w, compute_barycentric_weightsf binary64 2 Zlin w0 = Ok w /\ w 0%nat = val (wv 0) /\ w 1%nat = val (wv 1).
Proof.
  unfold compute_barycentric_weightsf. cbn [loop loop_from Nat.eqb bind]. rewrite !Zlin_val, !val1. cbn [Nat.eqb]. repeat (fstep; cbn [bind]).
  eexists. split; [reflexivity|]. split; reflexivity.
Qed.

Section Lin.
Context (w : nat -> R).
Hypothesis W0 : w 0%nat = val (wv 0).
Hypothesis W1 : w 1%nat = val (wv 1).
Definition pv : Z * Z := (4503599627370497, -52)%Z.
Definition dv : Z * Z := (-7205759403792792, -54)%Z.

(** the interpolant of the constant 1 *)
Lemma lin_sum c : c 0%nat = Ok 1 -> c 1%nat = Ok 1 -> exists p L, interp_sumf binary64 2 Zlin w Xnear c = Ok (val p, val L) /\ fmul p L = Some pv /\ L = (-5629499534213119, -102)%Z.
Proof.
  intros C0 C1. unfold interp_sumf. cbn [loop loop_from bind]. rewrite C0, C1. cbn [bind]. rewrite !Zlin_val, W0, W1, Xnear_val. cbn [wv]. rewrite val0, val1. repeat (fstep; cbn [bind]).
  do 2 eexists. split; [reflexivity|]. split; reflexivity.
Qed.
Lemma lin_val ic c : (2 <= ic)%N -> c 0%nat = Ok 1 -> c 1%nat = Ok 1 -> eval_interpf binary64 2 ic Zlin w Xnear c = Ok (val pv).
Proof.
  intros Hic C0 C1. unfold eval_interpf. rewrite (proj2 (N.ltb_ge _ _)) by (simpl; lia). destruct (lin_sum c C0 C1) as (p & L & -> & M & _). cbn [bind]. rewrite (fmul_ok p L pv M). reflexivity.
Qed.
Lemma lin_der ic c : (2 <= ic)%N -> c 0%nat = Ok 1 -> c 1%nat = Ok 1 ->
  exists c2, eval_der_interpf binary64 2 1 ic Zlin w Xnear c = Ok (val dv, c2) /\ forall i, (2 <= i)%nat -> c2 i = c i.
Proof.
  intros Hic C0 C1. unfold eval_der_interpf. rewrite (proj2 (N.ltb_ge _ _)) by (simpl; lia). destruct (lin_sum c C0 C1) as (p & L & -> & M & ->). cbn [bind]. rewrite (fmul_ok p _ pv M).
  cbn [loop_from der_step_freef loop bind]. unfold der_step_freef. cbn [loop loop_from bind]. change (INR 1) with 1. cbv beta iota delta [fset Nat.eqb]. rewrite C0.
  rewrite !Zlin_val, W0, W1, Xnear_val. cbn [wv]. rewrite !val0, !val1. unfold pv.
  repeat (fstep; cbn [bind]). rewrite C1, val1. cbn [bind]. repeat (fstep; cbn [bind]). eexists. split; [reflexivity|]. intros i Hi. destruct i as [|[|i]]; [lia|lia|reflexivity].
Qed.
End Lin.

(** a collapse that maps every constant line a to b *)
Definition maps_const (d : bool) (e : lagrange_element) (X a b : R) : Prop :=
  forall C, (forall i, (i < le_N e)%nat -> C i = Ok a) ->
  exists C', collapsef binary64 d (le_N e) (find_coincident_vertexf binary64 (le_N e) (le_Z e) X) (le_Z e) (le_w e) X C = Ok (b, C') /\ forall i, (le_N e <= i)%nat -> C' i = C i.
Lemma grad_const e l x y z a b r C : maps_const (Nat.eqb l 0) e x 1 a -> maps_const (Nat.eqb l 1) e y a b -> maps_const (Nat.eqb l 2) e z b r ->
  exists C', le_eval_grad_compf binary64 e l (fun _ => 1) x y z C = Ok (r, C').
Proof.
  intros Mx My Mz. unfold le_eval_grad_compf. set (n := le_N e) in *.
  edestruct (loop_inv (fun m (C : nat -> res R) => forall k, (k < m)%nat -> C (2 * n + k)%nat = Ok b) n) as (C1 & E & H).
  3: { rewrite E. cbn [bind]. destruct (Mz (copy_front n (2 * n) C1)) as (C' & E' & _).
       - intros k Hk. unfold copy_front. fold n in Hk. rewrite (proj2 (Nat.ltb_lt _ _)) by exact Hk. apply H. exact Hk.
       - exists C'. exact E'. }
  - intros; lia.
  - intros k C0 Hk H0.
    edestruct (loop_inv (fun m (C : nat -> res R) => (forall j, (j < m)%nat -> C (n + j)%nat = Ok a) /\ (forall i, (2 * n <= i)%nat -> C i = C0 i)) n) as (C2 & E & H1 & H2).
    3: { rewrite E. cbn [bind]. destruct (My (copy_front n n C2)) as (C' & E' & H3).
         - intros j Hj. unfold copy_front. fold n in Hj. rewrite (proj2 (Nat.ltb_lt _ _)) by exact Hj. apply H1. exact Hj.
         - fold n in E'. rewrite E'. cbn [bind]. eexists. split; [reflexivity|]. intros k' Hk'. destruct (Nat.eq_dec k' k) as [->|Ne].
           + rewrite fset_eq. reflexivity.
           + rewrite fset_neq by lia. rewrite H3 by (unfold n in *; lia). unfold copy_front. rewrite (proj2 (Nat.ltb_ge _ _)) by lia. rewrite H2 by lia. apply H0. lia. }
    + split; [intros; lia|auto].
    + intros j C2 Hj (H1 & H2). set (C0' := fun i => if Nat.ltb i n then Ok 1 else C2 i).
      destruct (Mx C0') as (C' & E' & H3).
      { intros i Hi. unfold C0'. fold n in Hi. rewrite (proj2 (Nat.ltb_lt _ _)) by exact Hi. reflexivity. }
      fold n in E', H3. rewrite E'. cbn [bind]. eexists. split; [reflexivity|]. split.
      * intros j' Hj'. destruct (Nat.eq_dec j' j) as [->|Ne]; [apply fset_eq|]. rewrite fset_neq by lia. rewrite H3 by lia. unfold C0'. rewrite (proj2 (Nat.ltb_ge _ _)) by lia. apply H1. lia.
      * intros i Hi. rewrite fset_neq by lia. rewrite H3 by lia. unfold C0'. rewrite (proj2 (Nat.ltb_ge _ _)) by lia. apply H2. exact Hi.
Qed.

Lemma tol_num : tol = / 2251799813685248.
Proof. unfold tol. lra. Qed.
Lemma Zlin_sep : separated 2 Zlin.
Proof.
  intros i j Hi Hj Ne. rewrite tol_num. assert (i = 0 /\ j = 1 \/ i = 1 /\ j = 0)%nat as [(-> & ->)|(-> & ->)] by lia; cbn [Zlin].
  - replace (-1 - 1) with (- (2)) by ring. rewrite Rabs_Ropp, Rabs_pos_eq; lra.
  - replace (1 - -1) with 2 by ring. rewrite Rabs_pos_eq; lra.
Qed.
Lemma Xnear_num : Xnear = 1 - 5 / 9007199254740992.
Proof. unfold Xnear. lra. Qed.
Lemma Xnear_clean : clean 2 Zlin Xnear.
Proof.
  right. intros i Hi. rewrite tol_num, Xnear_num. destruct i as [|[|i]]; [| |lia]; cbn [Zlin].
  - rewrite Rabs_left by lra. lra.
  - rewrite Rabs_pos_eq by lra. lra.
Qed.
Lemma find_near : (2 <= find_coincident_vertexf binary64 2 Zlin Xnear)%N.
Proof.
  rewrite (findf_same u64 binary64) by (first [assert (H := u64_range); lra | exact binary64_rounds | exact b64_tol | exact Zlin_sep | exact Xnear_clean]).
  rewrite find_none; [simpl; lia|]. destruct Xnear_clean as [(i & Hi & E)|H]; [|exact H].
  exfalso. rewrite Xnear_num in E. destruct i as [|[|i]]; [| |lia]; cbn [Zlin] in E; lra.
Qed.
Lemma find_one_lin : find_coincident_vertexf binary64 2 Zlin 1 = 1%N.
Proof.
  assert (P : clean 2 Zlin 1) by (left; exists 1%nat; split; [lia|reflexivity]).
  rewrite (findf_same u64 binary64) by (first [assert (H := u64_range); lra | exact binary64_rounds | exact b64_tol | exact Zlin_sep | exact P]).
  rewrite (find_one 2 Zlin 1 1); [reflexivity|reflexivity|lia| |].
  - cbn [Zlin]. rewrite Rminus_diag_eq, Rabs_R0 by reflexivity. rewrite tol_num. lra.
  - intros j Hj Ne. assert (H := Zlin_sep j 1%nat Hj ltac:(lia) Ne). exact H.
Qed.
Lemma dv_num : val dv = - (7205759403792792 / 18014398509481984).
Proof.
  unfold val, dv. cbn [fst snd]. change (-54)%Z with (- (54))%Z. rewrite bpow_opp. rewrite <- IZR_Zpower by lia. change (Z.pow radix2 54) with 18014398509481984%Z. lra.
Qed.

(** the gradient of the constant field 1 at (Xnear, 1, 1) *)
Lemma grad_near w0 e C : new_lagrange_elementf binary64 1 Zlin w0 = Ok e ->
  exists C', le_eval_grad_approxf binary64 e (fun _ => 1) Xnear 1 1 C = Ok ((val dv, 0, 0), C').
Proof.
  unfold new_lagrange_elementf. cbn [Nat.add]. destruct (weights_lin w0) as (w & E & W0 & W1). rewrite E. cbn [bind]. intros [= <-].
  set (e := {| le_N := 2; le_Z := Zlin; le_w := w |}).
  assert (Hu := u64_range). assert (Hu' : 0 <= u64 < 1) by lra.
  assert (D := separated_distinct _ _ Zlin_sep).
  assert (NW : near_weights u64 2 Zlin w).
  { destruct (weightsf_ok u64 binary64 Hu' binary64_rounds 2 Zlin w0 D) as (w' & E' & H & _). rewrite E in E'. injection E' as <-. exact H. }
  assert (Mp : maps_const false e Xnear 1 (val pv)).
  { intros C0 H. unfold collapsef. cbn [le_N le_Z le_w e]. rewrite (lin_val w W0 W1) by (first [exact find_near | apply H; simpl; lia]). cbn [bind]. exists C0. split; [reflexivity|auto]. }
  assert (Md : maps_const true e Xnear 1 (val dv)).
  { intros C0 H. unfold collapsef. cbn [le_N le_Z le_w e]. apply (lin_der w W0 W1); [exact find_near|apply H; simpl; lia|apply H; simpl; lia]. }
  assert (Vp : forall a, maps_const false e 1 a a).
  { intros a C0 H. unfold collapsef. cbn [le_N le_Z le_w e]. rewrite find_one_lin. unfold eval_interpf. cbn [N.ltb N.of_nat N.compare]. change (1 <? 2)%N with true. cbv iota. rewrite (H (N.to_nat 1)) by (simpl; lia). cbn [bind]. exists C0. split; [reflexivity|auto]. }
  assert (Vd : forall a, maps_const true e 1 a 0).
  { intros a C0 H. unfold collapsef. cbn [le_N le_Z le_w e]. rewrite find_one_lin.
    destruct (der_vertexf u64 binary64 Hu' binary64_rounds 2 Zlin w 1 C0 (fun _ => a) D NW ltac:(lia) H) as (ph & c2 & _ & E1 & H2).
    change (N.of_nat 1) with 1%N in E1. cbn [Zlin] in E1. exists c2. rewrite E1. split; [|exact H2]. f_equal. f_equal. apply rsum_zero. intros i Hi. destruct (Nat.eqb i 1); [reflexivity|]. unfold Rdiv. ring. }
  unfold le_eval_grad_approxf.
  destruct (grad_const e 0 Xnear 1 1 (val dv) (val dv) (val dv) C Md (Vp _) (Vp _)) as (C0 & ->). cbn [bind].
  destruct (grad_const e 1 Xnear 1 1 (val pv) 0 0 C0 Mp (Vd _) (Vp _)) as (C1 & ->). cbn [bind].
  destruct (grad_const e 2 Xnear 1 1 (val pv) (val pv) 0 C1 Mp (Vp _) (Vd _)) as (C2 & ->). cbn [bind].
  exists C2. reflexivity.
Qed.
