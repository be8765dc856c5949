(** Property C70: accuracy of the Lagrange interpolants and of their derivatives for smooth functions. *)
From Coq Require Import Reals Arith NArith Lia Lra.
Require Import Verif.Base Verif.RSum Verif.RDer Verif.Poly Verif.Spec_Lagrange Verif.Spec_Accuracy Verif.Model_Lagrange Verif.Lagrange_Math
  Verif.Proof_Lagrange Verif.Rolle Verif.Interp_Err Verif.Prop_Lagrange.
Open Scope R_scope.

(** ** one dimension *)
Theorem C70_value : forall Nv Z w0 w X a b F M, (N.of_nat Nv < 2 ^ 64)%N ->
  separated Nv Z -> compute_barycentric_weights Nv Z w0 = Ok w -> clean Nv Z X ->
  (forall i, (i < Nv)%nat -> a <= Z i <= b) -> a <= X <= b ->
  derivatives_on a b Nv F -> (forall t, a <= t <= b -> Rabs (F Nv t) <= M) ->
  exists v, eval_interp Nv (find_coincident_vertex Nv Z X) Z w X (fun i => Ok (F 0%nat (Z i))) = Ok v /\
    Rabs (F 0%nat X - v) <= M * Rabs (rprod Nv (fun i => X - Z i)) / INR (fact Nv) /\
    Rabs (F 0%nat X - v) <= M * (b - a) ^ Nv / INR (fact Nv).
Proof.
  intros Nv Z w0 w X a b F M HN Sep Hw Cl HZ HX D HM. eexists. split; [eapply C06_interpolant; eassumption|].
  assert (Dis : distinct Nv Z) by (apply (separated_distinct Nv Z Sep)).
  destruct (value_error a b Nv Z F X Dis HZ HX D) as (z & Hz & ->).
  split; apply scaled_bound; try apply HM; try exact Hz; try apply fact_pos_R; [unfold npoly; apply Rle_refl|apply npoly_bound; assumption].
Qed.
Print Assumptions C70_value.

Lemma derivative_bound a b p k Z F M X d : let n := S p in distinct n Z -> (forall i, (i < n)%nat -> a <= Z i <= b) -> a <= X <= b -> derivatives_on a b n F -> (k <= p)%nat ->
  (forall t, a <= t <= b -> Rabs (F n t) <= M) ->
  (forall P, (forall x, P 0%nat x = interp n Z (fun m => F 0%nat (Z m)) x) -> derivs p P -> d = P k X) ->
  Rabs (F k X - d) <= M * (b - a) ^ (n - k) / INR (fact (n - k)).
Proof.
  intros n Dis HZ HX D Hk HM Hd. destruct (derivative_error a b p k Z F X Dis HZ HX D Hk) as (P & P0 & DP & Y & z & HY & Hz & E).
  rewrite (Hd P P0 DP). fold n in E. rewrite E. apply scaled_bound; [apply HM; exact Hz|apply fact_pos_R|apply npoly_bound; assumption].
Qed.

(** first and second derivative *)
Theorem C70_derivatives : forall Nv Z w0 w X a b F M k, (N.of_nat Nv < 2 ^ 64)%N ->
  separated Nv Z -> compute_barycentric_weights Nv Z w0 = Ok w -> clean Nv Z X ->
  (forall i, (i < Nv)%nat -> a <= Z i <= b) -> a <= X <= b ->
  derivatives_on a b Nv F -> (forall t, a <= t <= b -> Rabs (F Nv t) <= M) -> (k = 1 \/ k = 2)%nat -> (k < Nv)%nat ->
  exists d c2, eval_der_interp Nv k (find_coincident_vertex Nv Z X) Z w X (fun i => Ok (F 0%nat (Z i))) = Ok (d, c2) /\
    Rabs (F k X - d) <= M * (b - a) ^ (Nv - k) / INR (fact (Nv - k)).
Proof.
  intros Nv Z w0 w X a b F M k HN Sep Hw Cl HZ HX D HM Hk Hlt. assert (Dis : distinct Nv Z) by (apply (separated_distinct Nv Z Sep)).
  destruct Nv as [|p]; [lia|]. destruct Hk as [-> | ->].
  - destruct (C07_first_derivative (S p) Z w0 w X (fun i => F 0%nat (Z i)) HN ltac:(lia) Sep Hw Cl) as (d & c2 & E & Hd). exists d, c2. split; [exact E|].
    apply (derivative_bound a b p 1 Z F M X d); try assumption; [lia|]. intros P P0 DP. apply (der_unique _ _ _ _ Hd). apply (der_ext (P 0%nat)); [exact P0|]. apply DP. lia.
  - destruct (C08_second_derivative (S p) Z w0 w X (fun i => F 0%nat (Z i)) HN ltac:(lia) Sep Hw Cl) as (d & c2 & E & (f' & Hf & Hd)). exists d, c2. split; [exact E|].
    apply (derivative_bound a b p 2 Z F M X d); try assumption; [lia|]. intros P P0 DP.
    apply (der_unique f' X). { exact Hd. } apply (der_ext (P 1%nat)); [|apply DP; lia].
    intros t. symmetry. apply (der_unique _ _ _ _ (Hf t)). apply (der_ext (P 0%nat)); [exact P0|]. apply DP. lia.
Qed.
Print Assumptions C70_derivatives.

(** X nearly at a vertex: the routines answer for the vertex, which costs at most [tol] times the next derivative *)
Lemma find_near Nv Z X i : (N.of_nat Nv < 2 ^ 64)%N -> separated Nv Z -> nearest_only Nv Z X i -> find_coincident_vertex Nv Z X = find_coincident_vertex Nv Z (Z i) /\ find_coincident_vertex Nv Z X = N.of_nat i.
Proof.
  intros HN Sep (Hi & Hn & Ho). assert (E : find_coincident_vertex Nv Z X = N.of_nat i) by (apply C04_unique_hit; assumption). split; [|exact E]. rewrite E. symmetry.
  apply C04_unique_hit; [assumption|assumption| |].
  - replace (Z i - Z i) with 0 by ring. rewrite Rabs_R0. unfold tol. assert (0 < 2 ^ 52) by (apply pow_lt; lra). apply Rdiv_lt_0_compat; lra.
  - intros j Hj Hne. apply Sep; assumption.
Qed.
Lemma mean_bound a b f f' M s t : (forall u, a <= u <= b -> derivable_pt_lim f u (f' u)) -> (forall u, a <= u <= b -> Rabs (f' u) <= M) -> a <= s <= b -> a <= t <= b ->
  Rabs (f s - f t) <= M * Rabs (s - t).
Proof.
  intros D B. assert (G : forall s t, a <= s <= b -> a <= t <= b -> s < t -> Rabs (f s - f t) <= M * Rabs (s - t)).
  { intros u v Hu Hv L. destruct (MVT_cor2 f f' u v L) as (c & E & Hc); [intros; apply D; lra|]. rewrite (Rabs_minus_sym (f u)), E, Rabs_mult, (Rabs_minus_sym u).
    apply Rmult_le_compat_r; [apply Rabs_pos|apply B; lra]. }
  intros Hs Ht. destruct (Rtotal_order s t) as [L|[-> |L]]; [apply G; assumption| |rewrite (Rabs_minus_sym (f s)), (Rabs_minus_sym s); apply G; assumption].
  replace (f t - f t) with 0 by ring. replace (t - t) with 0 by ring. rewrite Rabs_R0. lra.
Qed.
Theorem C70_near_vertex : forall Nv Z w0 w X a b F M M' k i, (N.of_nat Nv < 2 ^ 64)%N ->
  separated Nv Z -> compute_barycentric_weights Nv Z w0 = Ok w -> nearest_only Nv Z X i ->
  (forall j, (j < Nv)%nat -> a <= Z j <= b) -> a <= X <= b ->
  derivatives_on a b Nv F -> (forall t, a <= t <= b -> Rabs (F Nv t) <= M) -> (k < Nv)%nat -> (forall t, a <= t <= b -> Rabs (F (S k) t) <= M') ->
  (k = 0%nat -> exists v, eval_interp Nv (find_coincident_vertex Nv Z X) Z w X (fun j => Ok (F 0%nat (Z j))) = Ok v /\ Rabs (F 0%nat X - v) <= M' * tol) /\
  ((k = 1 \/ k = 2)%nat -> exists d c2, eval_der_interp Nv k (find_coincident_vertex Nv Z X) Z w X (fun j => Ok (F 0%nat (Z j))) = Ok (d, c2) /\
     Rabs (F k X - d) <= M' * tol + M * (b - a) ^ (Nv - k) / INR (fact (Nv - k))).
Proof.
  intros Nv Z w0 w X a b F M M' k i HN Sep Hw Near HZ HX D HM Hlt HM'. destruct (find_near Nv Z X i HN Sep Near) as (E1 & E2).
  destruct Near as (Hi & Hn & Ho).
  assert (Lt : (N.of_nat i <? N.of_nat Nv)%N = true) by (apply N.ltb_lt; lia).
  assert (MB : Rabs (F k X - F k (Z i)) <= M' * tol).
  { eapply Rle_trans; [apply (mean_bound a b (F k) (F (S k)) M'); [intros; apply D; assumption|exact HM'|exact HX|apply HZ; exact Hi]|].
    apply Rmult_le_compat_l; [|rewrite Rabs_minus_sym; lra]. eapply Rle_trans; [apply Rabs_pos|apply (HM' X HX)]. }
  split.
  - intros ->. exists (F 0%nat (Z i)). rewrite E2. unfold eval_interp. rewrite Lt, Nnat.Nat2N.id. split; [reflexivity|exact MB].
  - intros Hk. destruct (C70_derivatives Nv Z w0 w (Z i) a b F M k HN Sep Hw) as (d & c2 & E & B); try assumption; [left; exists i; auto|apply HZ; exact Hi|].
    exists d, c2. rewrite E1. split.
    + rewrite <- E. rewrite <- E1, E2. unfold eval_der_interp. rewrite Lt. reflexivity.
    + replace (F k X - d) with ((F k X - F k (Z i)) + (F k (Z i) - d)) by ring. eapply Rle_trans; [apply Rabs_triang|]. lra.
Qed.
Print Assumptions C70_near_vertex.

(** ** three dimensions *)
Lemma rsum_abs n f : Rabs (rsum n f) <= rsum n (fun i => Rabs (f i)).
Proof. induction n as [|n IH]; cbn [rsum]; [rewrite Rabs_R0; lra|]. eapply Rle_trans; [apply Rabs_triang|]. lra. Qed.
Lemma weighted n al u v e : (forall i, (i < n)%nat -> Rabs (u i - v i) <= e) -> Rabs (rsum n (fun i => al i * u i) - rsum n (fun i => al i * v i)) <= rsum n (fun i => Rabs (al i)) * e.
Proof.
  intros H. rewrite <- rsum_minus, <- rsum_scal_r. eapply Rle_trans; [apply rsum_abs|]. apply rsum_le. intros i Hi.
  replace (al i * u i - al i * v i) with (al i * (u i - v i)) by ring. rewrite Rabs_mult. apply Rmult_le_compat_l; [apply Rabs_pos|apply H; exact Hi].
Qed.
(** one direction after the other *)
Lemma tensor_err n (al be ga : nat -> R) (T : R) (u1 : nat -> R) (u2 : nat -> nat -> R) (u3 : nat -> nat -> nat -> R) e1 e2 e3 : 
  Rabs (T - rsum n (fun i => al i * u1 i)) <= e1 ->
  (forall i, (i < n)%nat -> Rabs (u1 i - rsum n (fun j => be j * u2 i j)) <= e2) ->
  (forall i j, (i < n)%nat -> (j < n)%nat -> Rabs (u2 i j - rsum n (fun k => ga k * u3 i j k)) <= e3) ->
  Rabs (T - rsum n (fun i => al i * rsum n (fun j => be j * rsum n (fun k => ga k * u3 i j k)))) <=
  e1 + rsum n (fun i => Rabs (al i)) * (e2 + rsum n (fun j => Rabs (be j)) * e3).
Proof.
  intros H1 H2 H3. set (S := rsum n (fun i => al i * rsum n (fun j => be j * rsum n (fun k => ga k * u3 i j k)))).
  replace (T - S) with ((T - rsum n (fun i => al i * u1 i)) + (rsum n (fun i => al i * u1 i) - S)) by ring.
  eapply Rle_trans; [apply Rabs_triang|]. apply Rplus_le_compat; [exact H1|]. apply weighted. intros i Hi.
  replace (u1 i - rsum n (fun j => be j * rsum n (fun k => ga k * u3 i j k)))
    with ((u1 i - rsum n (fun j => be j * u2 i j)) + (rsum n (fun j => be j * u2 i j) - rsum n (fun j => be j * rsum n (fun k => ga k * u3 i j k)))) by ring.
  eapply Rle_trans; [apply Rabs_triang|]. apply Rplus_le_compat; [apply H2; exact Hi|]. apply weighted. intros j Hj. apply H3; assumption.
Qed.

(** the field sum, with any of the three directions outermost *)
Lemma field_x n Z f c x y z : samples n Z f c ->
  field3 n Z c x y z = rsum n (fun i => ell n Z i x * rsum n (fun j => ell n Z j y * rsum n (fun k => ell n Z k z * f (Z i) (Z j) (Z k)))).
Proof.
  intros S. unfold field3, phi3. rewrite (rsum_ext n _ (fun k => rsum n (fun i => rsum n (fun j => ell n Z i x * (ell n Z j y * (ell n Z k z * f (Z i) (Z j) (Z k))))))).
  2: { intros k Hk. rewrite rsum_swap. apply rsum_ext. intros i Hi. apply rsum_ext. intros j Hj. rewrite S by assumption. ring. }
  rewrite rsum_swap. apply rsum_ext. intros i Hi. rewrite rsum_swap, <- rsum_scal_l. apply rsum_ext. intros j Hj.
  rewrite <- !rsum_scal_l. reflexivity.
Qed.
Lemma nest_scal n a (g : nat -> nat -> R) : rsum n (fun j => rsum n (fun k => a * g j k)) = a * rsum n (fun j => rsum n (fun k => g j k)).
Proof. rewrite <- rsum_scal_l. apply rsum_ext. intros. apply rsum_scal_l. Qed.
Lemma field_y n Z f c x y z : samples n Z f c ->
  field3 n Z c x y z = rsum n (fun j => ell n Z j y * rsum n (fun i => ell n Z i x * rsum n (fun k => ell n Z k z * f (Z i) (Z j) (Z k)))).
Proof.
  intros S. rewrite (field_x n Z f) by exact S.
  rewrite (rsum_ext n _ (fun i => rsum n (fun j => ell n Z i x * (ell n Z j y * rsum n (fun k => ell n Z k z * f (Z i) (Z j) (Z k)))))) by (intros; symmetry; apply rsum_scal_l).
  rewrite rsum_swap. apply rsum_ext. intros j Hj. rewrite <- rsum_scal_l. apply rsum_ext. intros i Hi. ring.
Qed.
Lemma field_z n Z f c x y z : samples n Z f c ->
  field3 n Z c x y z = rsum n (fun k => ell n Z k z * rsum n (fun i => ell n Z i x * rsum n (fun j => ell n Z j y * f (Z i) (Z j) (Z k)))).
Proof.
  intros S. unfold field3, phi3. apply rsum_ext. intros k Hk. rewrite rsum_swap, <- rsum_scal_l. apply rsum_ext. intros i Hi. rewrite <- !rsum_scal_l. apply rsum_ext. intros j Hj.
  rewrite S by assumption. ring.
Qed.

Lemma value_bound a b n M f Z t : distinct n Z -> (forall i, (i < n)%nat -> a <= Z i <= b) -> a <= t <= b -> smooth a b n M f ->
  Rabs (f t - rsum n (fun i => ell n Z i t * f (Z i))) <= M * (b - a) ^ n / INR (fact n).
Proof.
  intros Dis HZ Ht (F & F0 & D & B). destruct (value_error a b n Z F t Dis HZ Ht D) as (z & Hz & E).
  replace (f t - rsum n (fun i => ell n Z i t * f (Z i))) with (F n z / INR (fact n) * npoly n Z t).
  - apply scaled_bound; [apply B; exact Hz|apply fact_pos_R|apply npoly_bound; assumption].
  - rewrite <- E, F0. f_equal. unfold interp. apply rsum_ext. intros i Hi. rewrite F0. ring.
Qed.
Lemma slope_bound a b n M f f1 Z t (d : nat -> R) : (2 <= n)%nat -> distinct n Z -> (forall i, (i < n)%nat -> a <= Z i <= b) -> a <= t <= b -> smooth a b n M f ->
  derivable_pt_lim f t f1 -> (forall i, (i < n)%nat -> derivable_pt_lim (ell n Z i) t (d i)) ->
  Rabs (f1 - rsum n (fun i => d i * f (Z i))) <= M * (b - a) ^ (n - 1) / INR (fact (n - 1)).
Proof.
  intros Hn Dis HZ Ht (F & F0 & D & B) Hf Hd. destruct n as [|p]; [lia|].
  assert (E1 : f1 = F 1%nat t). { apply (der_unique f t); [exact Hf|]. apply (der_ext (F 0%nat)); [exact F0|]. apply D; [lia|exact Ht]. }
  rewrite E1. apply (derivative_bound a b p 1 Z F M t); try assumption; [lia|]. intros P P0 DP.
  apply (der_unique (P 0%nat) t); [|apply DP; lia]. apply (der_ext (interp (S p) Z (fun m => F 0%nat (Z m)))); [intros; symmetry; apply P0|].
  unfold interp. apply (der_ext (fun x => rsum (S p) (fun i => ell (S p) Z i x * F 0%nat (Z i)))); [intros; apply rsum_ext; intros; ring|].
  eapply der_value; [|apply (der_rsum (S p) (fun i x => ell (S p) Z i x * F 0%nat (Z i)) (fun i => d i * F 0%nat (Z i))); intros i Hi; apply der_scal_r, Hd; exact Hi].
  apply rsum_ext. intros i Hi. rewrite F0. reflexivity.
Qed.

(** value of the field that interpolates f at the vertices of an element *)
Theorem C70_field : forall order Z w0 e,
  new_lagrange_element order Z w0 = Ok e /\ separated (order + 1) Z /\
  (N.of_nat ((order + 1) * (order + 1) * (order + 1)) <= 2 ^ 64)%N ->
  let n := (order + 1)%nat in
  forall a b f Mx My Mz c x y z C, (forall i, (i < n)%nat -> a <= Z i <= b) -> smooth3 a b n Mx My Mz f -> samples n Z f c ->
  a <= x <= b -> a <= y <= b -> a <= z <= b -> clean n Z x -> clean n Z y -> clean n Z z ->
  exists v C', le_eval_approx e c x y z C = Ok (v, C') /\
    Rabs (f x y z - v) <= (Mx + lebesgue n Z x * (My + lebesgue n Z y * Mz)) * (b - a) ^ n / INR (fact n).
Proof.
  intros order Z w0 e He n a b f Mx My Mz c x y z C HZ (Sx & Sy & Sz) Sam Hx Hy Hz Cx Cy Cz.
  destruct (C10_field_value order Z w0 e He c x y z C Cx Cy Cz) as (C' & E). eexists. exists C'. split; [exact E|].
  assert (Dis : distinct n Z) by (apply (separated_distinct n Z); apply He). fold n. rewrite (field_x n Z f) by exact Sam.
  set (K := (b - a) ^ n / INR (fact n)).
  replace ((Mx + lebesgue n Z x * (My + lebesgue n Z y * Mz)) * (b - a) ^ n / INR (fact n)) with (Mx * K + lebesgue n Z x * (My * K + lebesgue n Z y * (Mz * K))) by (unfold K, Rdiv; ring).
  assert (VB : forall M g t, a <= t <= b -> smooth a b n M g -> Rabs (g t - rsum n (fun i => ell n Z i t * g (Z i))) <= M * K).
  { intros M g t Ht Sg. replace (M * K) with (M * (b - a) ^ n / INR (fact n)) by (unfold K, Rdiv; ring). apply value_bound; assumption. }
  apply (tensor_err n _ _ _ _ (fun i => f (Z i) y z) (fun i j => f (Z i) (Z j) z) (fun i j k => f (Z i) (Z j) (Z k))).
  - apply (VB Mx (fun t => f t y z)); [exact Hx|apply Sx; assumption].
  - intros i Hi. apply (VB My (fun t => f (Z i) t z)); [exact Hy|apply Sy; [apply HZ; exact Hi|exact Hz]].
  - intros i j Hi Hj. apply (VB Mz (fun t => f (Z i) (Z j) t)); [exact Hz|apply Sz; apply HZ; assumption].
Qed.
Print Assumptions C70_field.

(** gradient of the field *)
Theorem C70_gradient : forall order Z w0 e,
  new_lagrange_element order Z w0 = Ok e /\ separated (order + 1) Z /\
  (N.of_nat ((order + 1) * (order + 1) * (order + 1)) <= 2 ^ 64)%N ->
  let n := (order + 1)%nat in (1 <= order)%nat ->
  forall a b f Mx My Mz c x y z C fx fy fz Lx Ly Lz, (forall i, (i < n)%nat -> a <= Z i <= b) -> smooth3 a b n Mx My Mz f -> samples n Z f c ->
  a <= x <= b -> a <= y <= b -> a <= z <= b -> clean n Z x -> clean n Z y -> clean n Z z ->
  is_grad f x y z (fx, fy, fz) -> is_lebesgue_slope n Z x Lx -> is_lebesgue_slope n Z y Ly -> is_lebesgue_slope n Z z Lz ->
  let K1 := (b - a) ^ order / INR (fact order) in let K := (b - a) ^ n / INR (fact n) in
  exists gx gy gz C', le_eval_grad_approx e c x y z C = Ok ((gx, gy, gz), C') /\
    Rabs (fx - gx) <= Mx * K1 + Lx * ((My + lebesgue n Z y * Mz) * K) /\
    Rabs (fy - gy) <= My * K1 + Ly * ((Mx + lebesgue n Z x * Mz) * K) /\
    Rabs (fz - gz) <= Mz * K1 + Lz * ((Mx + lebesgue n Z x * My) * K).
Proof.
  intros order Z w0 e He n Ho a b f Mx My Mz c x y z C fx fy fz Lx Ly Lz HZ (Sx & Sy & Sz) Sam Hx Hy Hz Cx Cy Cz (Gx & Gy & Gz) (dx & Dx & ->) (dy & Dy & ->) (dz & Dz & ->) K1 K.
  destruct (C11_field_gradient order Z w0 e He c x y z C Cx Cy Cz) as (((gx & gy) & gz) & C' & E & G1 & G2 & G3). fold n in G1, G2, G3.
  exists gx, gy, gz, C'. split; [exact E|].
  assert (Dis : distinct n Z) by (apply (separated_distinct n Z); apply He).
  assert (VB : forall M g t, a <= t <= b -> smooth a b n M g -> Rabs (g t - rsum n (fun i => ell n Z i t * g (Z i))) <= M * K).
  { intros M g t Ht Sg. replace (M * K) with (M * (b - a) ^ n / INR (fact n)) by (unfold K, Rdiv; ring). apply value_bound; assumption. }
  assert (SB : forall M g g1 t d, a <= t <= b -> smooth a b n M g -> derivable_pt_lim g t g1 -> (forall i, (i < n)%nat -> derivable_pt_lim (ell n Z i) t (d i)) ->
    Rabs (g1 - rsum n (fun i => d i * g (Z i))) <= M * K1).
  { intros M g g1 t d Ht Sg Hg Hd. replace (M * K1) with (M * (b - a) ^ (n - 1) / INR (fact (n - 1))).
    - apply (slope_bound a b n M g g1 Z t d); try assumption. unfold n. lia.
    - unfold K1, Rdiv. replace (n - 1)%nat with order by (unfold n; lia). ring. }
  split; [|split].
  - assert (Eg : gx = rsum n (fun i => dx i * rsum n (fun j => ell n Z j y * rsum n (fun k => ell n Z k z * f (Z i) (Z j) (Z k))))).
    { apply (der_unique _ _ _ _ G1). eapply der_ext; [intros t; symmetry; apply (field_x n Z f); exact Sam|].
      apply (der_rsum n (fun i t => ell n Z i t * rsum n (fun j => ell n Z j y * rsum n (fun k => ell n Z k z * f (Z i) (Z j) (Z k)))) (fun i => dx i * _)). intros i Hi. apply der_scal_r, Dx, Hi. }
    rewrite Eg. replace ((My + lebesgue n Z y * Mz) * K) with (My * K + lebesgue n Z y * (Mz * K)) by ring.
    apply (tensor_err n _ _ _ _ (fun i => f (Z i) y z) (fun i j => f (Z i) (Z j) z) (fun i j k => f (Z i) (Z j) (Z k))).
    + apply (SB Mx (fun t => f t y z) fx x); [exact Hx|apply Sx; assumption|exact Gx|exact Dx].
    + intros i Hi. apply (VB My (fun t => f (Z i) t z)); [exact Hy|apply Sy; [apply HZ; exact Hi|exact Hz]].
    + intros i j Hi Hj. apply (VB Mz (fun t => f (Z i) (Z j) t)); [exact Hz|apply Sz; apply HZ; assumption].
  - assert (Eg : gy = rsum n (fun j => dy j * rsum n (fun i => ell n Z i x * rsum n (fun k => ell n Z k z * f (Z i) (Z j) (Z k))))).
    { apply (der_unique _ _ _ _ G2). eapply der_ext; [intros t; symmetry; apply (field_y n Z f); exact Sam|].
      apply (der_rsum n (fun j t => ell n Z j t * rsum n (fun i => ell n Z i x * rsum n (fun k => ell n Z k z * f (Z i) (Z j) (Z k)))) (fun i => dy i * _)). intros i Hi. apply der_scal_r, Dy, Hi. }
    rewrite Eg. replace ((Mx + lebesgue n Z x * Mz) * K) with (Mx * K + lebesgue n Z x * (Mz * K)) by ring.
    apply (tensor_err n _ _ _ _ (fun j => f x (Z j) z) (fun j i => f (Z i) (Z j) z) (fun j i k => f (Z i) (Z j) (Z k))).
    + apply (SB My (fun t => f x t z) fy y); [exact Hy|apply Sy; assumption|exact Gy|exact Dy].
    + intros j Hj. apply (VB Mx (fun t => f t (Z j) z)); [exact Hx|apply Sx; [apply HZ; exact Hj|exact Hz]].
    + intros j i Hj Hi. apply (VB Mz (fun t => f (Z i) (Z j) t)); [exact Hz|apply Sz; apply HZ; assumption].
  - assert (Eg : gz = rsum n (fun k => dz k * rsum n (fun i => ell n Z i x * rsum n (fun j => ell n Z j y * f (Z i) (Z j) (Z k))))).
    { apply (der_unique _ _ _ _ G3). eapply der_ext; [intros t; symmetry; apply (field_z n Z f); exact Sam|].
      apply (der_rsum n (fun k t => ell n Z k t * rsum n (fun i => ell n Z i x * rsum n (fun j => ell n Z j y * f (Z i) (Z j) (Z k)))) (fun i => dz i * _)). intros i Hi. apply der_scal_r, Dz, Hi. }
    rewrite Eg. replace ((Mx + lebesgue n Z x * My) * K) with (Mx * K + lebesgue n Z x * (My * K)) by ring.
    apply (tensor_err n _ _ _ _ (fun k => f x y (Z k)) (fun k i => f (Z i) y (Z k)) (fun k i j => f (Z i) (Z j) (Z k))).
    + apply (SB Mz (fun t => f x y t) fz z); [exact Hz|apply Sz; assumption|exact Gz|exact Dz].
    + intros k Hk. apply (VB Mx (fun t => f t y (Z k))); [exact Hx|apply Sx; [exact Hy|apply HZ; exact Hk]].
    + intros k i Hk Hi. apply (VB My (fun t => f (Z i) t (Z k))); [exact Hy|apply Sy; apply HZ; assumption].
Qed.
Print Assumptions C70_gradient.

(** non-vacuity: sin on [0,2] with vertices 0,1,2; its derivatives are at most 1, so the interpolant at 1/2 is within 1/16 *)
Fixpoint sin_derivs (k : nat) : R -> R := match k with O => sin | S O => cos | S (S k) => fun t => - sin_derivs k t end.
Lemma sin_derivs_ok n : derivatives_on 0 2 n sin_derivs.
Proof.
  intros k t _ _. revert t. induction k as [k IH] using lt_wf_ind. intros t. destruct k as [|[|k]].
  - apply derivable_pt_lim_sin.
  - apply derivable_pt_lim_cos.
  - change (derivable_pt_lim (fun u => - sin_derivs k u) t (- sin_derivs (S k) t)). apply der_opp. apply IH. lia.
Qed.
Lemma sin_derivs_le k t : Rabs (sin_derivs k t) <= 1.
Proof.
  induction k as [k IH] using lt_wf_ind. destruct k as [|[|k]].
  - apply Rabs_le, SIN_bound.
  - apply Rabs_le, COS_bound.
  - change (Rabs (- sin_derivs k t) <= 1). rewrite Rabs_Ropp. apply IH. lia.
Qed.
Example C70_nonvacuous : exists w v, compute_barycentric_weights 3 INR (fun _ => 0) = Ok w /\
  eval_interp 3 (find_coincident_vertex 3 INR (1/2)) INR w (1/2) (fun i => Ok (sin (INR i))) = Ok v /\ Rabs (sin (1/2) - v) <= 1/16.
Proof.
  destruct lagrange_nonvacuous as (Sep & _ & _ & _ & (w & Ew) & _). exists w.
  destruct (C70_value 3 INR (fun _ => 0) w (1/2) 0 2 sin_derivs 1) as (v & E & B & _).
  - reflexivity.
  - exact Sep.
  - exact Ew.
  - right. intros i Hi. assert (T : tol <= 1/4). { unfold tol. assert (P := pow_R1_Rle 2 49 ltac:(lra)). apply (Rmult_le_reg_r (2^52)); [apply pow_lt; lra|]. unfold Rdiv. rewrite Rmult_assoc, Rinv_l by (apply pow_nonzero; lra). replace (2^52) with (8 * 2^49) by ring. lra. }
    destruct i as [|[|[|i]]]; [| | |lia]; cbn [INR]; unfold Rabs; destruct Rcase_abs; lra.
  - intros i Hi. destruct i as [|[|[|i]]]; [| | |lia]; cbn; lra.
  - lra.
  - apply sin_derivs_ok.
  - intros t _. apply sin_derivs_le.
  - exists v. split; [exact Ew|]. split; [exact E|]. eapply Rle_trans; [exact B|]. cbn [rprod INR fact Nat.add Nat.mul].
    rewrite (Rabs_pos_eq (1 * (1/2 - 0) * (1/2 - 1) * (1/2 - (1+1)))) by lra. lra.
Qed.
