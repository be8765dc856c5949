(** Graphics dumps of examples/average (C64). *)
From Coq Require Import Reals List Arith ZArith Lra Lia Bool.
Import ListNotations.
Require Import Verif.Base Verif.RBase Verif.Spec_Full Verif.Spec_Box Verif.Spec_File Verif.Model_Full Verif.Model_Average Verif.Model_File Verif.Spec_Average Verif.Spec_Dump Verif.Proof_File.
Local Open Scope nat_scope.

(** collecting loops *)
Lemma collect_loop {A} n (at_ : nat -> list A -> res (list A)) (g : nat -> list A) s : (forall i s, i < n -> at_ i s = Ok (s ++ g i)) -> loop n at_ s = Ok (s ++ flat_map g (seq 0 n)).
Proof.
  intros H. destruct (loop_inv (fun k s' => s' = s ++ flat_map g (seq 0 k)) n at_ s) as (s' & E & Q).
  - cbn. rewrite app_nil_r. reflexivity.
  - intros i s' Hi ->. eexists. split; [apply H; exact Hi|]. rewrite seq_S, flat_map_app. cbn. rewrite app_nil_r, app_assoc. reflexivity.
  - rewrite E, Q. reflexivity.
Qed.
Lemma flat_map_single {A B} (g : A -> B) l : flat_map (fun i => [g i]) l = map g l.
Proof. induction l as [|a l IH]; [reflexivity|]. cbn. rewrite IH. reflexivity. Qed.

Section Put.
  Variables (A : Type) (d : A) (V : nat -> A).
  Definition puts (S : nat -> Prop) (l l' : list A) : Prop :=
    length l' = length l /\ forall i, i < length l -> (S i /\ nth i l' d = V i) \/ (~ S i /\ nth i l' d = nth i l d).
  Lemma puts_ext (S S' : nat -> Prop) l l' : (forall i, S i <-> S' i) -> puts S l l' -> puts S' l l'.
  Proof. intros H (E & P). split; [exact E|]. intros i Hi. destruct (P i Hi) as [(B & C)|(B & C)]; [left|right]; (split; [|exact C]); rewrite <- H; exact B. Qed.
  Lemma puts_trans (S S' : nat -> Prop) l l1 l2 : puts S l l1 -> puts S' l1 l2 -> puts (fun i => S i \/ S' i) l l2.
  Proof.
    intros (E & P) (E' & P'). split; [congruence|]. intros i Hi. destruct (P' i ltac:(lia)) as [(B & C)|(B & C)].
    - left. auto.
    - destruct (P i Hi) as [(D & F)|(D & F)]; [left|right]; (split; [tauto|congruence]).
  Qed.
  Lemma puts_set l i a : i < length l -> a = V i -> exists l', set l i a = Ok l' /\ puts (fun j => j = i) l l'.
  Proof.
    intros Hi ->. exists (upd l i (V i)). split; [apply set_ok; exact Hi|]. split; [apply upd_length|]. intros j Hj. rewrite nth_upd by exact Hi.
    destruct (Nat.eqb_spec j i) as [->|Ne]; [left|right]; auto.
  Qed.
  Lemma puts_loop n (S : nat -> nat -> Prop) (body : nat -> list A -> res (list A)) l :
    (forall i l', i < n -> length l' = length l -> exists l'', body i l' = Ok l'' /\ puts (S i) l' l'') ->
    exists l', loop n body l = Ok l' /\ puts (fun j => exists i, i < n /\ S i j) l l'.
  Proof.
    intros H. apply (loop_inv (fun m l' => puts (fun j => exists i, i < m /\ S i j) l l')).
    - split; [reflexivity|]. intros i Hi. right. split; [intros (x & Hx & _); lia|reflexivity].
    - intros i l' Hi P. destruct (H i l' Hi (proj1 P)) as (l'' & E & P'). exists l''. split; [exact E|].
      apply (puts_ext (fun j => (exists x, x < i /\ S x j) \/ S i j)); [|exact (puts_trans _ _ _ _ _ P P')].
      intros j. split.
      + intros [(x & Hx & Q)|Q]; [exists x|exists i]; split; auto; lia.
      + intros (x & Hx & Q). destruct (Nat.eq_dec x i) as [->|]; [right; exact Q|left; exists x; split; [lia|exact Q]].
  Qed.
End Put.

Lemma val_get (l : list R) i : i < length l -> get l i = Ok (val l i).
Proof. intros H. unfold val. apply get_ok. exact H. Qed.

Lemma digits c e y u a b q ns : c = ns * ns * ns * e + y -> y = ns * u + a -> u = ns * q + b -> c = a + b * ns + q * ns * ns + ns * ns * ns * e.
Proof. intros -> -> ->. ring. Qed.

Section Dump.
  Variables (fmt : R -> R) (sv : solver) (N : nat -> nat -> nat) (X : nat -> nat -> R) (mat : list R).
  Let m := sv_mesh sv.
  Let nn := cm_nodes m.
  Let nc := cm_cells m.
  Let ns := sv_ns sv.
  Let K := ns * ns * ns.
  Hypotheses (HM : cdescribes m N X) (Lm : length mat = nc) (HE : sv_elems sv * K = nc).

  Lemma dump_coords_ok : dump_coords fmt m = Ok (by_component nn (fun n d => fmt (X n d))).
  Proof.
    unfold dump_coords. rewrite (collect_loop 3 _ (fun d => map (fun n => fmt (X n d)) (seq 0 nn))); [reflexivity|]. intros d s Hd.
    rewrite (collect_loop nn _ (fun n => [fmt (X n d)])); [rewrite flat_map_single; reflexivity|]. intros n s' Hn. rewrite (proj2 HM n d Hn Hd). reflexivity.
  Qed.
  Lemma dump_cells_ok : dump_cells m = Ok (cell_rows nc (mirrored N)).
  Proof.
    unfold dump_cells. rewrite (collect_loop nc _ (fun c => map (fun v => mirrored N c v + 1) (seq 0 8))); [reflexivity|]. intros c s Hc.
    rewrite (collect_loop 8 _ (fun v => [mirrored N c v + 1])); [rewrite flat_map_single; reflexivity|]. intros v s' Hv.
    assert (Q : exists l, get ijk_to_ensight v = Ok l /\ l < 8 /\ mirrored N c v = N c l).
    { do 8 (destruct v as [|v]; [eexists; split; [reflexivity|split; [lia|reflexivity]]|]). lia. }
    destruct Q as (l & -> & Hl & ->). cbn [bind]. rewrite (proj1 (proj1 HM c l Hc Hl)). reflexivity.
  Qed.

  Definition var_at (q : nat) : option R :=
    Some (match q mod 4 with 0 => val mat (q / 4) | 1 => (-1) ^ (q / 4 / K) | 2 => INR (q / 4 / K) | _ => val mat (q / 4) end)%R.
  Lemma var_at_eq c v : v < 4 -> var_at (c * 4 + v) = Some (match v with 0 => val mat c | 1 => (-1) ^ (c / K) | 2 => INR (c / K) | _ => val mat c end)%R.
  Proof.
    intros Hv. unfold var_at. replace ((c * 4 + v) / 4) with c by (apply Nat.div_unique with v; lia). replace ((c * 4 + v) mod 4) with v by (apply Nat.mod_unique with c; lia). reflexivity.
  Qed.
  Lemma cell_no e i j k : e < sv_elems sv -> i < ns -> j < ns -> k < ns ->
    let c := i + j * ns + k * ns * ns + ns * ns * ns * e in c < nc /\ c / K = e.
  Proof.
    intros He Hi Hj Hk c. assert (i + j * ns + k * ns * ns < K) by (unfold K; nia). split; [unfold c; rewrite <- HE; unfold K in *; nia|]. unfold c. symmetry. apply Nat.div_unique with (i + j * ns + k * ns * ns); [exact H|]. unfold K. lia.
  Qed.
  (** one sweep over the cells of an element *)
  Lemma sweep e v a l : e < sv_elems sv -> v < 4 -> length l = nc * 4 -> (forall c, c < nc -> c / K = e -> Some a = var_at (c * 4 + v)) ->
    exists l', loop ns (fun k f => loop ns (fun j f => loop ns (fun i f => set f ((i + j * ns + k * ns * ns + ns * ns * ns * e) * 4 + v) (Some a)) f) f) l = Ok l' /\
      puts (option R) None var_at (fun q => exists k, k < ns /\ exists j, j < ns /\ exists i, i < ns /\ q = (i + j * ns + k * ns * ns + ns * ns * ns * e) * 4 + v) l l'.
  Proof.
    intros He Hv Hl Ha. apply puts_loop. intros k l1 Hk L1. apply puts_loop. intros j l2 Hj L2. apply puts_loop. intros i l3 Hi L3.
    destruct (cell_no e i j k He Hi Hj Hk) as (B1 & B2). cbv zeta in B1, B2. apply puts_set; [lia|]. apply Ha; assumption.
  Qed.
  Lemma cell_fields_ok : exists f, cell_fields sv mat = Ok f /\ forall c v, c < nc -> v < 4 -> getu f (c * 4 + v) = Ok (match v with 0 => val mat c | 1 => (-1) ^ (c / K) | 2 => INR (c / K) | _ => val mat c end)%R.
  Proof.
    unfold cell_fields. cbv zeta. fold m ns. fold nc.
    destruct (puts_loop _ None var_at nc (fun c q => q = c * 4 + 0) (fun c f => do x <- get mat c; set f (c * 4 + 0) (Some x)) (repeat None (nc * 4))) as (f1 & E1 & P1).
    { intros c l Hc Hl. rewrite repeat_length in Hl. rewrite val_get by lia. cbn [bind]. apply puts_set; [lia|]. rewrite var_at_eq by lia. reflexivity. }
    rewrite E1. cbn [bind].
    set (S2 := fun e v q => exists k, k < ns /\ exists j, j < ns /\ exists i, i < ns /\ q = (i + j * ns + k * ns * ns + ns * ns * ns * e) * 4 + v).
    edestruct (loop_inv (fun e (st : list (option R) * R) => snd st = ((-1) ^ e)%R /\ puts (option R) None var_at (fun q => exists e', e' < e /\ S2 e' 1 q) f1 (fst st)) (sv_elems sv)) as ([f2 v2] & E2 & _ & P2).
    3:{ unfold ns. rewrite E2. cbn [bind]. cbn [fst] in P2.
      destruct (puts_loop _ None var_at (sv_elems sv) (fun e => S2 e 2) (fun e f => loop ns (fun k f => loop ns (fun j f => loop ns (fun i f => set f ((i + j * ns + k * ns * ns + ns * ns * ns * e) * 4 + 2) (Some (INR e))) f) f) f) f2) as (f3 & E3 & P3).
      { intros e l He Hl. apply sweep; [exact He|lia|rewrite Hl, (proj1 P2), (proj1 P1), repeat_length; reflexivity|]. intros c Hc Ec. rewrite var_at_eq, Ec by lia. reflexivity. }
      fold ns. rewrite E3. cbn [bind].
      destruct (puts_loop _ None var_at nc (fun c q => q = c * 4 + 3) (fun c f => do x <- get mat c; set f (c * 4 + 3) (Some x)) f3) as (f4 & E4 & P4).
      { intros c l Hc Hl. assert (length l = nc * 4) by (rewrite Hl, (proj1 P3), (proj1 P2), (proj1 P1), repeat_length; reflexivity). rewrite val_get by lia. cbn [bind]. apply puts_set; [lia|]. rewrite var_at_eq by lia. reflexivity. }
      rewrite E4. exists f4. split; [reflexivity|]. assert (P := puts_trans _ _ _ _ _ _ _ _ (puts_trans _ _ _ _ _ _ _ _ (puts_trans _ _ _ _ _ _ _ _ P1 P2) P3) P4). destruct P as (Lf & P). rewrite repeat_length in Lf, P.
      intros c v Hc Hv. assert (B : c * 4 + v < nc * 4) by lia. assert (In_ : nth (c * 4 + v) f4 None = var_at (c * 4 + v)).
      { destruct (P _ B) as [(_ & Q)|(Q & _)]; [exact Q|]. exfalso. apply Q.
        assert (Cx : c < sv_elems sv * K) by (rewrite HE; exact Hc). assert (K0 : K <> 0) by (intros Z; rewrite Z in Cx; lia).
        assert (Sx : forall w, S2 (c / K) w (c * 4 + w)).
        { intros w. assert (ns <> 0) by (unfold K in K0; nia). assert (Dm := Nat.div_mod c K K0). assert (Ml := Nat.mod_upper_bound c K K0). set (y := c mod K) in *.
          assert (D1 := Nat.div_mod y ns ltac:(assumption)). assert (D2 := Nat.div_mod (y / ns) ns ltac:(assumption)).
          exists (y / ns / ns). split; [apply Nat.div_lt_upper_bound; [assumption|]; apply Nat.div_lt_upper_bound; [assumption|]; unfold K in Ml; nia|]. exists (y / ns mod ns). split; [apply Nat.mod_upper_bound; assumption|].
          exists (y mod ns). split; [apply Nat.mod_upper_bound; assumption|]. f_equal. f_equal. exact (digits _ _ _ _ _ _ _ _ Dm D1 D2). }
        assert (Ce : c / K < sv_elems sv) by (apply Nat.div_lt_upper_bound; [exact K0|rewrite Nat.mul_comm; exact Cx]).
        destruct v as [|[|[|[|v]]]]; [do 3 left; exists c; auto|left; left; right; exists (c / K); auto|left; right; exists (c / K); auto|right; exists c; auto|lia]. }
      unfold getu. rewrite (nth_error_nth' f4 None) by lia. rewrite In_, var_at_eq by exact Hv. reflexivity. }
    - cbn [fst snd pow]. split; [reflexivity|]. split; [reflexivity|]. intros q Hq. right. split; [intros (x & Hx & _); lia|reflexivity].
    - intros e [f v] He (Ev & P). cbn [fst snd] in Ev, P.
      destruct (sweep e 1 v f He ltac:(lia)) as (f' & Es & Ps).
      + rewrite (proj1 P), (proj1 P1), repeat_length. reflexivity.
      + intros c Hc Ec. rewrite var_at_eq, Ec by lia. congruence.
      + fold ns. rewrite Es. cbn [bind]. eexists. split; [reflexivity|]. cbn [fst snd]. split; [rewrite Ev; cbn [pow]; ring|].
        apply (puts_ext _ _ _ (fun q => (exists e', e' < e /\ S2 e' 1 q) \/ S2 e 1 q)); [|exact (puts_trans _ _ _ _ _ _ _ _ P Ps)].
        intros q. split.
        * intros [(x & Hx & Z)|Z]; [exists x|exists e]; split; auto; lia.
        * intros (x & Hx & Z). destruct (Nat.eq_dec x e) as [->|]; [right; exact Z|left; exists x; split; [lia|exact Z]].
  Qed.

  Lemma ensight_pre now id times : ensight fmt sv mat now id times =
    do times <- set times id now; do ts <- loop (id + 1) (fun i s => do t <- get times i; Ok (s ++ [fmt t])) [];
    Ok (Dump id (by_component nn (fun n d => fmt (X n d))) (cell_rows nc (mirrored N))
      [per_cell nc (fun c => fmt (val mat c)); per_cell nc (fun c => fmt ((-1) ^ (c / K))%R); per_cell nc (fun c => fmt (INR (c / K))); per_cell nc (fun c => fmt (val mat c))]
      (by_component nn (fun n d => fmt (X n d))) ts, id + 1, times).
  Proof.
    unfold ensight. destruct cell_fields_ok as (f & -> & Hf). cbn [bind]. fold m. rewrite dump_coords_ok. cbn [bind]. rewrite dump_cells_ok. cbn [bind].
    rewrite (collect_loop 4 _ (fun v => [per_cell nc (fun c => fmt (match v with 0 => val mat c | 1 => (-1) ^ (c / K) | 2 => INR (c / K) | _ => val mat c end)%R)])); [reflexivity|].
    intros v s Hv. fold nc. rewrite (collect_loop nc _ (fun c => [fmt (match v with 0 => val mat c | 1 => (-1) ^ (c / K) | 2 => INR (c / K) | _ => val mat c end)%R])).
    - cbn [bind app]. rewrite flat_map_single. reflexivity.
    - intros c s' Hc. rewrite Hf by assumption. reflexivity.
  Qed.
  Lemma ensight_ok now id times : id < length times ->
    ensight fmt sv mat now id times = Ok (dumps fmt nn nc K N X (val mat) id (firstn id times ++ [now]), id + 1, firstn id times ++ now :: skipn (S id) times).
  Proof.
    intros Hid. rewrite ensight_pre. rewrite set_ok by exact Hid. cbn [bind].
    assert (U : upd times id now = firstn id times ++ now :: skipn (S id) times).
    { clear -Hid. revert id Hid. induction times as [|t times IH]; intros [|id] Hid; try (cbn in Hid; lia); [reflexivity|]. cbn. f_equal. apply IH. cbn in Hid. lia. }
    rewrite U. set (T := firstn id times ++ now :: skipn (S id) times).
    assert (LT : length T = length times) by (unfold T; rewrite <- U; apply upd_length).
    rewrite (collect_loop (id + 1) _ (fun i => [fmt (val T i)])).
    2:{ intros i s Hi. rewrite val_get by lia. reflexivity. }
    cbn [bind app]. rewrite flat_map_single. unfold dumps. do 4 f_equal.
    apply nth_ext with (d := fmt 0%R) (d' := fmt 0%R); [rewrite !map_length, seq_length, app_length, firstn_length; cbn; lia|]. intros i Hi. rewrite map_length, seq_length in Hi.
    rewrite map_nth. rewrite (nth_indep _ _ (fmt (val T 0))) by (rewrite map_length, seq_length; exact Hi). rewrite (map_nth (fun i => fmt (val T i)) (seq 0 (id + 1)) 0 i), seq_nth by exact Hi. cbn [Nat.add].
    f_equal. unfold val, T. assert (Lf : length (firstn id times) = id) by (rewrite firstn_length; lia). destruct (Nat.eq_dec i id) as [->|Ne].
    - rewrite !app_nth2 by lia. rewrite Lf, Nat.sub_diag. reflexivity.
    - rewrite !app_nth1 by lia. reflexivity.
  Qed.
  Lemma ensight_full now id times : length times <= id -> ensight fmt sv mat now id times = Err OOB.
  Proof. intros H. rewrite ensight_pre. rewrite set_oob by exact H. reflexivity. Qed.
End Dump.
