(** Lemmas about the quasistatic model: evaluation, tangent, one Newton step. *)
From Coq Require Import Reals Lra.
From Verif Require Import Base ListLemmas Loops LinModel LinSpec CrsProofs CgProofs CgSpd PatternProofs BcModel BcSpec BcProofs IntegratorModel IntegratorSpec QuasiModel QuasiSpec QuasiProofs.
Local Open Scope nat_scope.
Set Implicit Arguments.

Lemma largest_linf n v : linf n v = largest n (fun i => Rabs (v i)).
Proof.
  unfold linf. apply (@floop_ind _ (fun k m => m = largest k (fun i => Rabs (v i)))); [lia|reflexivity|].
  intros k m Hk ->. reflexivity.
Qed.
Lemma measure_measured n r : residual_measure n r = measured n r.
Proof. unfold residual_measure, measured. now rewrite largest_linf, inner_dot. Qed.

Section Env.
  Context {S : Type} (ph : qphysics S) (cfg : qconfig) (N : nat) (mg0 : manager) (ref : view) (pat : list (nat * nat)).
  Let dim := mg_dim mg0.
  Let gids := qc_gids cfg.

  Record env : Prop := {
    e_bc : bc_input_ok mg0 N;
    e_pos : 0 < N;
    e_len : length gids = N;
    e_nodup : NoDup gids;
    e_range : Forall (fun g => g < N) gids;
    e_pat : good_pattern pat;
    e_in : forall r c, In (r, c) pat <-> coupled dim gids (qc_elems cfg) r c;
    e_rows : forall i, i < N * dim <-> is_row pat i;
    e_diag : forall r, is_row pat r -> In (r, r) pat;
    e_cols : forall i j, In (i, j) pat -> j < N * dim;
    e_ref : shaped N dim ref;
    e_ph : physics_ok N dim cfg ph }.
  Hypothesis E : env.

  Record q_inv0 (st : qstate S) : Prop := {
    qi_same : same_mgr mg0 (q_mgr st);
    qi_ref : q_ref st = ref;
    qi_disp : shaped N dim (k_disp (q_kin st));
    qi_vel : shaped N dim (k_vel (q_kin st));
    qi_off : Forall (shaped N dim) (k_off (q_kin st));
    qi_int : shaped N dim (q_int st);
    qi_trial : shaped N dim (q_trial st);
    qi_trial_int : shaped N dim (q_trial_int st);
    qi_res : length (q_residual st) = N * dim;
    qi_tres : length (q_trial_residual st) = N * dim;
    qi_mat : exists D, represents pat (q_matrix st) D }.
  Record q_inv (st : qstate S) : Prop := {
    qi_inv0 : q_inv0 st;
    qi_sets : forall b, In b (mg_bcs mg0) -> assoc Z.eqb (bc_node_set b) (mg_node_sets (q_mgr st)) <> None }.

  Lemma e_dim : 0 < dim.
  Proof. destruct (bi_dim (e_bc E)) as [H|H]; unfold dim; rewrite H; lia. Qed.

  Lemma gid_lt n g : nth_error gids n = Some g -> n < N /\ g < N.
  Proof.
    intros H. split.
    - rewrite <- (e_len E). eapply nth_error_Some_lt; eauto.
    - pose proof (e_range E) as Hr. rewrite Forall_forall in Hr. apply Hr. eapply nth_error_In; eauto.
  Qed.
  Lemma gid_row n g c : nth_error gids n = Some g -> c < dim -> g * dim + c < N * dim.
  Proof. intros H Hc. apply gid_lt in H. nia. Qed.
  Lemma row_gid k : k < N * dim -> exists n g c, nth_error gids n = Some g /\ c < dim /\ k = g * dim + c.
  Proof.
    intros Hk. pose proof e_dim as Hd. destruct (@pigeon gids N (e_len E) (e_nodup E) (e_range E) (k / dim)) as [n Hn].
    { apply Nat.div_lt_upper_bound; lia. }
    exists n, (k / dim), (k mod dim). split; auto. split; [apply Nat.mod_upper_bound; lia|].
    rewrite Nat.mul_comm. apply Nat.div_mod. lia.
  Qed.
  Lemma gid_inj n g c n' g' c' : nth_error gids n = Some g -> nth_error gids n' = Some g' -> c < dim -> c' < dim ->
    g * dim + c = g' * dim + c' -> n = n' /\ g = g' /\ c = c'.
  Proof.
    intros H H' Hc Hc' Heq. assert (g = g') by nia. subst g'. split; [|split; auto; lia].
    pose proof (e_nodup E) as Hn. rewrite NoDup_nth_error in Hn. apply Hn; [|congruence].
    eapply nth_error_Some_lt; eauto.
  Qed.

  Lemma held_constrained n g c : nth_error gids n = Some g -> c < dim ->
    (constrained mg0 gids (g * dim + c) <-> held mg0 n c).
  Proof.
    intros Hn Hc. split.
    - intros (b & n' & g' & Hb & Hk & Hin & Hn' & Heq). exists b. split; auto. split; auto.
      destruct (@gid_inj n g c n' g' (bc_coord b) Hn Hn' Hc) as (-> & _ & ->); auto.
      { apply (bi_coord (e_bc E) b Hb). }
      unfold covers. rewrite Nat.eqb_refl. now apply existsb_eqb_In.
    - intros (b & Hb & Hk & Hc'). unfold covers in Hc'. apply andb_prop in Hc' as [H1 H2].
      apply Nat.eqb_eq in H1. apply existsb_eqb_In in H2. exists b, n, g. subst c. auto.
  Qed.
  Lemma constrained_same mg k : same_mgr mg0 mg -> constrained mg gids k <-> constrained mg0 gids k.
  Proof.
    intros (H1 & H2 & _ & H4 & _). unfold constrained. rewrite H1, H2.
    split; intros (b & n & g & A & B & C & F & G); exists b, n, g; rewrite H4 in *; auto.
  Qed.
  Lemma node_sets_lt mg id n : same_mgr mg0 mg -> In n (node_set mg id) -> n < length gids.
  Proof. intros (_ & _ & _ & H4 & _) H. rewrite H4 in H. rewrite (e_len E). now apply (bi_nodes (e_bc E) id). Qed.
  Lemma constrained_lt k : constrained mg0 gids k -> k < N * dim.
  Proof.
    intros (b & n & g & Hb & _ & _ & Hn & ->). apply gid_row with (n := n); auto. apply (bi_coord (e_bc E) b Hb).
  Qed.
  Lemma constrained_dec k : constrained mg0 gids k \/ ~ constrained mg0 gids k.
  Proof.
    pose proof (@all_dofs_constrained mg0 gids k) as H.
    assert (Hg : forall id n, In n (node_set mg0 id) -> n < length gids) by (intros id n; apply node_sets_lt; apply same_refl).
    specialize (H Hg). destruct (in_dec Nat.eq_dec k (all_dofs mg0 gids)); tauto.
  Qed.
  Lemma held_dec n c : n < N -> c < dim -> held mg0 n c \/ ~ held mg0 n c.
  Proof.
    intros Hn Hc. rewrite <- (e_len E) in Hn. destruct (nth_error gids n) as [g|] eqn:Eg.
    - rewrite <- (@held_constrained n g c Eg Hc). apply constrained_dec.
    - apply nth_error_None in Eg. lia.
  Qed.

  (** ** evaluation *)
  Lemma evaluate_ok st tprev t disp force vector : q_inv st -> shaped N dim disp -> shaped N dim force ->
    length vector = N * dim ->
    exists e, evaluate ph cfg st tprev t disp force vector = Ok e /\
      qp_internal ph (q_old st) (q_new st) tprev t disp = Ok (ev_elem e, v_at (ev_force e)) /\
      shaped N dim (ev_force e) /\ out_of_balance mg0 gids N (v_at (ev_force e)) (ev_vector e) /\
      ev_measure e = measured N (ev_vector e).
  Proof.
    intros Hi Hd Hf Hv. unfold evaluate. destruct (po_internal (e_ph E) (q_old st) (q_new st) tprev t Hd) as [[e f] Er].
    rewrite Er. cbn [obind fst snd]. destruct Hf as [Hf1 Hf2].
    assert (HF : shaped N dim (View (v_nodes force) (v_cols force) f)) by (split; auto).
    set (F := View (v_nodes force) (v_cols force) f) in *. unfold quasistatic_residual.
    pose proof (qi_same (qi_inv0 Hi)) as Hs. assert (Ed : mg_dim (q_mgr st) = dim) by apply Hs. rewrite Ed.
    fold gids.
    destruct (@assemble_ok dim gids F vector) as (r & Ea & Hl & Hr).
    { apply HF. } { rewrite (e_len E). symmetry. apply HF. }
    { intros l Hl. rewrite Hv. pose proof (e_range E) as Hr. rewrite Forall_forall in Hr. specialize (Hr l Hl). nia. }
    rewrite Ea. cbn [obind].
    destruct (@modify_rhs_ok (q_mgr st) gids r) as (r' & E' & Hl' & H1 & H2).
    { intros b Hb. apply (qi_sets Hi). destruct Hs as (<- & _). exact Hb. }
    { intros id n. now apply node_sets_lt. }
    { intros k Hk. rewrite Hl, Hv. apply constrained_lt. now apply (@constrained_same (q_mgr st) k Hs). }
    rewrite E'. cbn [obind fst snd]. eexists. split; [reflexivity|]. cbn [ev_elem ev_force ev_vector ev_measure].
    split; [reflexivity|]. split; auto. split; [|rewrite measure_measured; f_equal; apply HF].
    split; [fold dim; lia|]. intros n c g Hn Hc. fold dim in Hc |- *. pose proof (@held_constrained n g c Hn Hc) as Hh.
    rewrite <- (@constrained_same (q_mgr st) (g * dim + c) Hs) in Hh. split.
    - intros Hx. apply nth_error_nth_eq. apply H1. tauto.
    - intros Hx. assert (Hlt : g * dim + c < length r) by (rewrite Hl, Hv; eapply gid_row; eauto).
      rewrite (@nth_error_nth_eq _ r' (g * dim + c) 0%R (nth (g * dim + c) r 0%R)).
      2:{ rewrite H2 by tauto. apply nth_error_nth'. lia. }
      rewrite Hr by lia. f_equal. unfold gathered. destruct (@gid_lt n g Hn) as [Hn' _].
      replace (v_nodes F) with N by (symmetry; apply HF).
      rewrite (@Rsum_single N _ n Hn').
      + rewrite (@Rsum_single dim _ c Hc).
        * rewrite (@nth_error_nth_eq _ gids n 0 g Hn). now rewrite Nat.eqb_refl.
        * intros k Hk Hne. rewrite (@nth_error_nth_eq _ gids n 0 g Hn).
          destruct (Nat.eqb_spec (g * dim + k) (g * dim + c)); auto. lia.
      + intros n' Hn2 Hne. apply Rsum_zero. intros d Hd'.
        assert (Hx' : exists g', nth_error gids n' = Some g').
        { destruct (nth_error gids n') eqn:Eg; eauto. apply nth_error_None in Eg. rewrite (e_len E) in Eg. lia. }
        destruct Hx' as [g' Hg']. rewrite (@nth_error_nth_eq _ gids n' 0 g' Hg').
        destruct (Nat.eqb_spec (g' * dim + d) (g * dim + c)) as [Heq|]; auto.
        exfalso. apply Hne. apply (@gid_inj n' g' d n g c Hg' Hn Hd' Hc Heq).
  Qed.

  (** two out-of-balance vectors of the same force agree *)
  Lemma oob_unique f r r' : out_of_balance mg0 gids N f r -> out_of_balance mg0 gids N f r' -> r = r'.
  Proof.
    intros [Hl H] [Hl' H']. apply list_nth_ext; [congruence|]. intros k.
    destruct (Nat.lt_ge_cases k (N * dim)) as [Hk|Hk].
    - destruct (@row_gid k Hk) as (n & g & c & Hn & Hc & ->). destruct (H n c g Hn Hc) as [A B]. destruct (H' n c g Hn Hc) as [A' B'].
      destruct (@gid_lt n g Hn) as [Hn' _]. destruct (@held_dec n c Hn' Hc) as [Hh|Hh]; unfold dim.
      + now rewrite A, A'.
      + now rewrite B, B'.
    - change (mg_dim mg0) with dim in Hl, Hl'. rewrite !nth_overflow; auto; lia.
  Qed.

  (** ** the tangent *)
  Lemma rep_rows (a : rcrs) D : represents pat a D -> num_rows a = N * dim.
  Proof.
    intros H. pose proof (fun r => rows_n (e_pat E) H r) as Hr. pose proof (e_rows E) as He.
    destruct (Nat.lt_trichotomy (num_rows a) (N * dim)) as [Hlt|[|Hlt]]; auto; exfalso.
    - apply He, Hr in Hlt. lia.
    - apply Hr, He in Hlt. lia.
  Qed.

  Lemma sum_into_ok l : forall a D, represents pat a D -> Forall (fun rcv => In (fst rcv) pat) l ->
    exists a' D', ofold sum_into l a = Ok a' /\ represents pat a' D' /\
      forall i j, D' i j = (D i j + contributed l i j)%R.
  Proof.
    induction l as [|[[r c] v] l IH]; intros a D Ha Hl; simpl.
    - exists a, D. split; auto. split; auto. intros. ring.
    - pose proof (Forall_inv Hl) as Hin. simpl in Hin.
      destruct (get_represents (e_pat E) r c Ha) as [G _]. rewrite (G Hin). cbn [obind].
      destruct (@op_refines _ pat (e_pat E) a D (OWrite r c (D r c + v)%R) Ha Hin) as (a1 & E1 & H1).
      simpl op_call in E1. rewrite E1. cbn [obind].
      destruct (IH a1 _ H1 (Forall_inv_tail Hl)) as (a2 & D2 & E2 & H2 & H3).
      exists a2, D2. split; auto. split; auto. intros i j. rewrite H3. simpl op_meaning.
      rewrite (Nat.eqb_sym r i), (Nat.eqb_sym c j).
      destruct (Nat.eqb_spec i r) as [->|], (Nat.eqb_spec j c) as [->|]; simpl; ring.
  Qed.

  (** the matrix of the linear system: assembled contributions with the held rows and columns
      replaced *)
  Definition system_matrix (l : list (nat * nat * R)) (diag : R) (D : nat -> nat -> R) : Prop :=
    forall i j, i < N * dim -> j < N * dim ->
      (constrained mg0 gids i \/ constrained mg0 gids j -> D i j = if i =? j then diag else 0%R) /\
      (~ constrained mg0 gids i -> ~ constrained mg0 gids j -> D i j = contributed l i j).

  (** st' differs from st in matrix and vectors only *)
  Definition same_fields (st st' : qstate S) : Prop :=
    q_mgr st' = q_mgr st /\ q_kin st' = q_kin st /\ q_int st' = q_int st /\ q_old st' = q_old st /\ q_new st' = q_new st /\
    q_time st' = q_time st /\ q_out st' = q_out st.

  Lemma assemble_tangent_ok st f : q_inv st -> out_of_balance mg0 gids N f (q_residual st) ->
    exists s1 l diag D, assemble_tangent ph cfg st = Ok s1 /\ qp_tangent ph (k_disp (q_kin st)) = Ok l /\
      q_inv s1 /\ same_fields st s1 /\ q_residual s1 = q_residual st /\
      represents pat (q_matrix s1) D /\ system_matrix l diag D /\
      (diag * INR (N * dim) = Rsum (N * dim) (fun i => Rabs (contributed l i i)))%R.
  Proof.
    intros Hi Hf. unfold assemble_tangent. destruct (po_tangent (e_ph E) (qi_disp (qi_inv0 Hi))) as (l & El & Hl).
    rewrite El. cbn [obind]. destruct (qi_mat (qi_inv0 Hi)) as (D0 & H0).
    pose proof (qi_same (qi_inv0 Hi)) as Hs. assert (Ed : mg_dim (q_mgr st) = dim) by apply Hs.
    destruct (@op_refines _ pat (e_pat E) _ _ (OSetAll 0%R) H0 I) as (a0 & E0 & H1). simpl op_call in E0. injection E0 as <-.
    destruct (@sum_into_ok l _ _ H1) as (a1 & D1 & E1 & H2 & HD1).
    { rewrite Forall_forall in *. intros rcv Hin. specialize (Hl rcv Hin). destruct rcv as [[r c] v]. now apply (e_in E). }
    rewrite E1. cbn [obind].
    assert (Hls : ls_unknowns cfg st = N * dim).
    { unfold ls_unknowns, ls_nodes. fold gids. rewrite (proj1 (ls_map_ok (e_nodup E))), (e_len E), Ed. reflexivity. }
    rewrite Hls.
    assert (HD : forall i j, D1 i j = contributed l i j).
    { intros i j. rewrite HD1. simpl. ring. }
    destruct (@oloop_ind _ (fun k s => s = Rsum k (fun i => Rabs (contributed l i i))) 0 (N * dim)
      (fun i s => do x <- crs_get a1 i i; Ok (s + Rabs x)%R) 0%R) as (total & Et & Ht); [lia|reflexivity| |].
    { intros k s Hk ->. destruct (get_represents (e_pat E) k k H2) as [G _].
      rewrite G by (apply (e_diag E), (e_rows E); lia). cbn [obind]. rewrite HD. eexists. split; reflexivity. }
    rewrite Et. cbn [obind]. set (diag := (total / INR (N * dim))%R).
    assert (Hsets : forall b, In b (mg_bcs (q_mgr st)) -> assoc Z.eqb (bc_node_set b) (mg_node_sets (q_mgr st)) <> None).
    { intros b Hb. apply (qi_sets Hi). destruct Hs as (<- & _). exact Hb. }
    assert (Hg : forall id n, In n (node_set (q_mgr st) id) -> n < length gids) by (intros id n; now apply node_sets_lt).
    destruct (@modify_tangent_ok _ op_call (represents pat) (op_valid pat)
       (fun a D o Ha Hv => op_refines (e_pat E) o Ha Hv) (q_mgr st) gids diag a1 D1 H2 Hsets Hg) as (a2 & E2 & H3).
    { intros k v Hk. apply (@constrained_same (q_mgr st) k Hs) in Hk. apply constrained_lt in Hk. apply (e_rows E) in Hk.
      pose proof (e_diag E Hk). simpl. auto. }
    fold gids. rewrite E2. cbn [obind].
    destruct (@modify_rhs_ok (q_mgr st) gids (q_residual st) Hsets Hg) as (rhs & E3 & Hlr & R1 & R2).
    { intros k Hk. rewrite (qi_res (qi_inv0 Hi)). apply constrained_lt. now apply (@constrained_same (q_mgr st) k Hs). }
    rewrite E3. cbn [obind].
    assert (Hrhs : rhs = q_residual st).
    { apply (@oob_unique f); auto. destruct Hf as [Hfl Hf]. split; [rewrite Hlr; auto|]. intros n c g Hn Hc. fold dim in Hc.
      destruct (Hf n c g Hn Hc) as [A B]. fold dim in A, B |- *. pose proof (@held_constrained n g c Hn Hc) as Hh.
      rewrite <- (@constrained_same (q_mgr st) (g * dim + c) Hs) in Hh. split; intros Hx.
      - apply nth_error_nth_eq. apply R1. tauto.
      - rewrite <- B by auto. apply nth_error_nth_eq. rewrite R2 by tauto. apply nth_error_nth'.
        rewrite (qi_res (qi_inv0 Hi)). eapply gid_row; eauto. }
    subst rhs. eexists. exists l, diag. eexists. split; [reflexivity|]. split; [reflexivity|]. split.
    { destruct Hi as [Hi Hk]. destruct Hi. split; [|exact Hk]. constructor; cbn; auto. eexists. exact H3. }
    split; [repeat split|]. split; [reflexivity|]. split; [exact H3|]. split.
    - intros i j Hii Hjj. rewrite constrain_all. pose proof (@all_dofs_constrained (q_mgr st) gids i Hg) as Ai.
      pose proof (@all_dofs_constrained (q_mgr st) gids j Hg) as Aj. rewrite (@constrained_same (q_mgr st) i Hs) in Ai. rewrite (@constrained_same (q_mgr st) j Hs) in Aj. split.
      + intros Hc. assert (Hb : existsb (Nat.eqb i) (all_dofs (q_mgr st) gids) || existsb (Nat.eqb j) (all_dofs (q_mgr st) gids) = true).
        { apply orb_true_iff. rewrite !existsb_eqb_In. tauto. }
        now rewrite Hb.
      + intros Hci Hcj. replace (_ || _) with false; [apply HD|]. symmetry. apply orb_false_iff. split;
          match goal with |- ?x = false => destruct x eqn:Ex end; auto; apply existsb_eqb_In in Ex; tauto.
    - unfold diag. subst total. field. apply not_0_INR. pose proof e_dim. pose proof (e_pos E). nia.
  Qed.

  (** ** the linear solver *)
  Lemma linear_solve_ok s1 l diag D f : q_inv s1 -> represents pat (q_matrix s1) D -> system_matrix l diag D ->
    out_of_balance mg0 gids N f (q_residual s1) ->
    let A := dense_of pat D in let b := fun i => nth i (q_residual s1) 0%R in
    exists r, linear_solve cfg s1 = Ok r /\
      (forall s, r = Done s -> length s = N * dim /\ (forall k, constrained mg0 gids k -> nth k s 0%R = 0%R) /\
         (weighted_residual (N * dim) A b (fun i => nth i s 0%R) <= cg_default_tol * weighted_residual (N * dim) A b (fun _ => 0))%R) /\
      (symmetric (N * dim) A -> positive_definite (N * dim) A -> N * dim < cg_default_max -> exists s, r = Done s).
  Proof.
    intros Hi HD Hm Hf A b. unfold linear_solve. pose proof (rep_rows HD) as Hrows. rewrite Hrows.
    assert (Hcols : forall i j, In (i, j) pat -> j < num_rows (q_matrix s1)).
    { intros i j Hij. rewrite Hrows. apply (@e_cols E i j Hij). }
    assert (Hlen : length (repeat 0%R (N * dim)) = num_rows (q_matrix s1)) by now rewrite repeat_length.
    destruct (@cg_solve_ok pat (q_matrix s1) D (fun i => nth i (q_residual s1) 0%R) (repeat 0%R (N * dim)) (fun _ => 0%R)
      (fun _ => 0%R) cg_default_tol cg_default_max (e_pat E) HD Hcols (e_diag E) Hlen) as (ro & E1 & H1).
    rewrite E1. cbn [obind].
    assert (Hls : ls_unknowns cfg s1 = N * dim).
    { unfold ls_unknowns, ls_nodes. fold gids. rewrite (proj1 (ls_map_ok (e_nodup E))), (e_len E).
      destruct (qi_same (qi_inv0 Hi)) as (_ & -> & _). reflexivity. }
    rewrite Hls.
    assert (Hspd : symmetric (N * dim) A -> positive_definite (N * dim) A -> N * dim < cg_default_max ->
      exists res, ro = Some res /\ cg_success res = true).
    { intros Hs Hp Hn. rewrite <- Hrows in Hs, Hp.
      destruct (@cg_spd pat (q_matrix s1) D (fun i => nth i (q_residual s1) 0%R) (repeat 0%R (N * dim)) (fun _ => 0%R)
        (fun _ => 0%R) cg_default_tol cg_default_max (e_pat E) HD Hcols (e_diag E) Hlen Hs Hp) as (res & E2 & H2 & _).
      { unfold cg_default_tol. lra. }
      rewrite E1 in E2. injection E2 as ->. exists res. split; auto. apply (H1 res eq_refl). rewrite Hrows in H2. lia. }
    destruct ro as [res|].
    2:{ eexists. split; [reflexivity|]. split; [intros; discriminate|]. intros Hs Hp Hn.
        destruct (Hspd Hs Hp Hn) as (? & ? & _). discriminate. }
    destruct (H1 res eq_refl) as (_ & _ & _ & H4). eexists. split; [reflexivity|]. split.
    2:{ intros Hs Hp Hn. destruct (Hspd Hs Hp Hn) as (res' & Hres & Hok). injection Hres as <-. rewrite Hok. eauto. }
    destruct (cg_success res) eqn:Hok; [|intros; discriminate]. intros s Hs. injection Hs as <-.
    split; [now rewrite map_length, seq_length|].
    assert (Hnth : forall k, k < N * dim -> nth k (map (cg_solution res) (seq 0 (N * dim))) 0%R = cg_solution res k).
    { intros k Hk. apply nth_error_nth_eq. rewrite nth_error_map, nth_error_seq.
      now replace (k <? N * dim) with true by (symmetry; now apply Nat.ltb_lt). }
    split.
    - intros k Hk. pose proof (@constrained_lt k Hk) as Hlt. rewrite Hnth by auto.
      apply (@cg_zero pat (q_matrix s1) D (fun i => nth i (q_residual s1) 0%R) (repeat 0%R (N * dim)) (fun _ => 0%R)
        (fun _ => 0%R) cg_default_tol cg_default_max res k (e_pat E) HD); auto.
      + now rewrite Hrows.
      + intros j Hj Hne. destruct (Hm k j Hlt (e_cols E _ _ Hj)) as [Hx _]. rewrite Hx by tauto.
        apply not_eq_sym, Nat.eqb_neq in Hne. now rewrite Hne.
      + destruct (@row_gid k Hlt) as (n & g & c & Hn & Hc & ->). destruct Hf as [_ Hf].
        destruct (Hf n c g Hn Hc) as [Hx _]. apply Hx. now apply (@held_constrained n g c Hn Hc).
    - specialize (H4 eq_refl). rewrite Hrows in H4. fold A b in H4.
      replace (weighted_residual (N * dim) A b (fun i => nth i (map (cg_solution res) (seq 0 (N * dim))) 0%R))
        with (weighted_residual (N * dim) A b (cg_solution res)); auto.
      unfold weighted_residual. apply Rsum_ext. intros k Hk.
      now rewrite (@mv_ext (N * dim) A (fun i => nth i (map (cg_solution res) (seq 0 (N * dim))) 0%R) (cg_solution res) k Hnth).
  Qed.
End Env.
