(** Expression language: the parser gives every written form its usual meaning. *)
From Verif Require Import Base ListLemmas Strings ExprModel ExprSpec ExprProofs ExprProofs2 ExprProofs3 ExprProofs4.
Set Implicit Arguments.
Local Open Scope list_scope.
Local Open Scope nat_scope.
Notation length := List.length.
Notation pbal := (bal ch_open ch_close).
Notation qbal := (bal ch_q ch_col).

Arguments facts_not_in [l s k x] _ _ _.

Ltac asq := repeat (progress (rewrite <- ?app_assoc; cbn [app])); reflexivity.

Section AvalEqs.
Context {T : Type} (A : arith T) (numval : chars -> T) (x y z t : T).
Notation av := (aval A numval x y z t).
Notation bv := (bval A numval x y z t).
Lemma av_num s : av (Num s) = numval s. Proof. reflexivity. Qed.
Lemma av_neg a : av (Neg a) = a_neg A (av a). Proof. reflexivity. Qed.
Lemma av_add a b : av (Add a b) = a_add A (av a) (av b). Proof. reflexivity. Qed.
Lemma av_sub a b : av (Sub a b) = a_sub A (av a) (av b). Proof. reflexivity. Qed.
Lemma av_mul a b : av (Mul a b) = a_mul A (av a) (av b). Proof. reflexivity. Qed.
Lemma av_div a b : av (Div a b) = a_div A (av a) (av b). Proof. reflexivity. Qed.
Lemma av_mod a b : av (Mod a b) = a_mod A (av a) (av b). Proof. reflexivity. Qed.
Lemma av_pow a b : av (Power a b) = a_pow A (av a) (av b). Proof. reflexivity. Qed.
Lemma av_call f a : av (Call f a) = a_fun A f (av a). Proof. reflexivity. Qed.
Lemma av_if c a b : av (If c a b) = if bv c then av a else av b. Proof. reflexivity. Qed.
Lemma bv_or p q : bv (Or p q) = orb (bv p) (bv q). Proof. reflexivity. Qed.
Lemma bv_xor p q : bv (Xor p q) = xorb (bv p) (bv q). Proof. reflexivity. Qed.
Lemma bv_and p q : bv (And p q) = andb (bv p) (bv q). Proof. reflexivity. Qed.
Variable env : var -> T.
Notation dv := (deval A env).
Notation bev := (beval A env).
Lemma dv_un u e : dv (DUn u e) = uop A u (dv e). Proof. reflexivity. Qed.
Lemma dv_bin o e1 e2 : dv (DBin o e1 e2) = bop A o (dv e1) (dv e2). Proof. reflexivity. Qed.
Lemma dv_powi e n : dv (DPowI e n) = a_powi A (dv e) n. Proof. reflexivity. Qed.
Lemma dv_cond b e1 e2 : dv (DCond b e1 e2) = if bev b then dv e1 else dv e2. Proof. reflexivity. Qed.
Lemma bv_cmp o e1 e2 : bev (BCmp o e1 e2) = cop A o (dv e1) (dv e2). Proof. reflexivity. Qed.
Lemma bv_log o b1 b2 : bev (BLog o b1 b2) = lop o (bev b1) (bev b2). Proof. reflexivity. Qed.
End AvalEqs.
Ltac ev := rewrite ?av_num, ?av_neg, ?av_add, ?av_sub, ?av_mul, ?av_div, ?av_mod, ?av_pow, ?av_call, ?av_if, ?bv_or, ?bv_xor,
  ?bv_and, ?dv_un, ?dv_bin, ?dv_powi, ?dv_cond, ?bv_cmp, ?bv_log; cbn [uop bop cop lop].

Section Main.
Context {T : Type} (A : arith T) (numval : chars -> T).
Hypothesis laws : arith_laws A numval.

Definition denotes (e : dnode T) (a : aexp) : Prop :=
  forall x y z t, deval A (functor_env x y z t) e = aval A numval x y z t a.
Definition bdenotes (e : bnode T) (b : bexp) : Prop :=
  forall x y z t, beval A (functor_env x y z t) e = bval A numval x y z t b.

(** [p] reads s (with spaces around it, followed by a non-digit) as a *)
Definition pok (p : reader -> outcome (dnode T)) (s : chars) (a : aexp) : Prop :=
  forall l r af, spaces l -> spaces r -> nd af -> exists e, p (Reader (l ++ s ++ r) af) = Ok e /\ denotes e a.
Definition bok (p : reader -> outcome (bnode T)) (s : chars) (b : bexp) : Prop :=
  forall l r af, spaces l -> spaces r -> nd af -> exists e, p (Reader (l ++ s ++ r) af) = Ok e /\ bdenotes e b.

Definition gives (o : outcome (option (dnode T))) (a : aexp) : Prop := exists e, o = Ok (Some e) /\ denotes e a.

Variables (pe : reader -> outcome (dnode T)) (pb : reader -> outcome (bnode T)) (N : nat).
Hypothesis Hpe : forall s a, length s < N -> wr s a -> pok pe s a.
Hypothesis Hpb : forall s b, length s < N -> bwritten LDisj s b -> bok pb s b.

Lemma pok0 s a l af : pok pe s a -> spaces l -> nd af -> exists e, pe (Reader (l ++ s) af) = Ok e /\ denotes e a.
Proof. clear Hpe Hpb.
  intros H Hl Haf. destruct (H l [] af Hl ltac:(constructor) Haf) as (e & E & D). rewrite app_nil_r in E. eauto.
Qed.

Lemma sub_prefix_at w u af : sub_prefix (Reader (u ++ w) af) (length u) = Reader u (w ++ af).
Proof. clear Hpe Hpb. unfold sub_prefix. simpl. now rewrite firstn_len, skipn_len. Qed.
Lemma sub_from_at w u af : sub_from (Reader (u ++ w) af) (length u) = Ok (Reader w af).
Proof. clear Hpe Hpb.
  unfold sub_from, rlen. simpl. rewrite app_length. replace (_ <=? _) with true by (symmetry; apply Nat.leb_le; lia).
  now rewrite skipn_len.
Qed.

(** splitting a window at a binary operator *)
Lemma split_ok o s a l x r t b af p : pok pe s a -> pok pe t b -> spaces l -> spaces r -> is_digit x = false -> nd af ->
  p = length (s ++ l) ->
  exists e1 e2, parse_split pe o (Reader (s ++ (l ++ [x] ++ r) ++ t) af) p 1 = Ok (Some (DBin o e1 e2)) /\
    denotes e1 a /\ denotes e2 b.
Proof. clear Hpe Hpb.
  intros Hs Ht Hl Hr Hx Haf ->. unfold parse_split.
  replace (s ++ (l ++ [x] ++ r) ++ t) with ((s ++ l) ++ [x] ++ r ++ t) by asq.
  rewrite sub_prefix_at.
  destruct (Hs [] l (([x] ++ r ++ t) ++ af)) as (e1 & E1 & D1); [constructor|auto|exact Hx|].
  simpl app at 1 in E1. simpl app in E1. simpl app. rewrite E1. cbn [obind].
  replace (length (s ++ l) + 1) with (length ((s ++ l) ++ [x])) by (rewrite (app_length _ [x]); reflexivity).
  replace ((s ++ l) ++ x :: r ++ t) with (((s ++ l) ++ [x]) ++ r ++ t) by asq.
  rewrite sub_from_at. cbn [obind].
  destruct (pok0 Ht Hr Haf) as (e2 & E2 & D2). rewrite E2. exists e1, e2. auto.
Qed.

Definition wlt (s : chars) (a : aexp) := length s < N /\ wr s a.
Lemma wlt_pok s a : wlt s a -> pok pe s a.
Proof. intros [H1 H2]. now apply Hpe. Qed.

Lemma wE L s a : written L s a -> wr s a.
Proof. clear Hpe Hpb.
  intros H. left. destruct L; repeat (first [exact H | apply w_sum; exact H | apply w_sum, w_product; exact H
   | apply w_sum, w_product, w_factor; exact H | apply w_sum, w_product, w_factor, w_power; exact H
   | apply w_sum, w_product, w_factor, w_power, w_primary; exact H ]).
Qed.

Lemma Hlt L s a : written L s a -> length s < N -> pok pe s a.
Proof. clear Hpb. intros H Hl. apply Hpe; auto. now apply (wE H). Qed.

Lemma find_bwd_skip r x k {B} (f : nat -> B) (g : B) : x <> ch_open -> x <> ch_close -> pbal (win r) k -> ~ In x k ->
  win r <> [] -> (let (p, found) := find_bwd r x in if found then f p else g) = g.
Proof. clear Hpe Hpb.
  intros H1 H2 H3 H4 H5. pose proof (@find_bwd_none r x k H1 H2 H3 H4 H5) as H.
  destruct (find_bwd r x) as [p f']. simpl in H. now subst.
Qed.
Lemma find_fwd_skip r x k {B} (f : nat -> B) (g : B) : x <> ch_open -> x <> ch_close -> pbal (win r) k -> ~ In x k ->
  win r <> [] -> (let (p, found) := find_fwd r x in if found then f p else g) = g.
Proof. clear Hpe Hpb.
  intros H1 H2 H3 H4 H5. pose proof (@find_fwd_none r x k H1 H2 H3 H4 H5) as H.
  destruct (find_fwd r x) as [p f']. simpl in H. now subst.
Qed.

(** ** sums *)
Lemma sum_plus s a : written LSum s a -> outside "+" s ->
  exists s1 a1 op s2 a2, s = s1 ++ op ++ s2 /\ padded (lit "+") op /\ written LSum s1 a1 /\ written LSum s2 a2 /\
    ~ outside "+" s2 /\
    forall x y z t, aval A numval x y z t a = a_add A (aval A numval x y z t a1) (aval A numval x y z t a2).
Proof.
  assert (G : forall L s a, written L s a -> L = LSum -> outside "+" s ->
    exists s1 a1 op s2 a2, s = s1 ++ op ++ s2 /\ padded (lit "+") op /\ written LSum s1 a1 /\ written LSum s2 a2 /\
    ~ outside "+" s2 /\
    forall x y z t, aval A numval x y z t a = a_add A (aval A numval x y z t a1) (aval A numval x y z t a2));
    [|intros; eapply G; eauto].
  assert (NP : forall s a, written LProduct s a -> ~ outside "+" s).
  { intros s0 a0 H. destruct (wfact_of H) as (k & F & _). rewrite (outside_iff (f_bal F)) by discriminate.
    now apply (facts_not_in F). }
  assert (OA : forall s a op t b k', written LSum s a -> padded (lit "-") op -> facts k' t b ->
     outside "+" (s ++ op ++ t) -> outside "+" s \/ outside "+" t).
  { intros s0 a0 op t b k' H Hop F'. destruct (wfact_of H) as (k & F & _).
    assert (Ho : pbal op op). { destruct Hop as (l & r & Hl & Hr & ->). apply plain_pbal. rewrite !forallb_app, (spaces_plain Hl), (spaces_plain Hr). reflexivity. }
    rewrite (outside_iff (bal_app (f_bal F) (bal_app Ho (f_bal F')))) by discriminate.
    rewrite (outside_iff (f_bal F)), (outside_iff (f_bal F')) by discriminate.
    intros Hi. apply in_app_iff in Hi as [Hi|Hi]; auto. apply in_app_iff in Hi as [Hi|Hi]; auto.
    exfalso. destruct Hop as (l & r & Hl & Hr & ->). apply in_app_iff in Hi as [Hi|Hi].
    { revert Hi. apply (spaces_no Hl). discriminate. }
    destruct Hi as [Hi|Hi]; [discriminate|]. revert Hi. apply (spaces_no Hr). discriminate. }
  intros L s0 a0 H. induction H; intros EL Ho; try discriminate.
  - exfalso. eapply NP; eauto.
  - exists s0, a0, op, t, b. repeat split; auto.
    + now apply w_product.
    + eapply NP; eauto.
  - destruct (wfact_of H1) as (k' & F' & _).
    destruct (OA _ _ _ _ _ _ H H0 F' Ho) as [Ho'|Ho']; [|exfalso; eapply NP; eauto].
    destruct (IHwritten1 eq_refl Ho') as (s1 & a1 & op1 & s2 & a2 & -> & Hop1 & W1 & W2 & Hn & Hv).
    exists s1, a1, op1, (s2 ++ op ++ t), (Sub a2 b). rewrite <- !app_assoc. repeat split; auto.
    + now apply w_sub.
    + intros Hc. destruct (OA _ _ _ _ _ _ W2 H0 F' Hc) as [Hc'|Hc']; [contradiction|eapply NP; eauto].
    + intros x y z t0. ev. rewrite Hv. symmetry. apply (law_add_sub laws).
  - destruct (wfact_of H2) as (k' & F' & _).
    assert (F2 : facts (lit " ") (lit "-" ++ sp ++ t) (lit "-" ++ sp ++ k')).
    { rewrite !app_assoc. apply facts_pre; try reflexivity; try discriminate.
      - apply opok_app; [split; [reflexivity|repeat constructor]|apply opok_spaces; simpl; auto].
      - eapply facts_mono; [|exact F']. intros c []. }
    assert (Hno : ~ outside "+" (lit "-" ++ sp ++ t)).
    { rewrite (outside_iff (f_bal F2)) by discriminate. now apply (facts_not_in F2). }
    destruct (OA _ _ _ _ _ _ H H0 F2 Ho) as [Ho'|Ho']; [|contradiction].
    destruct (IHwritten1 eq_refl Ho') as (s1 & a1 & op1 & s2 & a2 & -> & Hop1 & W1 & W2 & Hn & Hv).
    exists s1, a1, op1, (s2 ++ op ++ lit "-" ++ sp ++ t), (Sub a2 (Neg b)). rewrite <- !app_assoc. repeat split; auto.
    + now apply w_sub_neg.
    + intros Hc. destruct (OA _ _ _ _ _ _ W2 H0 F2 Hc) as [Hc'|Hc']; contradiction.
    + intros x y z t0. ev. rewrite Hv. symmetry. apply (law_add_sub laws).
Qed.

(** ** products *)
Lemma prod_mul s a : written LProduct s a -> outside "*" s ->
  exists s1 a1 op s2 a2, s = s1 ++ op ++ s2 /\ padded (lit "*") op /\ written LProduct s1 a1 /\ written LProduct s2 a2 /\
    ~ outside "*" s2 /\
    forall x y z t, aval A numval x y z t a = a_mul A (aval A numval x y z t a1) (aval A numval x y z t a2).
Proof.
  assert (G : forall L s a, written L s a -> L = LProduct -> outside "*" s ->
    exists s1 a1 op s2 a2, s = s1 ++ op ++ s2 /\ padded (lit "*") op /\ written LProduct s1 a1 /\ written LProduct s2 a2 /\
    ~ outside "*" s2 /\
    forall x y z t, aval A numval x y z t a = a_mul A (aval A numval x y z t a1) (aval A numval x y z t a2));
    [|intros; eapply G; eauto].
  assert (NP : forall s a, written LFactor s a -> ~ outside "*" s).
  { intros s0 a0 H. destruct (wfact_of H) as (k & F & _). rewrite (outside_iff (f_bal F)) by discriminate.
    now apply (facts_not_in F). }
  assert (OA : forall s a op t b k', written LProduct s a -> padded (lit "/") op -> facts k' t b ->
     outside "*" (s ++ op ++ t) -> outside "*" s \/ outside "*" t).
  { intros s0 a0 op t b k' H Hop F'. destruct (wfact_of H) as (k & F & _).
    assert (Ho : pbal op op). { destruct Hop as (l & r & Hl & Hr & ->). apply plain_pbal. rewrite !forallb_app, (spaces_plain Hl), (spaces_plain Hr). reflexivity. }
    rewrite (outside_iff (bal_app (f_bal F) (bal_app Ho (f_bal F')))) by discriminate.
    rewrite (outside_iff (f_bal F)), (outside_iff (f_bal F')) by discriminate.
    intros Hi. apply in_app_iff in Hi as [Hi|Hi]; auto. apply in_app_iff in Hi as [Hi|Hi]; auto.
    exfalso. destruct Hop as (l & r & Hl & Hr & ->). apply in_app_iff in Hi as [Hi|Hi].
    { revert Hi. apply (spaces_no Hl). discriminate. }
    destruct Hi as [Hi|Hi]; [discriminate|]. revert Hi. apply (spaces_no Hr). discriminate. }
  intros L s0 a0 H. induction H; intros EL Ho; try discriminate.
  - exfalso. eapply NP; eauto.
  - exists s0, a0, op, t, b. repeat split; auto.
    + now apply w_factor.
    + eapply NP; eauto.
  - destruct (wfact_of H1) as (k' & F' & _).
    destruct (OA _ _ _ _ _ _ H H0 F' Ho) as [Ho'|Ho']; [|exfalso; eapply NP; eauto].
    destruct (IHwritten1 eq_refl Ho') as (s1 & a1 & op1 & s2 & a2 & -> & Hop1 & W1 & W2 & Hn & Hv).
    exists s1, a1, op1, (s2 ++ op ++ t), (Div a2 b). rewrite <- !app_assoc. repeat split; auto.
    + now apply w_div.
    + intros Hc. destruct (OA _ _ _ _ _ _ W2 H0 F' Hc) as [Hc'|Hc']; [contradiction|eapply NP; eauto].
    + intros x y z t0. ev. rewrite Hv. symmetry. apply (law_mul_div laws).
Qed.

(** ** binary minus *)
Lemma minus_binary s a l w u ku af :
  written LSum s a -> spaces l -> Forall (fun c => In c (lit "- ")) w ->
  pbal u ku -> ~ In "-"%char ku ->
  let r := Reader (s ++ l ++ "-"%char :: w ++ u) af in
  parse_op_minus pe r = parse_split pe OSub r (length (s ++ l)) 1.
Proof. clear Hpe Hpb.
  intros Hs Hl Hw Hu Hn r. unfold parse_op_minus.
  (* the last minus sign *)
  set (w0 := l ++ "-"%char :: w).
  assert (Hlast : exists w1 w2, w0 = w1 ++ "-"%char :: w2 /\ ~ In "-"%char w2).
  { apply in_split_last; [exact ascii_dec|]. unfold w0. apply in_or_app. right. now left. }
  destruct Hlast as (w1 & w2 & Ew & Hw2).
  assert (Hw0 : Forall (fun c => In c (lit "- ")) w0).
  { unfold w0. apply Forall_app. split; [now apply spaces_ms|]. constructor; [simpl; auto|auto]. }
  assert (Eall : s ++ l ++ "-"%char :: w ++ u = (s ++ w1) ++ "-"%char :: (w2 ++ u)).
  { change (s ++ l ++ "-"%char :: w ++ u) with (s ++ l ++ ("-"%char :: w) ++ u). rewrite (app_assoc l).
    fold w0. rewrite Ew, <- !app_assoc. reflexivity. }
  pose proof Hw0 as Hw'. rewrite Ew in Hw'. apply Forall_app in Hw' as [Hw1 Hw2'].
  apply Forall_inv_tail in Hw2'.
  assert (Hw2s : Forall (fun c => c <> ch_open /\ c <> ch_close) w2).
  { eapply Forall_impl; [|exact Hw2']. intros c [<-|[<-|[]]]; split; discriminate. }
  rewrite (@find_bwd_found r "-" (s ++ w1) (w2 ++ u) (w2 ++ ku)); try discriminate.
  2:{ apply bal_app; auto. now apply bal_plain. }
  2:{ intros Hi. apply in_app_iff in Hi as [Hi|Hi]; contradiction. }
  2:{ exact Eall. }
  destruct (wfact_of Hs) as (k & F & Hlk & _).
  destruct (list_nil_or_snoc s) as [->|(s' & y & ->)]; [exfalso; now apply (f_ne F)|].
  rewrite last_last in Hlk.
  assert (Er : rd r (length s') = y).
  { apply (@rd_at r s' y (l ++ "-"%char :: w ++ u ++ af)). simpl. asq. }
  assert (Hy : mem_char y (lit "- ") = false).
  { apply mem_char_false. intros Hi. unfold last_ok in Hlk. apply negb_true_iff in Hlk. apply mem_char_false in Hlk.
    apply Hlk. simpl in *. tauto. }
  assert (Hy2 : mem_char y (lit "*/^e=<~>") = false).
  { apply mem_char_false. intros Hi. unfold last_ok in Hlk. apply negb_true_iff in Hlk. apply mem_char_false in Hlk.
    apply Hlk. simpl in *. tauto. }
  assert (Hq : minus_left r (length ((s' ++ [y]) ++ w1)) = length s').
  { assert (Erun := @minus_left_run r (s' ++ [y]) (w1 ++ ["-"%char]) (w2 ++ u ++ af)).
    rewrite (app_length (s' ++ [y]) w1). rewrite (app_length w1) in Erun. simpl length in Erun.
    replace (length (s' ++ [y]) + (length w1 + 1) - 1) with (length (s' ++ [y]) + length w1) in Erun by lia.
    rewrite Erun.
    - rewrite app_length. simpl length. replace (length s' + 1) with (S (length s')) by lia.
      replace (S (length s') - 1) with (length s') by lia. apply minus_left_stop. now rewrite Er.
    - simpl win. simpl after. rewrite Eall. asq.
    - intros E0. apply app_eq_nil in E0 as [_ E0]. discriminate.
    - apply Forall_app. split; auto. constructor; [simpl; auto|constructor]. }
  rewrite Hq, Er, Hy2.
  assert (Hym : (if ascii_dec y "-" then true else false) = false).
  { destruct (ascii_dec y "-") as [->|]; auto. }
  rewrite Hym, orb_true_r. cbn [negb andb].
  assert (Hr : minus_right r (S (length ((s' ++ [y]) ++ w1)) - length s') (length s') = length ((s' ++ [y]) ++ l)).
  { rewrite (@minus_right_run r s' (y :: l) (w ++ u ++ af)).
    - rewrite !app_length. simpl. lia.
    - simpl. asq.
    - intros [E0|Hi]; [rewrite E0 in Hy; discriminate|]. revert Hi. apply (spaces_no Hl). discriminate.
    - assert (length l <= length w1).
      { destruct (@app_cons_split _ l ("-"%char :: w) "-"%char w1 w2 Ew) as [(v' & E0 & _)|(u' & -> & _)].
        - exfalso. apply (@spaces_no "-" l Hl); [discriminate|]. rewrite E0. apply in_or_app. right. now left.
        - rewrite app_length. lia. }
      rewrite !app_length. cbn [List.length]. lia. }
  rewrite Hr. reflexivity.
Qed.

(** products contain no binary minus *)
Lemma minus_product s k af l : facts l s k -> nok k ->
  parse_op_minus pe (Reader s af) = parse_op_mul pe (Reader s af).
Proof. clear Hpe Hpb.
  intros F Hnok. set (r := Reader s af).
  destruct (in_dec ascii_dec "-"%char k) as [Hi|Hi].
  - unfold parse_op_minus. destruct (in_split_last ascii_dec _ _ Hi) as (ku & kv & Ek & Hkv).
    pose proof (f_bal F) as B. rewrite Ek in B. destruct (@bal_split_at _ _ _ _ _ _ B) as (u & v & Es & Bu & Bv); [discriminate|].
    rewrite (@find_bwd_found r "-" u v kv); try discriminate; auto.
    destruct (Hnok _ _ Ek) as (u1 & w & Eku & Hw & Hcase). rewrite Eku in Bu.
    destruct (bal_split Bu u1 w eq_refl) as (s1 & w' & -> & B1 & Bw).
    assert (w' = w).
    { apply (bal_plain_inv Bw). intros Hc. pose proof (proj1 (Forall_forall _ _) Hw _ Hc) as [E|[E|[]]]; discriminate. }
    subst w'.
    assert (Erun := @minus_left_run r s1 (w ++ ["-"%char]) (v ++ af)).
    rewrite (app_length w) in Erun. simpl length in Erun.
    replace (length s1 + (length w + 1) - 1) with (length (s1 ++ w)) in Erun by (rewrite app_length; lia).
    rewrite Erun; clear Erun.
    2:{ simpl. rewrite Es. asq. }
    2:{ intros E0. apply app_eq_nil in E0 as [_ E0]. discriminate. }
    2:{ apply Forall_app. split; auto. constructor; [simpl; auto|constructor]. }
    destruct Hcase as [->|(u' & c & -> & Hc)].
    + rewrite (proj2 (bal_nil_iff B1) eq_refl) in *. simpl length. cbv iota.
      assert (Hf : rd r 0 = "-"%char).
      { unfold r. rewrite rd0 by apply F. pose proof (f_first F) as Hf. rewrite Es in *. simpl app in *.
        destruct w as [|c w]; [reflexivity|]. simpl in *. apply Forall_inv in Hw. destruct Hw as [<-|[<-|[]]]; [reflexivity|discriminate]. }
      rewrite Hf. reflexivity.
    + destruct (@bal_split_at _ _ _ _ _ [] B1) as (s2 & v2 & -> & _ & B2).
      { intros ->. destruct Hc as [Hc|[Hc|[Hc|[Hc|[]]]]]; discriminate. }
      pose proof (proj2 (bal_nil_iff B2) eq_refl) as ->.
      assert (Er : rd r (length s2) = c).
      { apply (@rd_at r s2 c (w ++ "-"%char :: v ++ af)). simpl. rewrite Es. asq. }
      rewrite app_length. simpl length. replace (length s2 + 1) with (S (length s2)) by lia. cbv iota.
      replace (S (length s2) - 1) with (length s2) by lia.
      rewrite minus_left_stop.
      2:{ rewrite Er. apply mem_char_false. destruct Hc as [<-|[<-|[<-|[<-|[]]]]]; intros [E|[E|[]]]; discriminate. }
      rewrite Er. replace (mem_char c (lit "*/^e=<~>")) with true.
      2:{ symmetry. apply mem_char_iff. destruct Hc as [<-|[<-|[<-|[<-|[]]]]]; simpl; tauto. }
      rewrite andb_false_r. reflexivity.
  - unfold parse_op_minus. apply (@find_bwd_skip r "-" k); try discriminate; auto; apply F.
Qed.

(** ** powers *)
Lemma take_digits_app d af : Forall (fun c => is_digit c = true) d -> nd af -> take_digits (d ++ af) = d.
Proof. clear Hpe Hpb.
  induction 1 as [|c d Hc Hd IH]; intros Haf; simpl.
  - destruct af as [|c af]; auto. unfold nd in Haf. simpl in *. now rewrite Haf.
  - rewrite Hc, IH; auto.
Qed.
Lemma clamp_small z : (- 2 ^ 31 < z < 2 ^ 31)%Z ->
  to_int32 (Z.max (- 2 ^ 63) (Z.min (2 ^ 63 - 1) z)) = z.
Proof. clear Hpe Hpb.
  intros H. rewrite Z.min_r by lia. rewrite Z.max_r by lia. unfold to_int32.
  rewrite Z.mod_small by lia. lia.
Qed.
Lemma strtol_digits d af : digits d -> nd af -> (undec d < 2 ^ 31)%N ->
  to_int32 (strtol (d ++ af)) = Z.of_N (undec d) /\ to_int32 (strtol ("-"%char :: d ++ af)) = (- Z.of_N (undec d))%Z.
Proof. clear Hpe Hpb.
  intros [Hn Hd] Haf Hs. assert (0 <= Z.of_N (undec d) < 2 ^ 31)%Z by (change (2 ^ 31)%Z with (Z.of_N (2 ^ 31)); lia).
  split.
  - pose proof (take_digits_app Hd Haf) as Et. unfold strtol. destruct d as [|c d]; [congruence|]. cbn [app] in *. rewrite Et.
    pose proof (Forall_inv Hd) as Hc. cbv beta in Hc.
    destruct (ascii_dec c "-") as [E|]; [rewrite E in Hc; discriminate|].
    destruct (ascii_dec c "+") as [E|]; [rewrite E in Hc; discriminate|]. apply clamp_small. lia.
  - unfold strtol. destruct (ascii_dec "-" "-"); [|congruence]. rewrite (take_digits_app Hd Haf). apply clamp_small. lia.
Qed.

Lemma is_integer_inv s : is_integer s = true ->
  digits s \/ exists t, (s = "-"%char :: t \/ s = "+"%char :: t) /\ digits t.
Proof. clear Hpe Hpb.
  unfold is_integer. destruct s as [|c s]; [discriminate|].
  destruct ((length (c :: s) =? 1) && _) eqn:E1; [discriminate|].
  destruct (negb _ && negb _ && negb _) eqn:E; [discriminate|]. intros H.
  rewrite forallb_forall in H.
  assert (Hs : (ascii_dec c "-" = ascii_dec c "-") -> Forall (fun c => is_digit c = true) s) by (intros _; now apply Forall_forall).
  specialize (Hs eq_refl).
  destruct (ascii_dec c "-") as [->|Hm]; [|destruct (ascii_dec c "+") as [->|Hp]].
  - right. exists s. split; auto. split; auto. intros ->. discriminate.
  - right. exists s. split; auto. split; auto. intros ->. discriminate.
  - left. cbn [negb andb] in E. apply negb_false_iff in E. split; [discriminate|]. now constructor.
Qed.

Lemma sp_nil : spaces [].
Proof. clear Hpe Hpb. constructor. Qed.

(** the right operand of '^' *)
Lemma exponent_ok base a t b l af : denotes base a -> wlt t b -> small_exponent b -> spaces l -> nd af ->
  gives (let power_text := apply_formatting (Reader (l ++ t) af) in
         if is_integer (win power_text)
         then Ok (Some (DPowI base (to_int32 (strtol (win power_text ++ after power_text)))))
         else do e <- pe power_text; Ok (Some (DBin OPow base e))) (Power a b).
Proof.
  intros Hb [Ht Hw] Hsm Hl Haf. destruct (format_core Hw) as (c & Hc & Hwc & Hbare & Hf).
  destruct (Hf l [] af Hl sp_nil Haf) as (af' & Haf' & E). rewrite app_nil_r in E. cbv zeta. rewrite E. clear E Hf.
  simpl win. simpl after. destruct (is_integer c) eqn:Ei.
  - eexists. split; [reflexivity|].
    destruct Hwc as [Hwc|[-> _]]; [|discriminate].
    pose proof (is_integer_number _ Ei) as Hn.
    destruct (number_core Hwc Hn) as [(Hnum & ->)|(t' & -> & Hnum & ->)].
    + destruct (is_integer_inv _ Ei) as [Hd|(t' & [-> | ->] & _)].
      * simpl in Hsm. specialize (Hsm (proj2 Hd)). destruct (strtol_digits Hd Haf' Hsm) as [E1 _]. rewrite E1.
        intros x y z t0. ev. rewrite (law_powi laws) by auto. now rewrite Hb.
      * exfalso. destruct (numeral_chars Hnum) as (_ & [E|E] & _); discriminate.
      * exfalso. destruct (numeral_chars Hnum) as (_ & [E|E] & _); discriminate.
    + destruct (is_integer_inv _ Ei) as [Hd|(t'' & [E | E] & Hd)].
      * exfalso. destruct Hd as [_ Hd]. apply Forall_inv in Hd. discriminate.
      * injection E as <-. simpl in Hsm. specialize (Hsm (proj2 Hd)).
        destruct (strtol_digits Hd Haf' Hsm) as [_ E1]. simpl app. rewrite E1.
        intros x y z t0. ev. rewrite (law_powi_neg laws) by auto. now rewrite Hb.
      * discriminate.
  - destruct (pok0 (l := []) (af := af') (Hpe (s := c) (a := b) ltac:(lia) Hwc) sp_nil Haf') as (e & E & D).
    simpl app in E. rewrite E. cbn [obind]. eexists. split; [reflexivity|].
    intros x y z t0. ev. now rewrite Hb, D.
Qed.

Lemma padded_split n op : padded [n] op -> exists l r, spaces l /\ spaces r /\ op = l ++ [n] ++ r.
Proof. clear Hpe Hpb. intros (l & r & H1 & H2 & ->). eauto. Qed.

Lemma pow_found s k l r t af : facts [] s k -> spaces l -> spaces r ->
  let R := Reader (s ++ (l ++ ["^"%char] ++ r) ++ t) af in
  find_fwd R "^" = (length (s ++ l), true) /\
  sub_prefix R (length (s ++ l)) = Reader (s ++ l) (("^"%char :: r ++ t) ++ af) /\
  sub_from R (length (s ++ l) + 1) = Ok (Reader (r ++ t) af).
Proof. clear Hpe Hpb.
  intros F Hl Hr R.
  assert (E : s ++ (l ++ ["^"%char] ++ r) ++ t = (s ++ l) ++ "^"%char :: r ++ t) by asq.
  split; [|split].
  - apply find_fwd_found with (k ++ l) (r ++ t); try discriminate.
    + apply bal_app; [apply F|]. now apply plain_pbal, spaces_plain.
    + intros Hi. apply in_app_iff in Hi as [Hi|Hi]; [now apply (facts_not_in F) in Hi|].
      revert Hi. apply (spaces_no Hl). discriminate.
    + exact E.
  - unfold R. rewrite E. apply sub_prefix_at.
  - unfold R. rewrite E. replace (length (s ++ l) + 1) with (length ((s ++ l) ++ ["^"%char])) by (rewrite (app_length _ [_]); reflexivity).
    replace ((s ++ l) ++ "^"%char :: r ++ t) with (((s ++ l) ++ ["^"%char]) ++ r ++ t) by asq.
    apply sub_from_at.
Qed.

Lemma parse_pow_ok s a op t b af : written LPrimary s a -> length s < N -> padded (lit "^") op -> wlt t b ->
  small_exponent b -> nd af -> gives (parse_op_pow pe (Reader (s ++ op ++ t) af)) (Power a b).
Proof.
  intros Hs Hlen Hop Ht Hsm Haf. destruct (padded_split Hop) as (l & r & Hl & Hr & ->).
  destruct (wfact_of Hs) as (k & F & _).
  destruct (@pow_found s k l r t af F Hl Hr) as (E1 & E2 & E3).
  unfold parse_op_pow. rewrite E1, E2.
  destruct (Hpe Hlen (wE Hs) (l := []) (r := l) (af := ("^"%char :: r ++ t) ++ af)) as (e & E & D); [apply sp_nil|auto|reflexivity|].
  change ([] ++ s ++ l) with (s ++ l) in E. rewrite E. cbn [obind]. rewrite E3. cbn [obind].
  apply exponent_ok; auto.
Qed.

Definition Lle (L : level) : chars := lv L.

Lemma op_skip_fwd L s a af x {B} (f : nat -> B) g : wfact L s a -> allowed (lv L) x = false -> x <> ch_open -> x <> ch_close ->
  (let (p, found) := find_fwd (Reader s af) x in if found then f p else g) = g.
Proof. intros (k & F & _) Hx H1 H2. apply (@find_fwd_skip _ x k); auto; try apply F. now apply (facts_not_in F). Qed.
Lemma op_skip_bwd L s a af x {B} (f : nat -> B) g : wfact L s a -> allowed (lv L) x = false -> x <> ch_open -> x <> ch_close ->
  (let (p, found) := find_bwd (Reader s af) x in if found then f p else g) = g.
Proof. intros (k & F & _) Hx H1 H2. apply (@find_bwd_skip _ x k); auto; try apply F. now apply (facts_not_in F). Qed.

Lemma pow_op_none L s a af : wfact L s a -> incl (lv L) [] -> hd nul s <> "-"%char ->
  parse_op_pow pe (Reader s af) = Ok None.
Proof.
  intros W Hi Hm. unfold parse_op_pow.
  rewrite (@op_skip_fwd L s a af "^") with (g := if ascii_dec (first_char (Reader s af)) "-" then _ else _); auto; try discriminate.
  - destruct W as (k & F & _). unfold first_char. rewrite rd0 by apply F.
    destruct (ascii_dec (hd nul s) "-"); [contradiction|reflexivity].
  - destruct (allowed (lv L) "^") eqn:E; auto. apply (@allowed_mono _ [] _ Hi) in E. discriminate.
Qed.

(** a factor: no +, -, *, / outside parentheses except signs *)
Lemma factor_ok s a af : written LFactor s a -> length s <= N -> (forall b, ~ written LPrimary s b) -> nd af ->
  gives (parse_op_pow pe (Reader s af)) a.
Proof.
  intros H Hlen Hnp Haf. inversion H as [| | | | | | | | | |s0 a0 H0|sp s0 a0 Hsp H0| | | | | | | | | |]; subst.
  - inversion H0 as [| | | | | | |s1 a1 H1|s1 a1 op t b H1 Hop H2 Hsm|s1 a1 op sp t b H1 Hop Hsp H2 Hsm| | | | | | | | | | | |]; subst.
    + exfalso. now apply (Hnp a).
    + destruct (wfact_of H1) as (k1 & F1 & _), (wfact_of H2) as (k2 & F2 & _).
      assert (length op >= 1). { destruct (padded_split Hop) as (l & r & _ & _ & ->). rewrite !app_length. simpl. lia. }
      rewrite !app_length in Hlen. pose proof (f_ne F1). destruct s1; [congruence|]. simpl in Hlen.
      apply parse_pow_ok; auto; [simpl; lia|]. split; [lia|now apply (wE H2)].
    + destruct (wfact_of H1) as (k1 & F1 & _), (wfact_of H2) as (k2 & F2 & _).
      assert (length op >= 1). { destruct (padded_split Hop) as (l & r & _ & _ & ->). rewrite !app_length. simpl. lia. }
      rewrite !app_length in Hlen. pose proof (f_ne F1). destruct s1; [congruence|]. simpl in Hlen.
      apply parse_pow_ok; auto; [simpl; lia|]. split; [rewrite !app_length; simpl; lia|].
      apply (wE (w_neg Hsp H2)).
  - destruct (wfact_of H) as (k & F & _), (wfact_of H0) as (k0 & F0 & _).
    unfold parse_op_pow.
    rewrite (@find_fwd_skip (Reader (lit "-" ++ sp ++ s0) af) "^" (lit "-" ++ sp ++ k0))
      with (g := if ascii_dec (first_char (Reader (lit "-" ++ sp ++ s0) af)) "-" then _ else _); try discriminate.
    2:{ apply bal_app; [apply bal_one; discriminate|]. apply bal_app; [now apply plain_pbal, spaces_plain|apply F0]. }
    2:{ intros Hi. change (lit "-" ++ sp ++ k0) with ("-"%char :: (sp ++ k0)) in Hi. destruct Hi as [Hi|Hi]; [discriminate|]. apply in_app_iff in Hi as [Hi|Hi].
        - revert Hi. apply (spaces_no Hsp). discriminate.
        - revert Hi. now apply (facts_not_in F0). }
    unfold first_char. rewrite rd0 by discriminate. simpl hd. destruct (ascii_dec "-" "-") as [_|]; [|congruence].
    change 1 with (length (lit "-")). rewrite sub_from_at. cbn [obind].
    rewrite !app_length in Hlen. simpl in Hlen.
    destruct (pok0 (Hpe (s := s0) ltac:(lia) (wE H0)) Hsp Haf) as (e & E & D). rewrite E. cbn [obind].
    eexists. split; [reflexivity|]. intros x y z t. ev. now rewrite D.
Qed.

Lemma product_ok s a af : written LProduct s a -> length s <= N -> (forall b, ~ written LPrimary s b) -> nd af ->
  gives (parse_op_mul pe (Reader s af)) a.
Proof.
  intros H Hlen Hnp Haf. destruct (wfact_of H) as (k & F & Hlk & _). unfold parse_op_mul.
  destruct (in_dec ascii_dec "*"%char k) as [Hi|Hi].
  - rewrite <- (outside_iff (f_bal F)) in Hi by discriminate.
    destruct (prod_mul H Hi) as (s1 & a1 & op & s2 & a2 & -> & Hop & W1 & W2 & Hn & Hv).
    destruct (padded_split Hop) as (l & r & Hl & Hr & ->).
    destruct (wfact_of W1) as (k1 & F1 & _), (wfact_of W2) as (k2 & F2 & _).
    rewrite (@find_bwd_found _ "*" (s1 ++ l) (r ++ s2) (r ++ k2)); try discriminate.
    2:{ apply bal_app; [now apply plain_pbal, spaces_plain|apply F2]. }
    2:{ intros Hc. apply in_app_iff in Hc as [Hc|Hc]; [revert Hc; apply (spaces_no Hr); discriminate|].
        apply Hn. rewrite (outside_iff (f_bal F2)) by discriminate. exact Hc. }
    2:{ simpl. asq. }
    rewrite !app_length in Hlen. pose proof (f_ne F1) as N1. pose proof (f_ne F2) as N2.
    simpl in Hlen. destruct s1; [congruence|]. destruct s2; [congruence|]. simpl in Hlen.
    destruct (@split_ok OMul _ a1 l "*"%char r _ a2 af (length ((a0 :: s1) ++ l))
       (Hlt W1 ltac:(simpl; lia)) (Hlt W2 ltac:(simpl; lia)) Hl Hr eq_refl Haf eq_refl)
       as (e1 & e2 & E & D1 & D2).
    eexists. split; [exact E|]. intros x y z t. ev. now rewrite Hv, D1, D2.
  - assert (Hnone : snd (find_bwd (Reader s af) "*") = false).
    { apply (@find_bwd_none _ _ k); try discriminate; auto; apply F. }
    destruct (find_bwd (Reader s af) "*") as [p0 f0]; simpl in Hnone; subst f0; clear p0.
    inversion H as [| | | | | | | | | | | |s1 a1 H1|s1 a1 op t b H1 Hop H2|s1 a1 op t b H1 Hop H2| | | | | | |]; subst.
    + rewrite (@op_skip_bwd LFactor s a af "/") with (g := parse_op_pow pe (Reader s af)); try discriminate; try reflexivity.
      * apply factor_ok; auto.
      * now apply wfact_of.
    + exfalso. apply Hi. rewrite <- (outside_iff (f_bal F)) by discriminate.
      destruct (wfact_of H1) as (k1 & F1 & _). unfold outside, toplevel.
      rewrite (proj1 (toplevel_bal (f_bal F1) _)). apply in_or_app. right.
      destruct Hop as (l & r & Hl & Hr & ->). rewrite <- !app_assoc.
      rewrite (proj1 (toplevel_bal (plain_pbal _ (spaces_plain Hl)) _)). apply in_or_app. right. simpl. now left.
    + destruct (padded_split Hop) as (l & r & Hl & Hr & ->).
      destruct (wfact_of H1) as (k1 & F1 & _), (wfact_of H2) as (k2 & F2 & _).
      rewrite (@find_bwd_found _ "/" (s1 ++ l) (r ++ t) (r ++ k2)); try discriminate.
      2:{ apply bal_app; [now apply plain_pbal, spaces_plain|apply F2]. }
      2:{ intros Hc. apply in_app_iff in Hc as [Hc|Hc]; [revert Hc; apply (spaces_no Hr); discriminate|].
          revert Hc. now apply (facts_not_in F2). }
      2:{ simpl. asq. }
      rewrite !app_length in Hlen. pose proof (f_ne F1) as N1. pose proof (f_ne F2) as N2.
      simpl in Hlen. destruct s1; [congruence|]. destruct t; [congruence|]. simpl in Hlen.
      destruct (@split_ok ODiv _ a1 l "/"%char r _ b af (length ((a :: s1) ++ l))
       (Hlt H1 ltac:(simpl; lia)) (Hlt H2 ltac:(simpl; lia)) Hl Hr eq_refl Haf eq_refl)
       as (e1 & e2 & E & D1 & D2).
      eexists. split; [exact E|]. intros x y z t0. ev. now rewrite D1, D2.
Qed.

Lemma sum_ok s a af : written LSum s a -> length s <= N -> (forall b, ~ written LPrimary s b) -> nd af ->
  gives (let (p, found) := find_bwd (Reader s af) "+" in
         if found then parse_split pe OAdd (Reader s af) p 1 else parse_op_minus pe (Reader s af)) a.
Proof.
  intros H Hlen Hnp Haf. destruct (wfact_of H) as (k & F & Hlk & _).
  destruct (in_dec ascii_dec "+"%char k) as [Hi|Hi].
  - rewrite <- (outside_iff (f_bal F)) in Hi by discriminate.
    destruct (sum_plus H Hi) as (s1 & a1 & op & s2 & a2 & -> & Hop & W1 & W2 & Hn & Hv).
    destruct (padded_split Hop) as (l & r & Hl & Hr & ->).
    destruct (wfact_of W1) as (k1 & F1 & _), (wfact_of W2) as (k2 & F2 & _).
    rewrite (@find_bwd_found _ "+" (s1 ++ l) (r ++ s2) (r ++ k2)); try discriminate.
    2:{ apply bal_app; [now apply plain_pbal, spaces_plain|apply F2]. }
    2:{ intros Hc. apply in_app_iff in Hc as [Hc|Hc]; [revert Hc; apply (spaces_no Hr); discriminate|].
        apply Hn. rewrite (outside_iff (f_bal F2)) by discriminate. exact Hc. }
    2:{ simpl. asq. }
    rewrite !app_length in Hlen. pose proof (f_ne F1) as N1. pose proof (f_ne F2) as N2.
    simpl in Hlen. destruct s1; [congruence|]. destruct s2; [congruence|]. simpl in Hlen.
    destruct (@split_ok OAdd _ a1 l "+"%char r _ a2 af (length ((a0 :: s1) ++ l))
       (Hlt W1 ltac:(simpl; lia)) (Hlt W2 ltac:(simpl; lia)) Hl Hr eq_refl Haf eq_refl)
       as (e1 & e2 & E & D1 & D2).
    eexists. split; [exact E|]. intros x y z t. ev. now rewrite Hv, D1, D2.
  - rewrite (@find_bwd_skip (Reader s af) "+" k) with (g := parse_op_minus pe (Reader s af)); try discriminate; auto; try apply F.
    inversion H as [| | | | | | | | | | | | | | |s1 a1 H1|s1 a1 op t b H1 Hop H2|s1 a1 op t b H1 Hop H2 Ho|s1 a1 op sp t b H1 Hop Hsp H2 Ho| | |]; subst.
    + destruct (wfact_of H1) as (k1 & F1 & _ & Hnk). rewrite (minus_product af F1 (Hnk eq_refl)). now apply product_ok.
    + exfalso. apply Hi. rewrite <- (outside_iff (f_bal F)) by discriminate.
      destruct (wfact_of H1) as (k1 & F1 & _). unfold outside, toplevel.
      rewrite (proj1 (toplevel_bal (f_bal F1) _)). apply in_or_app. right.
      destruct Hop as (l & r & Hl & Hr & ->). rewrite <- !app_assoc.
      rewrite (proj1 (toplevel_bal (plain_pbal _ (spaces_plain Hl)) _)). apply in_or_app. right. simpl. now left.
    + destruct (padded_split Hop) as (l & r & Hl & Hr & ->).
      destruct (wfact_of H1) as (k1 & F1 & _), (wfact_of H2) as (k2 & F2 & _).
      pose proof (@minus_binary s1 a1 l r t k2 af H1 Hl (spaces_ms Hr) (f_bal F2)) as Em. cbv zeta in Em.
      replace (s1 ++ (l ++ ["-"%char] ++ r) ++ t) with (s1 ++ l ++ "-"%char :: r ++ t) by asq.
      rewrite Em.
      2:{ rewrite <- (outside_iff (f_bal F2)) by discriminate. exact Ho. }
      rewrite !app_length in Hlen. pose proof (f_ne F1) as N1. pose proof (f_ne F2) as N2.
      simpl in Hlen. destruct s1; [congruence|]. destruct t; [congruence|]. simpl in Hlen.
      replace ((a :: s1) ++ l ++ "-"%char :: r ++ a0 :: t) with ((a :: s1) ++ (l ++ ["-"%char] ++ r) ++ a0 :: t) by asq.
      destruct (@split_ok OSub _ a1 l "-"%char r _ b af (length ((a :: s1) ++ l))
       (Hlt H1 ltac:(simpl; lia)) (Hlt H2 ltac:(simpl; lia)) Hl Hr eq_refl Haf eq_refl)
       as (e1 & e2 & E & D1 & D2).
      eexists. split; [exact E|]. intros x y z t0. ev. now rewrite D1, D2.
    + destruct (padded_split Hop) as (l & r & Hl & Hr & ->).
      destruct (wfact_of H1) as (k1 & F1 & _), (wfact_of H2) as (k2 & F2 & _).
      assert (Hms : Forall (fun c => In c (lit "- ")) (r ++ "-"%char :: sp)).
      { apply Forall_app. split; [now apply spaces_ms|]. constructor; [simpl; auto|now apply spaces_ms]. }
      pose proof (@minus_binary s1 a1 l (r ++ "-"%char :: sp) t k2 af H1 Hl Hms (f_bal F2)) as Em. cbv zeta in Em.
      replace (s1 ++ (l ++ ["-"%char] ++ r) ++ lit "-" ++ sp ++ t) with (s1 ++ l ++ "-"%char :: (r ++ "-"%char :: sp) ++ t)
        by asq.
      rewrite Em.
      2:{ rewrite <- (outside_iff (f_bal F2)) by discriminate. exact Ho. }
      rewrite !app_length in Hlen. pose proof (f_ne F1) as N1. pose proof (f_ne F2) as N2.
      simpl in Hlen. destruct s1; [congruence|]. destruct t; [congruence|]. simpl in Hlen.
      replace ((a :: s1) ++ l ++ "-"%char :: (r ++ "-"%char :: sp) ++ a0 :: t)
        with ((a :: s1) ++ (l ++ ["-"%char] ++ r) ++ lit "-" ++ sp ++ a0 :: t)
        by asq.
      destruct (@split_ok OSub _ a1 l "-"%char r _ (Neg b) af (length ((a :: s1) ++ l))
       (Hlt H1 ltac:(simpl; lia)) (Hlt (w_neg Hsp H2) ltac:(simpl; rewrite app_length; simpl; lia)) Hl Hr eq_refl Haf eq_refl)
       as (e1 & e2 & E & D1 & D2).
      eexists. split; [exact E|]. intros x y z t0. ev. rewrite D1, D2. reflexivity.
Qed.

End Main.
