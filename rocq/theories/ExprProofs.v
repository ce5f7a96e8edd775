(** Expression language: correctness of [optimize] and of the Reader scans on balanced text. *)
From Verif Require Import Base ListLemmas Strings ExprModel.
Set Implicit Arguments.
Local Open Scope list_scope.
Local Open Scope nat_scope.
Notation length := List.length.

(** ** optimize preserves the value *)
Section Opt.
Context {T : Type} (A : arith T).

Scheme dnode_mut := Induction for dnode Sort Prop
  with bnode_mut := Induction for bnode Sort Prop.
Combined Scheme node_mutind from dnode_mut, bnode_mut.

Lemma opt_un_eval env u e : deval A env (opt_un A u e) = uop A u (deval A env e).
Proof. destruct e; reflexivity. Qed.
Lemma opt_bin_eval env o e1 e2 : deval A env (opt_bin A o e1 e2) = bop A o (deval A env e1) (deval A env e2).
Proof. destruct e1, e2; reflexivity. Qed.
Lemma opt_powi_eval env e n : deval A env (opt_powi A e n) = a_powi A (deval A env e) n.
Proof. destruct e; reflexivity. Qed.
Lemma opt_cmp_eval env o e1 e2 : beval A env (opt_cmp A o e1 e2) = cop A o (deval A env e1) (deval A env e2).
Proof. destruct e1, e2; reflexivity. Qed.
Lemma opt_log_eval env o b1 b2 : beval A env (opt_log o b1 b2) = lop o (beval A env b1) (beval A env b2).
Proof. destruct b1, b2; reflexivity. Qed.
Lemma opt_not_eval env b : beval A env (opt_not b) = negb (beval A env b).
Proof. destruct b; reflexivity. Qed.
Lemma opt_cond_eval env b e1 e2 :
  deval A env (opt_cond b e1 e2) = if beval A env b then deval A env e1 else deval A env e2.
Proof. destruct b as [[]| | | | | | | | | | | |]; reflexivity. Qed.

Lemma optimize_eval env :
  (forall e, deval A env (doptimize A e) = deval A env e) /\
  (forall b, beval A env (boptimize A b) = beval A env b).
Proof.
  apply node_mutind; intros; try reflexivity.
  - change (deval A env (opt_un A u (doptimize A e)) = uop A u (deval A env e)). rewrite opt_un_eval. congruence.
  - change (deval A env (opt_bin A o (doptimize A e1) (doptimize A e2)) = bop A o (deval A env e1) (deval A env e2)).
    rewrite opt_bin_eval. congruence.
  - change (deval A env (opt_powi A (doptimize A e) n) = a_powi A (deval A env e) n). rewrite opt_powi_eval. congruence.
  - change (deval A env (opt_cond (boptimize A b) (doptimize A e1) (doptimize A e2)) =
            if beval A env b then deval A env e1 else deval A env e2).
    rewrite opt_cond_eval, H, H0, H1. reflexivity.
  - change (beval A env (opt_not (boptimize A b)) = negb (beval A env b)). rewrite opt_not_eval. congruence.
  - change (beval A env (opt_cmp A o (doptimize A e1) (doptimize A e2)) = cop A o (deval A env e1) (deval A env e2)).
    rewrite opt_cmp_eval. congruence.
  - change (beval A env (opt_log o (boptimize A b1) (boptimize A b2)) = lop o (beval A env b1) (beval A env b2)).
    rewrite opt_log_eval. congruence.
Qed.

End Opt.

(** ** Balanced text with its skeleton: the characters outside all groups, a group counting as its closing char *)
Section Bal.
Variables (o c : ascii).
Hypothesis Hoc : o <> c.

Inductive bal : chars -> chars -> Prop :=
| bal_nil : bal [] []
| bal_char s k x : bal s k -> x <> o -> x <> c -> bal (s ++ [x]) (k ++ [x])
| bal_group s k t k' : bal s k -> bal t k' -> bal (s ++ o :: t ++ [c]) (k ++ [c]).

Lemma bal_app s k t k' : bal s k -> bal t k' -> bal (s ++ t) (k ++ k').
Proof.
  intros Hs Ht. induction Ht as [|t k' x Ht IH H1 H2|t k' u ku Ht IH Hu IHu].
  - now rewrite !app_nil_r.
  - rewrite !app_assoc. now apply bal_char.
  - rewrite !app_assoc. now apply bal_group with ku.
Qed.

Lemma bal_one x : x <> o -> x <> c -> bal [x] [x].
Proof. intros. apply (bal_char bal_nil); auto. Qed.
Lemma bal_paren t k : bal t k -> bal (o :: t ++ [c]) [c].
Proof. intros. apply (bal_group bal_nil H). Qed.
Lemma bal_plain s : Forall (fun x => x <> o /\ x <> c) s -> bal s s.
Proof.
  induction s as [|x s IH]; intros H; [constructor|]. inversion H as [|? ? [H1 H2] H3]; subst.
  apply (bal_app (bal_one H1 H2) (IH H3)).
Qed.

Lemma bal_nil_iff s k : bal s k -> (s = [] <-> k = []).
Proof.
  intros H. destruct H; split; intros E; auto; apply app_eq_nil in E as [_ E]; discriminate.
Qed.

(** first element *)
Lemma bal_uncons s k : bal s k -> s <> [] ->
  (exists x v kv, s = x :: v /\ k = x :: kv /\ x <> o /\ x <> c /\ bal v kv) \/
  (exists t kt v kv, s = o :: t ++ c :: v /\ k = c :: kv /\ bal t kt /\ bal v kv).
Proof.
  intros H. induction H as [|s k x H IH H1 H2|s k t k' H IH Ht _]; intros Hn; [congruence| |].
  - destruct s as [|a s].
    + left. pose proof (proj1 (bal_nil_iff H) eq_refl) as ->. exists x, [], []. repeat split; auto; try constructor.
    + destruct (IH ltac:(discriminate)) as [(y & v & kv & E1 & E2 & E3 & E4 & E5)|(u & ku & v & kv & E1 & E2 & E3 & E4)].
      * left. exists y, (v ++ [x]), (kv ++ [x]). rewrite E1, E2. repeat split; auto; try now constructor.
      * right. exists u, ku, (v ++ [x]), (kv ++ [x]). rewrite E1, E2. repeat split; auto.
        -- simpl. now rewrite <- app_assoc.
        -- now constructor.
  - destruct s as [|a s].
    + right. pose proof (proj1 (bal_nil_iff H) eq_refl) as ->. exists t, k', [], []. repeat split; auto; try constructor.
    + destruct (IH ltac:(discriminate)) as [(y & v & kv & E1 & E2 & E3 & E4 & E5)|(u & ku & v & kv & E1 & E2 & E3 & E4)].
      * left. exists y, (v ++ o :: t ++ [c]), (kv ++ [c]). rewrite E1, E2. repeat split; auto; try now apply bal_group with k'.
      * right. exists u, ku, (v ++ o :: t ++ [c]), (kv ++ [c]). rewrite E1, E2. repeat split; auto.
        -- simpl. now rewrite <- app_assoc.
        -- now apply bal_group with k'.
Qed.

Lemma next_loop_bal s k : bal s k -> forall len l depth pos, 1 <= depth -> pos + length s <= len ->
  next_loop o c len (s ++ l) depth pos = next_loop o c len l depth (pos + length s).
Proof.
  induction 1 as [|s k x H IH H1 H2|s k t k' H IH Ht IHt]; intros len l depth pos Hd Hp.
  - simpl. now rewrite Nat.add_0_r.
  - rewrite app_length in *. simpl in Hp. rewrite <- app_assoc, IH by lia. simpl.
    replace (depth =? 0) with false by lia. replace (pos + length s <? len) with true by lia. simpl.
    destruct (ascii_dec x o); [contradiction|]. destruct (ascii_dec x c); [contradiction|]. f_equal. lia.
  - rewrite app_length in *. simpl in Hp. rewrite app_length in Hp. simpl in Hp.
    rewrite <- app_assoc, IH by lia. simpl.
    replace (depth =? 0) with false by lia. replace (pos + length s <? len) with true by lia. simpl.
    destruct (ascii_dec o o); [|congruence].
    rewrite <- app_assoc, IHt by lia. simpl.
    replace (_ <? len) with true by lia. simpl.
    destruct (ascii_dec c o); [congruence|]. destruct (ascii_dec c c); [|congruence].
    rewrite app_length. simpl. f_equal. lia.
Qed.

Lemma prev_loop_bal s k : bal s k -> forall l depth pos, 1 <= depth -> length s <= pos ->
  prev_loop o c (rev s ++ l) depth pos = prev_loop o c l depth (pos - length s).
Proof.
  induction 1 as [|s k x H IH H1 H2|s k t k' H IH Ht IHt]; intros l depth pos Hd Hp.
  - simpl. now rewrite Nat.sub_0_r.
  - rewrite app_length in *. simpl in Hp. rewrite rev_app_distr. simpl.
    replace (depth =? 0) with false by lia. replace (pos =? 0) with false by lia. simpl.
    destruct (ascii_dec x c); [contradiction|]. destruct (ascii_dec x o); [contradiction|].
    rewrite IH by lia. f_equal. lia.
  - rewrite app_length in *. simpl in Hp. rewrite app_length in Hp. simpl in Hp.
    replace (rev (s ++ o :: t ++ [c])) with (c :: rev t ++ o :: rev s).
    2:{ rewrite rev_app_distr. simpl. rewrite rev_app_distr. simpl. now rewrite <- app_assoc. }
    simpl. replace (depth =? 0) with false by lia. replace (pos =? 0) with false by lia. simpl.
    destruct (ascii_dec c c); [|congruence].
    rewrite <- app_assoc, IHt by lia. simpl.
    replace (pred pos - length t =? 0) with false by lia. simpl.
    destruct (ascii_dec o c); [congruence|]. destruct (ascii_dec o o); [|congruence].
    simpl. rewrite IH by lia. rewrite app_length. simpl. f_equal. lia.
Qed.
End Bal.

Lemma rd_at r u x v : win r ++ after r = u ++ x :: v -> rd r (length u) = x.
Proof. intros E. unfold rd. rewrite E, app_nth2 by lia. now rewrite Nat.sub_diag. Qed.

Lemma skipn_len {X} (u v : list X) : skipn (length u) (u ++ v) = v.
Proof. rewrite skipn_app, skipn_all, Nat.sub_diag. reflexivity. Qed.
Lemma firstn_len {X} (u v : list X) : firstn (length u) (u ++ v) = u.
Proof. rewrite firstn_app, firstn_all, Nat.sub_diag. simpl. now rewrite app_nil_r. Qed.

Lemma next_group o c : o <> c -> forall r u t k v, bal o c t k -> win r ++ after r = u ++ o :: t ++ c :: v ->
  length u + length t < rlen r -> next o c r (length u) = (length u + 1 + length t, 0).
Proof.
  intros Hoc r u t k v Ht E Hl. unfold next. rewrite (@rd_at r u o _ E).
  destruct (ascii_dec o o); [|congruence].
  rewrite E. replace (S (length u)) with (length (u ++ [o])) by (rewrite app_length; simpl; lia).
  replace (u ++ o :: t ++ c :: v) with ((u ++ [o]) ++ t ++ c :: v) by (rewrite <- app_assoc; reflexivity).
  rewrite skipn_len, (next_loop_bal Hoc Ht) by lia. simpl.
  replace (length u + length t <? rlen r) with true by lia. simpl.
  destruct (ascii_dec c o); [congruence|]. destruct (ascii_dec c c); [|congruence].
  destruct v; simpl; f_equal; lia.
Qed.

Lemma prev_group o c : o <> c -> forall r u t k v, bal o c t k -> win r ++ after r = u ++ o :: t ++ c :: v ->
  prev o c r (length u + 1 + length t) = (length u, 0).
Proof.
  intros Hoc r u t k v Ht E. unfold prev.
  assert (E' : win r ++ after r = (u ++ o :: t) ++ c :: v) by (rewrite E, <- app_assoc; reflexivity).
  replace (length u + 1 + length t) with (length (u ++ o :: t)) by (rewrite app_length; simpl; lia).
  rewrite (@rd_at r _ c _ E'). destruct (ascii_dec c c); [|congruence].
  rewrite E', firstn_len, rev_app_distr. simpl.
  rewrite <- app_assoc, (prev_loop_bal Hoc Ht) by (rewrite ?app_length; simpl; lia). simpl.
  rewrite app_length. simpl.
  replace (length u + S (length t) - length t =? 0) with false by lia. simpl.
  destruct (ascii_dec o c); [congruence|]. destruct (ascii_dec o o); [|congruence].
  destruct (rev u) as [|a l]; simpl; f_equal; lia.
Qed.

Notation pbal := (bal ch_open ch_close).
Lemma paren_neq : ch_open <> ch_close.
Proof. discriminate. Qed.

Lemma fwd_loop_bal r x : x <> ch_open -> x <> ch_close ->
  forall u ku, pbal u ku -> ~ In x ku -> forall pre v n m,
  win r ++ after r = pre ++ u ++ v -> length pre + length u <= rlen r - 1 -> length u + m <= n ->
  exists n', m <= n' /\ fwd_loop r x n (length pre) = fwd_loop r x n' (length pre + length u).
Proof.
  intros Hxo Hxc. induction 1 as [|s k a H IH H1 H2|s k t k' H IH Ht _]; intros Hx pre v n m E Hl Hn.
  - exists n. split; [simpl in *; lia|]. simpl. now rewrite Nat.add_0_r.
  - rewrite app_length in Hl, Hn. simpl in Hl, Hn.
    destruct (IH ltac:(intros Hi; apply Hx, in_or_app; auto) pre ([a] ++ v) n (1 + m)) as (n1 & Hn1 & E1).
    { rewrite E, <- app_assoc. reflexivity. } { lia. } { lia. }
    rewrite E1. destruct n1 as [|n1]; [lia|]. exists n1. split; [lia|]. simpl.
    assert (Er : rd r (length pre + length s) = a).
    { rewrite <- app_length. apply (@rd_at r (pre ++ s) a v). rewrite E, <- !app_assoc. reflexivity. }
    rewrite Er. replace (length pre + length s <? rlen r - 1) with true by lia.
    destruct (ascii_dec a x) as [->|Hax]. { exfalso. apply Hx, in_or_app. right. now left. }
    simpl. unfold next. rewrite Er. destruct (ascii_dec a ch_open); [contradiction|]. simpl.
    rewrite app_length. simpl. f_equal. lia.
  - rewrite app_length in Hl, Hn. simpl in Hl, Hn. rewrite app_length in Hl, Hn. simpl in Hl, Hn.
    destruct (IH ltac:(intros Hi; apply Hx, in_or_app; auto) pre (ch_open :: t ++ ch_close :: v) n (2 + length t + m))
      as (n1 & Hn1 & E1).
    { rewrite E, <- app_assoc. simpl. rewrite <- app_assoc. reflexivity. } { lia. } { lia. }
    rewrite E1. destruct n1 as [|[|n1]]; [lia|lia|]. exists n1. split; [lia|].
    assert (Eg : win r ++ after r = (pre ++ s) ++ ch_open :: t ++ ch_close :: v).
    { rewrite E, <- !app_assoc. simpl. rewrite <- app_assoc. reflexivity. }
    cbn [fwd_loop].
    assert (Er : rd r (length pre + length s) = ch_open).
    { rewrite <- app_length. apply (@rd_at r (pre ++ s) _ _ Eg). }
    rewrite Er. replace (length pre + length s <? rlen r - 1) with true by lia.
    destruct (ascii_dec ch_open x) as [<-|_]; [congruence|]. cbn [negb andb].
    rewrite <- app_length. rewrite (@next_group _ _ paren_neq r _ _ _ _ Ht Eg) by (rewrite app_length; lia). cbn [fst].
    assert (Er2 : rd r (length (pre ++ s) + 1 + length t) = ch_close).
    { replace (length (pre ++ s) + 1 + length t) with (length ((pre ++ s) ++ ch_open :: t)).
      - apply (@rd_at r _ _ v). rewrite Eg, <- !app_assoc. reflexivity.
      - rewrite (app_length (pre ++ s)). simpl. lia. }
    rewrite Er2. rewrite app_length. replace (length pre + length s + 1 + length t <? rlen r - 1) with true by lia.
    destruct (ascii_dec ch_close x) as [<-|_]; [congruence|]. cbn [negb andb].
    unfold next. rewrite <- app_length, Er2. destruct (ascii_dec ch_close ch_open); [discriminate|]. cbn [fst].
    rewrite !app_length. simpl. rewrite app_length. simpl. f_equal. lia.
Qed.

(** r >> x finds the first x outside parentheses *)
Lemma find_fwd_found r x u ku v : x <> ch_open -> x <> ch_close -> pbal u ku -> ~ In x ku ->
  win r = u ++ x :: v -> find_fwd r x = (length u, true).
Proof.
  intros Hxo Hxc Hu Hx E. unfold find_fwd.
  assert (El : rlen r = length u + 1 + length v). { unfold rlen. rewrite E, app_length. simpl. lia. }
  assert (Ew : win r ++ after r = u ++ x :: v ++ after r) by (rewrite E, <- app_assoc; reflexivity).
  destruct (@fwd_loop_bal r x Hxo Hxc u ku Hu Hx [] (x :: v ++ after r) (rlen r) 1) as (n & Hn & E1).
  { exact Ew. } { simpl. lia. } { lia. }
  simpl in E1. rewrite E1. destruct n as [|n]; [lia|]. cbn [fwd_loop].
  rewrite (@rd_at r u x _ Ew). destruct (ascii_dec x x); [|congruence].
  rewrite andb_false_r. rewrite (@rd_at r u x _ Ew). destruct (ascii_dec x x); congruence.
Qed.

Lemma find_fwd_plain r x u v : Forall (fun a => a <> x /\ a <> ch_open) u ->
  win r = u ++ x :: v -> find_fwd r x = (length u, true).
Proof.
  intros Hu E. unfold find_fwd.
  assert (Ew : win r ++ after r = u ++ x :: v ++ after r) by (rewrite E, <- app_assoc; reflexivity).
  assert (G : forall w pre n, u = pre ++ w -> length w + 1 <= n ->
    fwd_loop r x n (length pre) = length u).
  { induction w as [|a w IH]; intros pre n Eu Hn; destruct n as [|n]; simpl in Hn; try lia; cbn [fwd_loop].
    - rewrite app_nil_r in Eu. subst pre. rewrite (@rd_at r u x _ Ew). destruct (ascii_dec x x); [|congruence].
      now rewrite andb_false_r.
    - assert (Er : rd r (length pre) = a).
      { apply (@rd_at r pre a (w ++ x :: v ++ after r)). rewrite Ew, Eu, <- app_assoc. reflexivity. }
      rewrite Er. rewrite Eu in Hu. apply Forall_app in Hu as [_ Hu]. destruct (Forall_inv Hu) as [Ha1 Ha2].
      destruct (ascii_dec a x); [contradiction|]. unfold next. rewrite Er.
      destruct (ascii_dec a ch_open); [contradiction|]. cbn [fst negb].
      replace (length pre <? rlen r - 1) with true.
      2:{ unfold rlen. rewrite E, Eu, !app_length. simpl. symmetry. apply Nat.ltb_lt. lia. }
      cbn [andb]. replace (S (length pre)) with (length (pre ++ [a])) by (rewrite app_length; simpl; lia).
      apply IH; [now rewrite <- app_assoc|lia]. }
  rewrite (G u []); [|reflexivity|unfold rlen; rewrite E, app_length; simpl; lia].
  rewrite (@rd_at r u x _ Ew). destruct (ascii_dec x x); congruence.
Qed.

Lemma find_fwd_none r x k : x <> ch_open -> x <> ch_close -> pbal (win r) k -> ~ In x k -> win r <> [] ->
  snd (find_fwd r x) = false.
Proof.
  intros Hxo Hxc Hb Hx Hn. unfold find_fwd. cbn [snd].
  remember (win r) as w eqn:Ew. destruct Hb as [|s k a H H1 H2|s k t k' H Ht]; [congruence| |].
  - assert (Ex : win r ++ after r = s ++ a :: after r) by (rewrite <- Ew, <- app_assoc; reflexivity).
    assert (El : rlen r = length s + 1). { unfold rlen. rewrite <- Ew, app_length. reflexivity. }
    destruct (@fwd_loop_bal r x Hxo Hxc s k H ltac:(intros Hi; apply Hx, in_or_app; auto) [] (a :: after r) (rlen r) 1)
      as (n & Hn' & E1). { exact Ex. } { simpl. lia. } { lia. }
    simpl in E1. rewrite E1. destruct n as [|n]; [lia|]. cbn [fwd_loop].
    replace (length s <? rlen r - 1) with false by lia. cbn [andb].
    rewrite (@rd_at r s a _ Ex). destruct (ascii_dec a x) as [->|]; auto.
    exfalso. apply Hx, in_or_app. right. now left.
  - assert (Ex : win r ++ after r = s ++ ch_open :: t ++ ch_close :: after r).
    { rewrite <- Ew, <- app_assoc. simpl. rewrite <- app_assoc. reflexivity. }
    assert (El : rlen r = length s + 2 + length t).
    { unfold rlen. rewrite <- Ew, app_length. simpl. rewrite app_length. simpl. lia. }
    destruct (@fwd_loop_bal r x Hxo Hxc s k H ltac:(intros Hi; apply Hx, in_or_app; auto) []
                (ch_open :: t ++ ch_close :: after r) (rlen r) 2)
      as (n & Hn' & E1). { exact Ex. } { simpl. lia. } { lia. }
    simpl in E1. rewrite E1. destruct n as [|[|n]]; [lia|lia|]. cbn [fwd_loop].
    rewrite (@rd_at r s ch_open _ Ex). replace (length s <? rlen r - 1) with true by lia.
    destruct (ascii_dec ch_open x); [congruence|]. cbn [negb andb].
    rewrite (@next_group _ _ paren_neq r s _ _ _ Ht Ex) by lia. cbn [fst].
    replace (length s + 1 + length t <? rlen r - 1) with false by lia. cbn [andb].
    replace (length s + 1 + length t) with (length (s ++ ch_open :: t)) by (rewrite app_length; simpl; lia).
    rewrite (@rd_at r (s ++ ch_open :: t) ch_close (after r)).
    + destruct (ascii_dec ch_close x); congruence.
    + rewrite Ex, <- app_assoc. reflexivity.
Qed.

Lemma bwd_loop_bal r x : x <> ch_open -> x <> ch_close ->
  forall v kv, pbal v kv -> ~ In x kv -> forall u w n m,
  win r ++ after r = u ++ v ++ w -> 1 <= length u -> length v + m <= n ->
  exists n', m <= n' /\ bwd_loop r x n (length u + length v - 1) = bwd_loop r x n' (length u - 1).
Proof.
  intros Hxo Hxc. induction 1 as [|s k a H IH H1 H2|s k t k' H IH Ht _]; intros Hx u w n m E Hu Hn.
  - exists n. split; [simpl in *; lia|]. simpl. now rewrite Nat.add_0_r.
  - rewrite app_length in Hn. simpl in Hn. rewrite app_length. simpl length.
    destruct n as [|n]; [lia|]. cbn [bwd_loop].
    assert (Er : rd r (length u + (length s + 1) - 1) = a).
    { replace (length u + (length s + 1) - 1) with (length (u ++ s)) by (rewrite app_length; lia).
      apply (@rd_at r (u ++ s) a w). rewrite E, <- !app_assoc. reflexivity. }
    rewrite Er. replace (0 <? length u + (length s + 1) - 1) with true by lia.
    destruct (ascii_dec a x) as [->|Hax]. { exfalso. apply Hx, in_or_app. right. now left. }
    cbn [negb andb]. unfold prev. rewrite Er. destruct (ascii_dec a ch_close); [contradiction|]. cbn [fst].
    destruct (IH ltac:(intros Hi; apply Hx, in_or_app; auto) u ([a] ++ w) n m) as (n1 & Hn1 & E1).
    { rewrite E, <- app_assoc. reflexivity. } { lia. } { lia. }
    exists n1. split; [lia|]. rewrite <- E1. f_equal. lia.
  - rewrite app_length in Hn. simpl in Hn. rewrite app_length in Hn. simpl in Hn.
    assert (Eg : win r ++ after r = (u ++ s) ++ ch_open :: t ++ ch_close :: w).
    { rewrite E, <- !app_assoc. simpl. rewrite <- app_assoc. reflexivity. }
    destruct n as [|[|n]]; [lia|lia|]. cbn [bwd_loop].
    replace (length u + length (s ++ ch_open :: t ++ [ch_close]) - 1) with (length (u ++ s) + 1 + length t).
    2:{ rewrite !app_length. simpl. rewrite app_length. simpl. lia. }
    assert (Er2 : rd r (length (u ++ s) + 1 + length t) = ch_close).
    { replace (length (u ++ s) + 1 + length t) with (length ((u ++ s) ++ ch_open :: t)).
      - apply (@rd_at r _ _ w). rewrite Eg, <- !app_assoc. reflexivity.
      - rewrite (app_length (u ++ s)). simpl. lia. }
    rewrite Er2. destruct (ascii_dec ch_close x); [congruence|].
    replace (0 <? length (u ++ s) + 1 + length t) with true by lia. cbn [negb andb].
    rewrite (@prev_group _ _ paren_neq r (u ++ s) _ _ _ Ht Eg). cbn [fst].
    rewrite (@rd_at r (u ++ s) ch_open _ Eg). destruct (ascii_dec ch_open x); [congruence|].
    replace (0 <? length (u ++ s)) with true by (rewrite app_length; lia). cbn [negb andb].
    unfold prev. rewrite (@rd_at r (u ++ s) ch_open _ Eg). destruct (ascii_dec ch_open ch_close); [discriminate|].
    cbn [fst].
    destruct (IH ltac:(intros Hi; apply Hx, in_or_app; auto) u (ch_open :: t ++ ch_close :: w) n m) as (m1 & Hn1 & E1).
    { rewrite Eg, <- app_assoc. reflexivity. } { lia. } { lia. }
    exists m1. split; [lia|]. rewrite <- E1, app_length. f_equal. lia.
Qed.

(** r << x finds the last x outside parentheses *)
Lemma find_bwd_found r x u v kv : x <> ch_open -> x <> ch_close -> pbal v kv -> ~ In x kv ->
  win r = u ++ x :: v -> find_bwd r x = (length u, true).
Proof.
  intros Hxo Hxc Hv Hx E. unfold find_bwd.
  assert (El : rlen r = length u + 1 + length v). { unfold rlen. rewrite E, app_length. simpl. lia. }
  assert (Ew : win r ++ after r = u ++ x :: v ++ after r) by (rewrite E, <- app_assoc; reflexivity).
  destruct (@bwd_loop_bal r x Hxo Hxc v kv Hv Hx (u ++ [x]) (after r) (rlen r) 1) as (n & Hn & E1).
  { rewrite Ew, <- app_assoc. reflexivity. } { rewrite app_length. simpl. lia. } { lia. }
  replace (rlen r - 1) with (length (u ++ [x]) + length v - 1) by (rewrite app_length; simpl; lia).
  rewrite E1, app_length. simpl length. replace (length u + 1 - 1) with (length u) by lia.
  destruct n as [|n]; [lia|]. cbn [bwd_loop].
  rewrite (@rd_at r u x _ Ew). destruct (ascii_dec x x); [|congruence].
  rewrite andb_false_r. rewrite (@rd_at r u x _ Ew). destruct (ascii_dec x x); congruence.
Qed.

Lemma find_bwd_none r x k : x <> ch_open -> x <> ch_close -> pbal (win r) k -> ~ In x k -> win r <> [] ->
  snd (find_bwd r x) = false.
Proof.
  intros Hxo Hxc Hb Hx Hn. unfold find_bwd. cbn [snd].
  destruct (bal_uncons Hb Hn) as [(a & v & kv & E1 & E2 & E3 & E4 & E5)|(t & kt & v & kv & E1 & E2 & E3 & E4)].
  - assert (Ex : win r ++ after r = [] ++ a :: v ++ after r) by (rewrite E1; reflexivity).
    destruct (@bwd_loop_bal r x Hxo Hxc v kv E5 ltac:(intros Hi; apply Hx; rewrite E2; now right) [a] (after r) (rlen r) 1)
      as (n & Hn' & E). { exact Ex. } { simpl. lia. } { unfold rlen. rewrite E1. simpl. lia. }
    replace (rlen r - 1) with (length [a] + length v - 1) by (unfold rlen; rewrite E1; simpl; lia).
    rewrite E. simpl length. destruct n as [|n]; [lia|]. simpl bwd_loop.
    change (rd r 0) with (rd r (length (@nil ascii))). rewrite (@rd_at r [] a _ Ex). destruct (ascii_dec a x) as [->|]; auto.
    exfalso. apply Hx. rewrite E2. now left.
  - assert (Ex : win r ++ after r = [] ++ ch_open :: t ++ ch_close :: v ++ after r).
    { rewrite E1. simpl. rewrite <- app_assoc. reflexivity. }
    destruct (@bwd_loop_bal r x Hxo Hxc v kv E4 ltac:(intros Hi; apply Hx; rewrite E2; now right)
       (ch_open :: t ++ [ch_close]) (after r) (rlen r) 2) as (n & Hn' & E).
    { rewrite Ex. simpl. rewrite <- app_assoc. reflexivity. } { simpl. lia. }
    { unfold rlen. rewrite E1. simpl. rewrite app_length. simpl. lia. }
    replace (rlen r - 1) with (length (ch_open :: t ++ [ch_close]) + length v - 1).
    2:{ unfold rlen. rewrite E1. simpl. rewrite !app_length. simpl. lia. }
    rewrite E. simpl length. rewrite app_length. simpl length.
    replace (S (length t + 1) - 1) with (length (@nil ascii) + 1 + length t) by (simpl; lia).
    destruct n as [|[|n]]; [lia|lia|]. cbn [bwd_loop].
    assert (Er : rd r (length (@nil ascii) + 1 + length t) = ch_close).
    { replace (length (@nil ascii) + 1 + length t) with (length (ch_open :: t)) by (simpl; lia).
      apply (@rd_at r (ch_open :: t) ch_close (v ++ after r)). rewrite Ex. reflexivity. }
    rewrite Er. destruct (ascii_dec ch_close x); [congruence|].
    replace (0 <? length (@nil ascii) + 1 + length t) with true by (simpl; lia). cbn [negb andb].
    rewrite (@prev_group _ _ paren_neq r [] _ _ _ E3 Ex). cbn [fst]. simpl.
    change (rd r 0) with (rd r (length (@nil ascii))). rewrite (@rd_at r [] _ _ Ex). destruct (ascii_dec ch_open x); congruence.
Qed.
