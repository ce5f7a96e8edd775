(** Proofs about PackIDSpace, GroupConsecutive, gather, arrayview. *)
From Verif Require Import Base ListLemmas MpiUtils.
From Coq Require Import Permutation.
Local Open Scope Z_scope.

(** ** PackIDSpace *)
Record pk_inv (seen : list Z) (s : pack_state) : Prop := PK {
  pk_dom : forall x, (exists v, assoc Z.eqb x (fst s) = Some v) <-> In x seen;
  pk_inj : forall x y v, assoc Z.eqb x (fst s) = Some v -> assoc Z.eqb y (fst s) = Some v -> x = y;
  pk_rng : forall v, (exists x, assoc Z.eqb x (fst s) = Some v) <-> 0 <= v < snd s;
  pk_len : snd s = Z.of_nat (length (nodup Z.eq_dec seen)) }.

Definition extends (s s' : pack_state) : Prop :=
  forall x v, assoc Z.eqb x (fst s) = Some v -> assoc Z.eqb x (fst s') = Some v.

Lemma nodup_snoc (l : list Z) x :
  length (nodup Z.eq_dec (l ++ [x])) =
  (length (nodup Z.eq_dec l) + if in_dec Z.eq_dec x l then 0 else 1)%nat.
Proof.
  assert (H : Permutation (nodup Z.eq_dec (l ++ [x])) (nodup Z.eq_dec (x :: l))).
  { apply NoDup_Permutation; try apply NoDup_nodup. intros y. rewrite !nodup_In, in_app_iff. simpl. tauto. }
  rewrite (Permutation_length H). simpl. destruct (in_dec Z.eq_dec x l); simpl; lia.
Qed.

Lemma pack_number_inv seen s x : pk_inv seen s ->
  pk_inv (seen ++ [x]) (pack_number s x) /\ extends s (pack_number s x) /\
  exists v, assoc Z.eqb x (fst (pack_number s x)) = Some v.
Proof.
  destruct s as [lk next]. intros [Hd Hi Hr Hl]. unfold pack_number. simpl in *.
  destruct (assoc Z.eqb x lk) as [v|] eqn:E.
  - split; [|split; [intros y w; auto|exists v; auto]].
    assert (In x seen) by (apply Hd; eauto).
    constructor; simpl; auto.
    + intros y. rewrite Hd, in_app_iff. simpl. split; [auto|]. intros [?|[<-|[]]]; auto.
    + rewrite Hl, nodup_snoc. destruct (in_dec Z.eq_dec x seen); [lia|contradiction].
  - assert (Hnx : ~ In x seen) by (intros H; apply Hd in H as [v Hv]; congruence).
    split; [|split].
    + constructor; simpl.
      * intros y. rewrite in_app_iff. simpl. destruct (Z.eqb_spec y x) as [->|Hne].
        { split; eauto. }
        { rewrite Hd. split; [auto|]. intros [?|[?|[]]]; auto; congruence. }
      * intros y z v. destruct (Z.eqb_spec y x) as [->|]; destruct (Z.eqb_spec z x) as [->|]; auto; intros H1 H2.
        { injection H1 as <-. assert (0 <= next < next) by (apply Hr; eauto). lia. }
        { injection H2 as <-. assert (0 <= next < next) by (apply Hr; eauto). lia. }
        { eapply Hi; eauto. }
      * intros v. split.
        { intros (y & Hy). destruct (Z.eqb_spec y x).
          - injection Hy as <-. lia.
          - assert (0 <= v < next) by (apply Hr; eauto). lia. }
        { intros Hv. destruct (Z.eq_dec v next) as [->|].
          - exists x. now rewrite Z.eqb_refl.
          - destruct (proj2 (Hr v)) as [y Hy]; [lia|]. exists y.
            destruct (Z.eqb_spec y x) as [->|]; [congruence|auto]. }
      * rewrite nodup_snoc. destruct (in_dec Z.eq_dec x seen); [contradiction|lia].
    + intros y v Hy. simpl. destruct (Z.eqb_spec y x) as [->|]; [simpl in Hy; congruence|auto].
    + exists next. simpl. now rewrite Z.eqb_refl.
Qed.

Lemma extends_refl s : extends s s. Proof. intros x v; auto. Qed.
Lemma extends_trans s1 s2 s3 : extends s1 s2 -> extends s2 s3 -> extends s1 s3.
Proof. intros H1 H2 x v H. auto. Qed.

Lemma fold_pack_number_inv l : forall seen s, pk_inv seen s ->
  pk_inv (seen ++ l) (fold_left pack_number l s) /\ extends s (fold_left pack_number l s).
Proof.
  induction l as [|x l IH]; intros seen s H; simpl.
  - rewrite app_nil_r. split; [auto|apply extends_refl].
  - destruct (pack_number_inv seen s x H) as (H1 & H2 & _).
    destruct (IH _ _ H1) as (H3 & H4). rewrite <- app_assoc in H3. simpl in H3.
    split; auto. eapply extends_trans; eauto.
Qed.

Lemma pack_buffer_inv l : forall seen s, pk_inv seen s ->
  let '(s', out) := pack_buffer s l in
  pk_inv (seen ++ l) s' /\ extends s s' /\
  forall s'', extends s' s'' ->
    Forall2 (fun x v => assoc Z.eqb x (fst s'') = Some v) l out.
Proof.
  induction l as [|x l IH]; intros seen s H; cbn [pack_buffer].
  - rewrite app_nil_r. split; [exact H|]. split; [apply extends_refl|constructor].
  - destruct (pack_number_inv seen s x H) as (H1 & H2 & v & Hv).
    specialize (IH _ _ H1). rewrite Hv.
    destruct (pack_buffer (pack_number s x) l) as [s' out].
    destruct IH as (H3 & H4 & H5). rewrite <- app_assoc in H3. simpl in H3.
    split; [auto|]. split; [eapply extends_trans; eauto|].
    intros s'' Hs''. constructor; auto.
Qed.

Lemma pack_ranks_inv maxlen others : forall seen s,
  pk_inv seen s -> Forall (fun l => (length l <= maxlen)%nat) others ->
  exists s' outs, pack_ranks maxlen s others = Ok (s', outs) /\
    pk_inv (seen ++ concat others) s' /\ extends s s' /\
    forall s'', extends s' s'' ->
      Forall2 (Forall2 (fun x v => assoc Z.eqb x (fst s'') = Some v)) others outs.
Proof.
  induction others as [|l others IH]; intros seen s H Hlen; cbn [pack_ranks].
  - exists s, []. simpl. rewrite app_nil_r. split; [reflexivity|]. split; [exact H|]. split; [apply extends_refl|constructor].
  - inversion Hlen; subst. destruct (Nat.ltb_spec maxlen (length l)); [lia|].
    pose proof (pack_buffer_inv l seen s H) as HB.
    destruct (pack_buffer s l) as [s1 out]. destruct HB as (H4 & H5 & H6).
    destruct (IH _ _ H4 H3) as (s' & outs & E & H7 & H8 & H9).
    rewrite E. cbn [obind fst snd]. exists s', (out :: outs).
    split; [reflexivity|]. simpl. rewrite app_assoc. split; [auto|].
    split; [eapply extends_trans; eauto|].
    intros s'' Hs''. constructor; auto. apply H6. eapply extends_trans; eauto.
Qed.

Lemma pack_id_space_spec maxlen ids :
  Forall (fun l => (length l <= maxlen)%nat) (tl ids) ->
  exists f : Z -> Z,
    pack_id_space maxlen ids = Ok (map (map f) ids) /\
    (forall x y, In x (concat ids) -> In y (concat ids) -> f x = f y -> x = y) /\
    (forall k, (exists x, In x (concat ids) /\ f x = k) <->
               0 <= k < Z.of_nat (length (nodup Z.eq_dec (concat ids)))).
Proof.
  destruct ids as [|root others]; intros Hlen.
  - exists (fun x => x). simpl. split; auto. split; [intros ? ? []|].
    intros k; split; [intros (x & [] & _)|lia].
  - simpl in Hlen. unfold pack_id_space.
    assert (H0 : pk_inv [] (([], 0) : pack_state)).
    { constructor; simpl; try discriminate; auto.
      - intros x; split; [intros (v & Hv); discriminate|intros []].
      - intros v; split; [intros (x & Hx); discriminate|lia]. }
    destruct (fold_pack_number_inv root [] _ H0) as (H1 & H2). simpl in H1.
    destruct (pack_ranks_inv maxlen others _ _ H1 Hlen) as (s' & outs & E & H3 & H4 & H5).
    rewrite E. cbn [obind fst snd].
    set (f := fun node => match assoc Z.eqb node (fst s') with Some v => v | None => 0 end).
    assert (Hf : forall x, In x (root ++ concat others) -> assoc Z.eqb x (fst s') = Some (f x)).
    { intros x Hx. apply (pk_dom _ _ H3) in Hx as [v Hv]. unfold f. now rewrite Hv. }
    exists f. split; [|split].
    + do 2 f_equal. simpl. f_equal.
      specialize (H5 s' (extends_refl s')). clear -H5.
      induction H5 as [|l out ls outs HL _ IH]; simpl; auto.
      f_equal; auto. clear -HL. induction HL as [|x v l out Hx _ IH]; simpl; auto.
      f_equal; auto. unfold f. now rewrite Hx.
    + intros x y Hx Hy Exy. apply (pk_inj _ _ H3 x y (f x)); [now apply Hf|].
      rewrite Exy. now apply Hf.
    + intros k. simpl concat. rewrite <- (pk_len _ _ H3), <- (pk_rng _ _ H3). split.
      * intros (x & Hx & <-). exists x. now apply Hf.
      * intros (x & Hx). assert (Hin : In x (root ++ concat others)) by (apply (pk_dom _ _ H3); eauto).
        exists x. split; auto. rewrite (Hf x Hin) in Hx. congruence.
Qed.

(** ** GroupConsecutive *)
Section GroupProofs.
  Context {K V : Type} (keqb : K -> K -> bool).
  Hypothesis keqb_eq : forall a b, keqb a b = true <-> a = b.

  Lemma key_ids_spec (l : list (K * V)) : forall k m ids top,
    key_ids_from keqb k m l = (ids, top) ->
    length ids = length l /\
    (forall i x y a b, nth_error l i = Some x -> nth_error l (S i) = Some y ->
       nth_error ids i = Some a -> nth_error ids (S i) = Some b ->
       (a = b <-> fst x = fst y)) /\
    top = last ids m /\ (m <= top)%nat.
  Proof.
    induction l as [|[k0 v0] l IH]; intros k m ids top H; cbn [key_ids_from] in H.
    - injection H as <- <-. simpl. repeat split; auto; destruct i; discriminate.
    - set (m' := if keqb k0 k then m else S m) in *.
      destruct (key_ids_from keqb k0 m' l) as [ids' top'] eqn:E.
      injection H as <- <-. pose proof (IH _ _ _ _ E) as (H1 & H2 & H3 & H4).
      split; [simpl; auto|]. split; [|split].
      + intros i x y a b. destruct i as [|i].
        * simpl. intros [= <-] Hy [= <-] Hb.
          destruct l as [|[k1 v1] l]; [discriminate|]. simpl in Hy. injection Hy as <-.
          cbn [key_ids_from] in E.
          destruct (key_ids_from keqb k1 (if keqb k1 k0 then m' else S m') l) as [i2 t2].
          injection E as <- <-. simpl in Hb. injection Hb as <-. simpl.
          destruct (keqb k1 k0) eqn:B.
          { apply keqb_eq in B. split; auto. }
          { split; [lia|]. intros ->. assert (keqb k1 k1 = true) by (now apply keqb_eq). congruence. }
        * apply H2.
      + rewrite H3. destruct ids' as [|b ids']; [reflexivity|].
        change (last (b :: ids') m' = last (b :: ids') m). clear.
        revert b; induction ids' as [|c l IH]; intros b; [reflexivity|apply IH].
      + unfold m' in H4. destruct (keqb k0 k); lia.
  Qed.

  Definition expand (groups : list (K * list V)) : list (K * V) :=
    flat_map (fun g => map (fun v => (fst g, v)) (snd g)) groups.
  (** Adjacent entries of a list have different keys. *)
  Definition adjacent_differ (groups : list (K * list V)) : Prop :=
    forall i g g', nth_error groups i = Some g -> nth_error groups (S i) = Some g' -> fst g <> fst g'.

  Lemma expand_app a b : expand (a ++ b) = expand a ++ expand b.
  Proof. unfold expand. now rewrite flat_map_app. Qed.

  Lemma skipn_nth {A} (l : list A) i x : nth_error l i = Some x -> skipn i l = x :: skipn (S i) l.
  Proof.
    revert i; induction l as [|a l IH]; intros [|i] H; try discriminate; simpl in *.
    - now injection H as ->.
    - now apply IH.
  Qed.

  Lemma firstn_snoc {A} (l : list A) i x : nth_error l i = Some x -> firstn (S i) l = firstn i l ++ [x].
  Proof.
    revert i; induction l as [|a l IH]; intros [|i] H; try discriminate; simpl in *.
    - now injection H as ->.
    - f_equal. now apply IH.
  Qed.

  (** Segment [i-gs, i) of lst. *)
  Lemma segment_split {A} (l : list A) i gs : (gs <= i)%nat ->
    firstn i l = firstn (i - gs) l ++ firstn gs (skipn (i - gs) l).
  Proof.
    intros H. rewrite <- (firstn_skipn (i - gs) (firstn i l)).
    rewrite firstn_firstn, Nat.min_l by lia. f_equal.
    rewrite skipn_firstn_comm. f_equal. lia.
  Qed.

  Lemma group_loop_inv (lst : list (K * V)) (kids : list nat) :
    length kids = S (length lst) ->
    (forall i x y a b, nth_error lst i = Some x -> nth_error lst (S i) = Some y ->
       nth_error kids i = Some a -> nth_error kids (S i) = Some b -> (a = b <-> fst x = fst y)) ->
    (forall a b, nth_error kids (length lst) = Some b -> nth_error kids (length lst - 1) = Some a ->
        (1 <= length lst)%nat -> a <> b) ->
    forall todo i prev gs groups,
      (i + todo = S (length lst))%nat -> (1 <= gs <= i)%nat ->
      (todo <> 0 -> nth_error kids (i - 1) = Some prev)%nat ->
      (todo = 0 -> gs = 1)%nat ->
      (forall k, (i - gs <= k < i)%nat -> (todo <> 0)%nat ->
         exists x y, nth_error lst k = Some x /\ nth_error lst (i - 1) = Some y /\ fst x = fst y) ->
      expand groups = firstn (i - gs) lst ->
      Forall (fun g => snd g <> []) groups -> adjacent_differ groups ->
      (forall g x, groups <> [] -> nth_error groups (length groups - 1) = Some g ->
          nth_error lst (i - gs) = Some x -> fst g <> fst x) ->
      exists res, group_loop lst kids todo i prev gs groups = Ok res /\
        expand res = lst /\ Forall (fun g => snd g <> []) res /\ adjacent_differ res.
  Proof.
    intros Hkl Hk Hklast. induction todo as [|todo IH];
      intros i prev gs groups Hi Hgs Hprev Hz Hseg Hexp Hne Hadj Hlastg.
    - cbn [group_loop]. exists groups. repeat split; auto.
      rewrite (Hz eq_refl) in Hexp. replace (i - 1)%nat with (length lst) in Hexp by lia.
      now rewrite firstn_all in Hexp.
    - cbn [group_loop].
      destruct (nth_error kids i) as [kid|] eqn:Ekid.
      2:{ apply nth_error_None in Ekid. lia. }
      unfold vget at 1. rewrite Ekid. cbn [obind].
      specialize (Hprev ltac:(lia)).
      destruct (nth_error lst (i - 1)) as [e|] eqn:Ee.
      2:{ apply nth_error_None in Ee. lia. }
      destruct (Nat.eqb_spec kid prev) as [->|Hkne].
      + (* same group: i < length lst *)
        destruct (nth_error lst i) as [x|] eqn:Ex.
        2:{ apply nth_error_None in Ex. assert (i = length lst) by lia. subst i.
            exfalso. exact (Hklast prev prev Ekid Hprev ltac:(lia) eq_refl). }
        assert (Hfx : fst e = fst x).
        { replace i with (S (i - 1)) in Ekid, Ex by lia.
          apply (Hk (i - 1)%nat e x prev prev); auto. }
        apply IH; auto; try lia.
        * intros _. replace (S i - 1)%nat with i by lia. auto.
        * apply nth_error_Some_lt in Ex. lia.
        * intros k Hk1 _. replace (S i - 1)%nat with i by lia.
          destruct (Nat.eq_dec k i) as [->|].
          { exists x, x. auto. }
          { destruct (Hseg k) as (a & b & Ha & Hb & Eab); [lia|lia|].
            exists a, x. repeat split; auto. congruence. }
      + unfold vget at 1. rewrite Ee. cbn [obind].
        set (seg := firstn gs (skipn (i - gs) lst)).
        assert (Hsegkeys : forall z, In z seg -> fst z = fst e).
        { intros z Hz1. apply In_nth_error in Hz1 as (q & Hq).
          assert (Hq2 : (q < gs)%nat).
          { apply nth_error_Some_lt in Hq. unfold seg in Hq. rewrite firstn_length in Hq. lia. }
          assert (Hq3 : nth_error lst (i - gs + q) = Some z).
          { rewrite <- (firstn_skipn (i - gs) lst).
            rewrite nth_error_app2 by (rewrite firstn_length; lia).
            assert (Hlen : length (firstn (i - gs) lst) = (i - gs)%nat) by (rewrite firstn_length; lia).
            rewrite Hlen. replace (i - gs + q - (i - gs))%nat with q by lia.
            unfold seg in Hq. rewrite <- (firstn_skipn gs (skipn (i - gs) lst)).
            rewrite nth_error_app1; auto. now apply nth_error_Some_lt in Hq. }
          destruct (Hseg (i - gs + q)%nat) as (a & b & Ha & Hb & Eab); [lia|lia|].
          congruence. }
        assert (Hsegexp : map (fun v => (fst e, v)) (map snd seg) = seg).
        { rewrite map_map. rewrite <- (map_id seg) at 2. apply map_ext_in.
          intros [a b] Hab. simpl. rewrite <- (Hsegkeys (a, b) Hab). reflexivity. }
        assert (Hseglen : length seg = gs).
        { unfold seg. rewrite firstn_length, skipn_length. lia. }
        assert (Hfirst : exists z, nth_error lst (i - gs) = Some z /\ fst z = fst e).
        { destruct (Hseg (i - gs)%nat) as (a & b & Ha & Hb & Eab); [lia|lia|].
          exists a. split; auto. congruence. }
        destruct Hfirst as (z & Hz1 & Hz2).
        apply IH; try lia.
        * intros _. now replace (S i - 1)%nat with i by lia.
        * intros k Hk1 Ht. assert (k = i) by lia. subst k.
          replace (S i - 1)%nat with i by lia.
          destruct (nth_error lst i) as [x|] eqn:Ex; [exists x, x; auto|].
          apply nth_error_None in Ex. lia.
        * replace (S i - 1)%nat with i by lia.
          rewrite expand_app. unfold expand at 2. simpl. rewrite app_nil_r, Hsegexp, Hexp.
          symmetry. apply segment_split. lia.
        * apply Forall_app. split; auto. constructor; auto. simpl.
          intros He. apply map_eq_nil in He. rewrite He in Hseglen. simpl in Hseglen. lia.
        * intros q g g' Hg Hg'.
          destruct (Nat.eq_dec (S q) (length groups)) as [Eq|Nq].
          { rewrite nth_error_app1 in Hg by lia.
            rewrite nth_error_app2 in Hg' by lia. rewrite Eq, Nat.sub_diag in Hg'. simpl in Hg'.
            injection Hg' as <-. simpl. rewrite <- Hz2.
            apply (Hlastg g z); auto.
            - intros ->. simpl in Eq. lia.
            - now replace (length groups - 1)%nat with q by lia. }
          { apply nth_error_Some_lt in Hg' as Hlt. rewrite app_length in Hlt. simpl in Hlt.
            rewrite nth_error_app1 in Hg, Hg' by lia. eapply Hadj; eauto. }
        * intros g x _ Hg Hx. rewrite app_length in Hg. simpl in Hg.
          replace (length groups + 1 - 1)%nat with (length groups) in Hg by lia.
          rewrite nth_error_app2, Nat.sub_diag in Hg by lia. simpl in Hg. injection Hg as <-. simpl.
          replace (S i - 1)%nat with (S (i - 1)) in Hx by lia.
          replace i with (S (i - 1)) in Ekid by lia.
          intros Efe. apply Hkne. symmetry. apply (Hk (i - 1)%nat e x prev kid); auto.
  Qed.

  Lemma group_consecutive_spec (lst : list (K * V)) :
    exists res, group_consecutive keqb lst = Ok res /\
      expand res = lst /\ Forall (fun g => snd g <> []) res /\ adjacent_differ res.
  Proof.
    destruct lst as [|[k0 v0] l].
    - exists []. repeat split; auto. intros [|i]; discriminate.
    - unfold group_consecutive. set (lst := (k0, v0) :: l).
      destruct (key_ids_from keqb k0 0 lst) as [ids top] eqn:E.
      pose proof (key_ids_spec lst _ _ _ _ E) as (H1 & H2 & H3 & H4).
      assert (Hl : (1 <= length lst)%nat) by (unfold lst; simpl; lia).
      assert (Hids : exists b t, ids = b ++ [t] /\ top = t).
      { destruct ids as [|t b _] using rev_ind; [simpl in H1; lia|].
        rewrite last_last in H3. exists b, t. auto. }
      destruct Hids as (b & t & -> & Et). rewrite app_length in H1. simpl in H1.
      apply group_loop_inv; auto; try lia.
      + rewrite !app_length. simpl. lia.
      + intros i x y p q Hx Hy Hp Hq. apply nth_error_Some_lt in Hy as Hlt.
        assert (HL : length (b ++ [t]) = length lst) by (rewrite app_length; simpl; lia).
        rewrite nth_error_app1 in Hp, Hq by lia. eapply H2; eauto.
      + intros p q Hp Hq _.
        assert (HL : length (b ++ [t]) = length lst) by (rewrite app_length; simpl; lia).
        rewrite nth_error_app2 in Hp by lia. rewrite HL, Nat.sub_diag in Hp. simpl in Hp. injection Hp as <-.
        rewrite nth_error_app1 in Hq by lia.
        assert (HLb : (length b = length lst - 1)%nat) by (rewrite <- HL, app_length; simpl; lia).
        rewrite nth_error_app2 in Hq by lia.
        replace (length lst - 1 - length b)%nat with 0%nat in Hq by lia. simpl in Hq. injection Hq as <-. lia.
      + intros _. unfold lst in E. cbn [key_ids_from] in E.
        assert (keqb k0 k0 = true) by (now apply keqb_eq). rewrite H in E.
        destruct (key_ids_from keqb k0 0 l) as [i2 t2]. injection E as E1 E2.
        rewrite <- E1. reflexivity.
      + intros k Hk1 _. assert (k = 0)%nat by lia. subst k. exists (k0, v0), (k0, v0). auto.
      + intros [|i]; discriminate.
  Qed.
End GroupProofs.
