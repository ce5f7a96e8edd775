(** Initialisation and the copies around the material call. *)
From Verif Require Import Base ListLemmas Strings DataModel DataProofs Loops ElemDataModel ElemDataSpec ElemDataProofs ElemDataProofs2.
From Coq Require Import NArith.
Set Implicit Arguments.
Local Open Scope nat_scope.
Local Open Scope list_scope.
Local Notation length := List.length.

Lemma chars_eqb_neq a b : chars_eqb a b = false <-> a <> b.
Proof. rewrite <- Bool.not_true_iff_false, chars_eqb_eq. tauto. Qed.

Section Init.
  Context {T : Type} (zero one : T) (of_int : Z -> T).
  Variables (b : block T).
  Let nip := b_nip b.
  Let names := b_labels b.
  Let stride := per_element nip names.
  Let ne := length (b_elems b).
  Hypothesis Hgood : good_states names.
  Hypothesis Hipt : forall s, In s names -> starts_with (lit "ipt") s = false \/ s = lit "ipt_id".
  Hypothesis Hmax : (N.of_nat nip <= INT_MAX)%N.

  Lemma initial_none : forall i q, initial_values (b_states b) (point_label names i q) = None.
  Proof.
    intros i q. unfold initial_values.
    assert (G : forall l, (forall s, In s (map fst l) -> starts_with (lit "ipt") s = false \/ s = lit "ipt_id") ->
      fold_left (fun (acc : option T) e => if chars_eqb (fst e) (point_label names i q) then Some (snd e) else acc) l None = None).
    { clear Hgood Hipt Hmax. induction l as [|(s & v) l IH]; intros H; [reflexivity|]. cbn [fold_left fst snd].
      destruct (chars_eqb s (point_label names i q)) eqn:E; [|apply IH; intros; apply H; now right].
      apply chars_eqb_eq in E. specialize (H s (or_introl eq_refl)). subst s. unfold point_label in H.
      rewrite Z_N_ipt, add_ipt_form, starts_with_app in H. destruct H as [H|H]; [discriminate|].
      pose proof (digits_of_digits (N.of_nat (i + 1))) as Hd. pose proof (undec_digits_of (N.of_nat (i + 1))) as Hn.
      destruct (digits_of (N.of_nat (i + 1))) as [|c r]; [cbn in Hn; lia|]. inversion Hd; subst. cbn in H. injection H as -> _. discriminate. }
    apply G. exact Hipt.
  Qed.


  Definition special (l : chars) : bool :=
    chars_eqb l (lit "global_elem_id") || chars_eqb l (lit "ipt_id") ||
    (chars_eqb l (lit "deformation_gradient_xx") || chars_eqb l (lit "deformation_gradient_yy") || chars_eqb l (lit "deformation_gradient_zz")).
  Lemma branch : forall e i q iv, e < ne -> i < nip -> valid names q -> (special (plain_label names q) = false -> iv = zero) ->
    (if chars_eqb (plain_label names q) (lit "global_elem_id") then do g <- vat (b_elems b) e; Ok (of_int g)
     else if chars_eqb (plain_label names q) (lit "ipt_id") then do k <- label_to_ipt_number (point_label names i q); Ok (of_int k)
     else if chars_eqb (plain_label names q) (lit "deformation_gradient_xx") || chars_eqb (plain_label names q) (lit "deformation_gradient_yy")
          || chars_eqb (plain_label names q) (lit "deformation_gradient_zz") then Ok one
     else Ok iv) = Ok (start_value zero one of_int b e i q).
  Proof.
    intros e i q iv He Hi Hq Hiv. destruct q as [c|c|s]; cbn [plain_label start_value] in *.
    - cbn [valid] in Hq. do 9 (destruct c as [|c]; [first [reflexivity|cbn; rewrite Hiv; reflexivity]|]). lia.
    - cbn [valid] in Hq. do 6 (destruct c as [|c]; [cbn; rewrite Hiv; reflexivity|]). lia.
    - cbn [valid] in Hq. fold names. unfold special in Hiv. destruct (chars_eqb (nth s names []) (lit "global_elem_id")) eqn:E1.
      + rewrite (@vat_some _ _ _ _ (nth_error_nth' (b_elems b) 0%Z He)). reflexivity.
      + destruct (chars_eqb (nth s names []) (lit "ipt_id")) eqn:E2.
        * unfold point_label. rewrite Z_N_ipt, number_add by lia. reflexivity.
        * assert (Hin : In (nth s names []) names) by now apply nth_In.
          destruct Hgood as (_ & _ & Hf & _).
          assert (E3 : forall c l, c < 9 -> l = plain_label [] (DefGrad c) -> chars_eqb (nth s names []) l = false).
          { intros c l Hc ->. apply chars_eqb_neq. now apply Hf. }
          rewrite !(E3 0 (lit "deformation_gradient_xx")), !(E3 1 (lit "deformation_gradient_yy")), !(E3 2 (lit "deformation_gradient_zz")) in * by (reflexivity || lia).
          cbn [orb] in *. now rewrite Hiv.
  Qed.

  Lemma init_spec (n np1 : list T) : length n = ne * stride -> length np1 = ne * stride ->
    exists n', initialize_element_data zero one of_int ne (b_elems b) (all_labels nip names) (b_states b) (n, np1) = Ok (n', n') /\
      length n' = ne * stride /\
      forall e i q, e < ne -> i < nip -> valid names q -> stored n' nip names e i q = Some (start_value zero one of_int b e i q).
  Proof.
    intros Ln Lnp1. unfold initialize_element_data. rewrite all_labels_length. fold stride.
    assert (E0 : oloop 0 ne (fun i_elem (_ : unit) => do _ <- vat (b_elems b) i_elem; Ok tt) tt = Ok tt).
    { apply (@oloop_const _ ne _ tt (fun _ => tt)); auto. intros k Hk. rewrite (@vat_some _ _ _ _ (nth_error_nth' (b_elems b) 0%Z Hk)). reflexivity. }
    rewrite E0. cbn [obind].
    set (val := fun e v => match nth_error (quantities (length names)) (v mod per_point names) with Some q => start_value zero one of_int b e (v / per_point names) q | None => zero end).
    assert (Hval : forall e i q, valid names q -> val e (slot names i q) = start_value zero one of_int b e i q).
    { intros e i q Hq. unfold val. rewrite slot_idx. pose proof (@idx_lt _ _ Hq).
      replace ((i * per_point names + idx q) mod per_point names) with (idx q) by (rewrite Nat.add_comm, Nat.mod_add by lia; symmetry; apply Nat.mod_small; lia).
      replace ((i * per_point names + idx q) / per_point names) with i by (rewrite Nat.add_comm, Nat.div_add by lia; rewrite Nat.div_small by lia; lia).
      now rewrite quantities_nth. }
    pose (Inv := fun (k : nat) (d : list T * list T) => length (fst d) = ne * stride /\ length (snd d) = ne * stride /\
       forall e v, e < ne -> v < k -> nth_error (fst d) (e * stride + v) = Some (val e v) /\ nth_error (snd d) (e * stride + v) = Some (val e v)).
    edestruct (@oloop_ind (list T * list T) Inv 0 stride) as (d & E & Ld1 & Ld2 & Hd).
    4:{ rewrite E. destruct d as [n' np']. cbn [fst snd] in *.
        assert (Eq : np' = n').
        { apply nth_ext with (d := zero) (d' := zero); [congruence|]. intros k Hk. rewrite Ld2 in Hk.
          destruct (@flat_index ne stride k Hk) as (e & v & He & Hv & ->). destruct (Hd e v He Hv) as [H1 H2].
          rewrite (nth_error_nth _ _ zero H1). now rewrite (nth_error_nth _ _ zero H2). }
        subst np'. exists n'. split; auto. split; auto. intros e i q He Hi Hq. unfold stored. fold stride.
        pose proof (@slot_lt _ _ _ _ Hi Hq) as Hs. destruct (Hd e (slot names i q) He Hs) as [H1 _]. rewrite H1. f_equal. now apply Hval. }
    - lia.
    - unfold Inv. cbn [fst snd]. split; auto. split; auto. intros; lia.
    - intros v [n1 np2] Hv (L1 & L2 & H). cbn [fst snd] in L1, L2, H.
      destruct (@slot_onto nip names v ltac:(unfold stride in *; lia)) as (i & q & Hi & Hq & ->).
      rewrite (@vget_some _ _ _ _ (@all_labels_nth _ _ _ _ Hi Hq)). cbn [obind]. rewrite remove_point_label. cbn [obind]. rewrite initial_none.
      pose (Inv2 := fun (k : nat) (s : T * (list T * list T)) => (special (plain_label names q) = false -> fst s = zero) /\
         length (fst (snd s)) = ne * stride /\ length (snd (snd s)) = ne * stride /\
         (forall e v, e < ne -> v < slot names i q -> nth_error (fst (snd s)) (e * stride + v) = Some (val e v) /\ nth_error (snd (snd s)) (e * stride + v) = Some (val e v)) /\
         (forall e, e < k -> nth_error (fst (snd s)) (e * stride + slot names i q) = Some (val e (slot names i q)) /\
                             nth_error (snd (snd s)) (e * stride + slot names i q) = Some (val e (slot names i q)))).
      edestruct (@oloop_ind (T * (list T * list T)) Inv2 0 ne) as (s & E & _ & Ls1 & Ls2 & Hs1 & Hs2).
      4:{ rewrite E. cbn [obind]. eexists. split; [reflexivity|]. split; auto. split; auto.
          intros e v He Hv'. destruct (Nat.eq_dec v (slot names i q)) as [->|Hne]; [now apply Hs2|apply Hs1; auto; lia]. }
      + lia.
      + unfold Inv2. cbn [fst snd]. split; auto. split; auto. split; auto. split; auto. intros; lia.
      + intros e (iv & (m1 & m2)) He (Hiv & M1 & M2 & HM1 & HM2). cbn [fst snd] in *.
        rewrite (@branch e i q iv) by (auto; lia). cbn [obind].
        assert (Hin : e * stride + slot names i q < ne * stride) by nia.
        rewrite (@vset_ok _ m1) by lia. cbn [obind]. rewrite (@vset_ok _ m2) by lia. cbn [obind].
        eexists. split; [reflexivity|]. unfold Inv2. cbn [fst snd]. rewrite !list_set_length.
        split.
        { intros Hsp. pose proof (@branch e i q zero ltac:(lia) Hi Hq ltac:(auto)) as Hb.
          unfold special in Hsp. apply Bool.orb_false_iff in Hsp as [Hsp Hsp3]. apply Bool.orb_false_iff in Hsp as [Hsp1 Hsp2].
          rewrite Hsp1, Hsp2, Hsp3 in Hb. congruence. }
        split; auto. split; auto. split.
        * intros e' v' He' Hv'. rewrite !nth_error_list_set.
          destruct (Nat.eqb_spec (e' * stride + v') (e * stride + slot names i q)) as [Heq|Hne]; cbn [andb]; [|now apply HM1].
          exfalso. destruct (@flat_index_inj stride e' v' e (slot names i q)); auto; lia.
        * intros e' He'. rewrite !nth_error_list_set.
          destruct (Nat.eqb_spec (e' * stride + slot names i q) (e * stride + slot names i q)) as [Heq|Hne]; cbn [andb].
          -- assert (e' = e) by nia. subst e'.
             destruct (Nat.ltb_spec (e * stride + slot names i q) (length m1)); [|lia].
             destruct (Nat.ltb_spec (e * stride + slot names i q) (length m2)); [|lia]. rewrite Hval by auto. auto.
          -- apply HM2. destruct (Nat.eq_dec e' e); [subst; lia|lia].
  Qed.
End Init.
