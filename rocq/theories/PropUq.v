(** C42 (uncertainty quantification: sample parameters and sample forces), C66 (trajectories of the
    samples), C67 (the text of the uncertain parameters and the samples file). *)
From Coq Require Import NArith Reals Lra.
From Verif Require Import Base Strings InputModel InputSpec InputProofs InputProofs2 MeshTextModel MeshTextProofs Loops ListLemmas BcModel BcSpec BcProofs IntegratorModel
  UqModel UqSpec UqProofs UqProofs2 UqProofs3 UqProofs4 UqProofs5.
Set Implicit Arguments.
Local Open Scope nat_scope.
Local Open Scope list_scope.
Local Notation length := List.length.

Lemma Rsum_one n i (f : nat -> R) : i < n -> (forall k, k <> i -> f k = 0%R) -> Rsum n f = f i.
Proof.
  intros Hi H. assert (Z : forall m, m <= i -> Rsum m f = 0%R).
  { induction m; intros Hm; cbn [Rsum]; auto. rewrite IHm, (H m) by lia. ring. }
  induction n as [|n IH]; [lia|]. cbn [Rsum]. destruct (Nat.eq_dec n i) as [->|Hn].
  - rewrite Z by lia. ring.
  - rewrite IH, (H n) by lia. ring.
Qed.
Lemma Rsum_none n (f : nat -> R) : (forall k, f k = 0%R) -> Rsum n f = 0%R.
Proof. intros H. induction n; cbn [Rsum]; auto. rewrite IHn, H. ring. Qed.
Lemma names_true u i b k : names u i b k = true <-> nth_error (uq_order u) i = Some (b, k).
Proof.
  unfold names. destruct (nth_error (uq_order u) i) as [[b' k']|]; [|split; discriminate]. cbn [fst snd].
  destruct (Z.eqb_spec b' b) as [->|Hb]; cbn [andb]; [|split; [discriminate|congruence]].
  destruct (list_eq_dec ascii_dec k' k) as [->|Hk]; split; intros H; congruence.
Qed.

(** C42: with the uncertain parameters and a sample table of the right shape, in which every
    uncertain parameter belongs to a block with nominal parameters, every sample gets for every
    parameter of every such block the nominal value plus range times sample value, summed over the
    uncertain parameters with that block and name; other blocks have no sample parameters. *)
Theorem C42_scaled :
  forall u q, samples_ok (length (uq_order u)) q ->
  (forall b name, In (b, name) (uq_order u) -> assoc Z.eqb b (uq_nominal u) <> None) ->
  exists p, scale_parameters u q = Ok p /\
    forall b s, s < uq_nexact q + uq_napprox q ->
      match assoc Z.eqb b (uq_nominal u) with
      | Some nom => exists r, sample_parameters p b s = Ok r /\
          forall name, param r name = (param nom name + perturbation u (row (uq_xi q) s) b name)%R
      | None => sample_parameters p b s = UB
      end.
Proof.
  intros u q Hq Ho. destruct (@scale_ok u q Hq Ho) as (p & E & H). exists p. split; auto. intros b s Hs. specialize (H b).
  destruct (assoc Z.eqb b (uq_nominal u)) as [nom|].
  - destruct H as (rows & E1 & E2 & E3). unfold sample_parameters. rewrite E1. rewrite (@vget_nth params [] rows s) by lia.
    eexists. split; [reflexivity|]. intros name. rewrite E3 by auto. unfold perturbation, partial_sum. now destruct (s <? 0).
  - unfold sample_parameters. rewrite H. now destruct s.
Qed.
Print Assumptions C42_scaled.

(** C67: what the text says is what is used.  The lines "uq parameters" name distinct blocks and, in
    each line, distinct parameters, with numbers that stod accepts; then parameter number i of the
    sample table is the i-th named parameter in the order of the lines, and sample s of parameter
    [name] of the block of line l is its nominal value plus range times the i-th value of row s;
    parameters that are not named keep their nominal value in every sample.  The sample table is any
    text that ReadSamples accepts. *)
Theorem C67_parameters :
  forall stod parse_material value nominal ls file q,
  NoDup (map ul_block ls) ->
  (forall l, In l ls -> NoDup (map fst (ul_ranges l)) /\ Forall word (flat (ul_ranges l)) /\
     (forall e, In e (ul_ranges l) -> stod (snd e) = Ok (value (snd e))) /\
     parse_material (ul_nominal l) = Ok (nominal (ul_nominal l))) ->
  read_samples stod (length (lines_order ls)) file = Ok q ->
  exists u p,
    parse_blocks stod parse_material (map (fun l => (line_text l, ul_block l, ul_nominal l)) ls) = Ok u /\
    uq_order u = lines_order ls /\ scale_parameters u q = Ok p /\
    forall l s, In l ls -> s < uq_nexact q + uq_napprox q ->
      exists r, sample_parameters p (ul_block l) s = Ok r /\
        (forall i name text, nth_error (lines_order ls) i = Some (ul_block l, name) -> In (name, text) (ul_ranges l) ->
           param r name = (param (nominal (ul_nominal l)) name + value text * at_ (row (uq_xi q) s) i)%R) /\
        (forall name, ~ In name (map fst (ul_ranges l)) -> param r name = param (nominal (ul_nominal l)) name).
Proof.
  intros stod parse_material value nominal ls file q Hd Hl Hr.
  destruct (@parse_ok stod parse_material value nominal ls Hd) as (u & E & Eo & _ & Hu).
  { rewrite Forall_forall. intros l Hi. destruct (Hl l Hi) as (_ & H). exact H. }
  pose proof (@read_samples_shape stod parse_material value nominal _ _ _ Hr) as Hq. rewrite <- Eo in Hq.
  assert (Hin : forall b name, In (b, name) (lines_order ls) -> exists l, In l ls /\ ul_block l = b /\ In name (map fst (ul_ranges l))).
  { clear. induction ls as [|l ls IH]; intros b name Hi; [destruct Hi|]. cbn [lines_order] in Hi. apply in_app_iff in Hi. destruct Hi as [Hi|Hi].
    - apply in_map_iff in Hi. destruct Hi as (e & Ee & Hi). apply pair_equal_spec in Ee. destruct Ee as [Eb En]. exists l. split; [now left|]. split; auto. rewrite <- En. now apply in_map.
    - destruct (IH _ _ Hi) as (l' & H1 & H2). exists l'. split; [now right|auto]. }
  destruct (@C42_scaled u q Hq) as (p & Ep & Hp).
  { intros b name Hi. rewrite Eo in Hi. destruct (Hin _ _ Hi) as (l & H1 & <- & _). destruct (Hu l H1) as (-> & _). discriminate. }
  exists u, p. split; [exact E|]. split; auto. split; auto. intros l s Hi Hs. specialize (Hp (ul_block l) s Hs).
  destruct (Hu l Hi) as (En & Hrange). rewrite En in Hp. destruct Hp as (r & Er & Hr'). exists r. split; auto.
  destruct (Hl l Hi) as (Hn & _). split.
  - intros i name text Ei Hit. rewrite Hr'. f_equal. unfold perturbation.
    assert (Hnd : NoDup (lines_order ls)).
    { clear -Hd Hl. induction ls as [|m ls IH]; [constructor|]. cbn [lines_order]. cbn [map] in Hd. inversion Hd as [|? ? Hm Hd']; subst.
      assert (Hsplit : forall (A : Type) (a b : list A), NoDup a -> NoDup b -> (forall x, In x a -> ~ In x b) -> NoDup (a ++ b)).
      { clear. induction a as [|x a IH]; intros b Ha Hb Hx; auto. inversion Ha; subst. cbn [app]. constructor.
        - intros H. apply in_app_iff in H. destruct H; [contradiction|]. apply (Hx x); auto. now left.
        - apply IH; auto. intros y Hy. apply Hx. now right. }
      assert (Hin' : forall b name, In (b, name) (lines_order ls) -> In b (map ul_block ls)).
      { clear. induction ls as [|l ls IH]; intros b name Hi; [destruct Hi|]. cbn [lines_order] in Hi. apply in_app_iff in Hi. destruct Hi as [Hi|Hi].
        - apply in_map_iff in Hi. destruct Hi as (e & Ee & _). apply pair_equal_spec in Ee. destruct Ee as [Eb En]. left. auto.
        - right. eauto. }
      apply Hsplit.
      - destruct (Hl m (or_introl eq_refl)) as (Hn & _). clear -Hn. induction (ul_ranges m) as [|e r IH]; [constructor|]. cbn [map] in *. inversion Hn; subst. constructor; auto.
        intros H. apply in_map_iff in H. destruct H as (e' & Ee & Hi). apply pair_equal_spec in Ee. destruct Ee as [_ En]. apply H1. rewrite <- En. now apply in_map.
      - apply IH; auto. intros l Hi. apply Hl. now right.
      - intros [b name] Ha Hb. apply in_map_iff in Ha. destruct Ha as (e & Ee & _). apply pair_equal_spec in Ee. destruct Ee as [Eb _]. apply Hm. rewrite Eb. eapply Hin'. eauto. }
    rewrite (@Rsum_one _ i).
    + rewrite (proj2 (names_true u i (ul_block l) name)) by now rewrite Eo. now rewrite (Hrange Hn _ _ Hit).
    + apply nth_error_Some. rewrite Eo. congruence.
    + intros k Hk. destruct (names u k (ul_block l) name) eqn:Ek; auto. apply names_true in Ek. rewrite Eo in Ek.
      exfalso. apply Hk. eapply NoDup_nth_error; [exact Hnd| |congruence]. apply nth_error_Some. congruence.
  - intros name Hnot. rewrite Hr'. unfold perturbation. rewrite Rsum_none; [ring|]. intros k.
    destruct (names u k (ul_block l) name) eqn:Ek; auto. apply names_true in Ek. rewrite Eo in Ek. apply nth_error_In in Ek.
    destruct (Hin _ _ Ek) as (l' & Hi' & Eb & Hname).
    assert (l' = l). { clear -Hd Hi Hi' Eb. induction ls as [|m ls IH]; [destruct Hi|]. cbn [map] in Hd. inversion Hd as [|? ? Hm Hd']; subst.
      destruct Hi as [<-|Hi], Hi' as [<-|Hi']; auto.
      - exfalso. apply Hm. rewrite <- Eb. now apply in_map.
      - exfalso. apply Hm. rewrite Eb. now apply in_map. }
    subst l'. contradiction.
Qed.
Print Assumptions C67_parameters.

(** A concrete case of the hypotheses: two lines, three uncertain parameters, one exact and one
    approximate sample. *)
Definition ex_stod (w : chars) : outcome R := match int_prefix w with Some (z, []) => Ok (IZR z) | _ => Throw end.
Definition ex_value (w : chars) : R := match int_prefix w with Some (z, []) => IZR z | _ => 0%R end.
Definition ex_nominal (_ : chars) : params := [(lit "bulk_modulus", 100%R); (lit "shear_modulus", 50%R)].
Definition ex_lines : list uq_line :=
  [UqLine 1 [(lit "bulk_modulus", lit "10"); (lit "shear_modulus", lit "5")] (lit "m1");
   UqLine 7 [(lit "shear_modulus", lit "3")] (lit "m2")].
Definition ex_text : samples_text :=
  SamplesText [[lit "1"; lit "0"; lit "-2"]] [([lit "0"; lit "0"; lit "0"], [lit "1"; lit "0"])].
Lemma ex_word w : forallb (fun c => negb (isspace c)) w = true -> w <> [] -> word w.
Proof.
  intros H Hn. split; auto. apply Forall_forall. intros c Hc Hw. rewrite forallb_forall in H. specialize (H c Hc).
  apply isspace_white in Hw. now rewrite Hw in H.
Qed.
Lemma ex_number w : forallb (fun c => negb (isspace c)) w = true -> mem ":"%char w = false -> w <> [] -> number_text w.
Proof. intros H1 H2 H3. split; [now apply ex_word|now apply mem_not]. Qed.
Lemma ex_text_ok : samples_text_ok 3 ex_text.
Proof.
  split; [reflexivity| |]; (constructor; [|constructor]).
  - split; [reflexivity|]. repeat (constructor; [apply ex_number; [reflexivity|reflexivity|discriminate]|]). constructor.
  - split; [reflexivity|]. split; [reflexivity|]. cbn [fst snd]. split; repeat (constructor; [apply ex_number; [reflexivity|reflexivity|discriminate]|]); constructor.
Qed.

Lemma ex_read : read_samples ex_stod 3 (samples_file ex_text) = Ok (UqSamples 1 1 [[1%R; 0%R; (-2)%R]; [0%R; 0%R; 0%R]] [[1%R; 0%R]]).
Proof.
  rewrite (@read_samples_ok ex_stod (fun _ => Throw) ex_value (fun _ => []) 3 ex_text ex_text_ok); [reflexivity|].
  intros w [(l & Hl & Hw)|(a & Ha & Hw)].
  - repeat (destruct Hl as [<-|Hl]; [|]); try (destruct Hl). repeat (destruct Hw as [<-|Hw]; [reflexivity|]). destruct Hw.
  - repeat (destruct Ha as [<-|Ha]; [|]); try (destruct Ha). cbn [fst snd] in Hw.
    destruct Hw as [Hw|Hw]; repeat (destruct Hw as [<-|Hw]; [reflexivity|]); destruct Hw.
Qed.
Example C67_parameters_premise :
  exists u p, parse_blocks ex_stod (fun t => Ok (ex_nominal t)) (map (fun l => (line_text l, ul_block l, ul_nominal l)) ex_lines) = Ok u /\
    (exists q, read_samples ex_stod 3 (samples_file ex_text) = Ok q /\ scale_parameters u q = Ok p) /\
    exists r, sample_parameters p 7 0 = Ok r /\ param r (lit "shear_modulus") = 44%R /\ param r (lit "bulk_modulus") = 100%R.
Proof.
  destruct (@C67_parameters ex_stod (fun t => Ok (ex_nominal t)) ex_value ex_nominal ex_lines (samples_file ex_text)
    (UqSamples 1 1 [[1%R; 0%R; (-2)%R]; [0%R; 0%R; 0%R]] [[1%R; 0%R]])) as (u & p & E & _ & Ep & H).
  - repeat constructor; cbn; intuition discriminate.
  - intros l [<-|[<-|[]]].
    + split; [repeat constructor; cbn; intuition discriminate|]. split; [repeat (constructor; [apply ex_word; [reflexivity|discriminate]|]); constructor|].
      split; [|reflexivity]. intros e [<-|[<-|[]]]; reflexivity.
    + split; [repeat constructor; cbn; intuition discriminate|]. split; [repeat (constructor; [apply ex_word; [reflexivity|discriminate]|]); constructor|].
      split; [|reflexivity]. intros e [<-|[]]; reflexivity.
  - exact ex_read.
  - exists u, p. split; [exact E|]. split; [eexists; split; [apply ex_read|exact Ep]|].
    destruct (H (UqLine 7 [(lit "shear_modulus", lit "3")] (lit "m2")) 0) as (r & Er & H1 & H2); [right; now left|cbn; lia|].
    exists r. split; [exact Er|]. split.
    + rewrite (H1 2 (lit "shear_modulus") (lit "3")); [|reflexivity|now left]. cbn. unfold at_, row. cbn. unfold ex_value. cbn. lra.
    + rewrite H2; [reflexivity|]. cbn. intuition discriminate.
Qed.

(** C67: a samples file written as documented is read as written, sample by sample, whatever
    numbers of samples and parameters. *)
Theorem C67_samples_file :
  forall stod value n t, samples_text_ok n t ->
  (forall w, (exists l, In l (st_exact t) /\ In w l) \/ (exists a, In a (st_approx t) /\ (In w (fst a) \/ In w (snd a))) -> stod w = Ok (value w)) ->
  read_samples stod n (samples_file t) =
    Ok (UqSamples (length (st_exact t)) (length (st_approx t))
          (map (map value) (st_exact t) ++ map (fun a => map value (fst a)) (st_approx t))
          (map (fun a => map value (snd a)) (st_approx t))).
Proof. intros stod value n t. apply (@read_samples_ok stod (fun _ => Throw) value (fun _ => []) n t). Qed.
Print Assumptions C67_samples_file.
(** a concrete case: [ex_read] *)

(** C67: whatever the file contains, a table that is accepted has one row for every sample, one value
    for every uncertain parameter, and for every approximate sample one weight for the nominal run
    and one for every exact sample. *)
Theorem C67_accepted_shape : forall stod n file q, read_samples stod n file = Ok q -> samples_ok n q.
Proof. intros stod n file q. apply (@read_samples_shape stod (fun _ => Throw) (fun _ => 0%R) (fun _ => []) n file q). Qed.
Print Assumptions C67_accepted_shape.

(** Refuted: a samples file that ends early is accepted: when the last line has no line end, it is
    used again for the samples that are missing. *)
Theorem C67_truncated_refuted : forall stod x, stod (lit "5") = Ok x ->
  read_samples stod 1 (lit "3 0" ++ newline :: lit "5") = Ok (UqSamples 3 0 [[x]; [x]; [x]] []).
Proof. intros stod x H. vm_compute in H. vm_compute. rewrite H. reflexivity. Qed.
Print Assumptions C67_truncated_refuted.
(** Refuted: an empty or missing samples file, one with a single number, and a parameter without a
    range are not rejected but undefined behaviour. *)
Theorem C67_undefined_refuted :
  (forall stod n, read_samples stod n [] = UB) /\
  (forall stod n, read_samples stod n (lit "3") = UB) /\
  (forall stod pm b nom u, parse_block_input stod pm (lit "bulk_modulus") b nom u = UB).
Proof. repeat split. Qed.
Print Assumptions C67_undefined_refuted.
(** Refuted: two materials never share a line, but two blocks may share a material: the block that
    GetBlockIdFromMaterial does not return has no sample parameters, and the force computation of any
    exact sample then reads outside its vector (it never succeeds). *)
Theorem C67_block_without_line_refuted :
  forall u q p, samples_ok (length (uq_order u)) q ->
  (forall b name, In (b, name) (uq_order u) -> assoc Z.eqb b (uq_nominal u) <> None) -> scale_parameters u q = Ok p ->
  forall b blocks, In b blocks -> assoc Z.eqb b (uq_nominal u) = None -> 0 < uq_nexact q ->
  forall block_force reduce N disp disps force forces r,
    uq_internal_force block_force reduce N q p blocks disp disps force forces <> Ok r.
Proof.
  intros u q p Hq Ho Ep b blocks Hb Hn He block_force reduce N disp disps force forces r.
  destruct (@scale_ok u q Hq Ho) as (p' & E & H). assert (p' = p) by congruence. subst p'. specialize (H b). rewrite Hn in H.
  eapply no_parameters; eauto.
Qed.
Print Assumptions C67_block_without_line_refuted.

(** C42: the forces of one evaluation, whatever the numbers of blocks and samples, when there is at
    least one approximate sample: the nominal force is the sum of the blocks' forces with their own
    materials; the force of exact sample k the sum with the moduli of sample k at the displacement of
    sample k (each then summed over the ranks sharing a node); the force of an approximate sample the
    weighted sum of these, with its own weights. *)
Theorem C42_forces :
  forall (block_force : block_force_t) (reduce : view -> view) N q p nparameters blocks disp disps force forces,
  (forall v, shaped N 3 v -> shaped N 3 (reduce v)) ->
  samples_ok nparameters q -> 0 < uq_napprox q ->
  length disps = uq_nexact q + uq_napprox q -> length forces = uq_nexact q + uq_napprox q ->
  shaped N 3 force -> Forall (shaped N 3) forces ->
  (forall b k, In b blocks -> k < uq_nexact q -> succeeds (sample_parameters p b k)) ->
  (forall b, In b blocks -> succeeds (block_force b None disp)) ->
  (forall b k, In b blocks -> k < uq_nexact q -> succeeds (block_force b (moduli p b k) (field disps k))) ->
  exists total totals force' forces',
    uq_internal_force block_force reduce N q p blocks disp disps force forces = Ok (force', forces') /\
    force' = reduce total /\ shaped N 3 total /\
    (forall n c, v_at total n c = sum_over blocks (fun b => entry_of (block_force b None disp) n c)) /\
    length forces' = uq_nexact q + uq_napprox q /\
    (forall k, k < uq_nexact q -> field forces' k = reduce (totals k) /\ shaped N 3 (totals k) /\ forall n c, v_at (totals k) n c =
        sum_over blocks (fun b => entry_of (block_force b (moduli p b k) (field disps k)) n c)) /\
    (forall s n c, s < uq_napprox q -> n < N -> c < 3 -> v_at (field forces' (uq_nexact q + s)) n c =
       combination (row (uq_coeffs q) s) (v_at force' n c) (fun k => v_at (field forces' k) n c) (uq_nexact q)).
Proof.
  intros block_force reduce N q p nparameters blocks disp disps force forces Hr Hq Ha Ld Lf Sf Sfs H1 H2 H3.
  destruct (@force_ok block_force reduce N Hr q p nparameters Hq blocks disp disps Ld H1 H2 H3 force forces Sf Lf Sfs Ha)
    as (total & totals & force' & forces' & E & T1 & T2 & T3 & A1 & A2 & A3 & A4 & A5 & A6).
  exists total, totals, force', forces'. split; [exact E|]. split; [exact A1|]. split; [exact T1|]. split; [exact T2|]. split; [exact A3|]. split; [|exact A6].
  intros k Hk. destruct (T3 k Hk). split; auto.
Qed.
Print Assumptions C42_forces.

(** C42: when the weights of an approximate sample sum to one and all the forces it combines are
    equal, its force is that force. *)
Theorem C42_equal_forces :
  forall w x nexact, (at_ w 0 + Rsum nexact (fun k => at_ w (k + 1)) = 1)%R ->
    combination w x (fun _ => x) nexact = x.
Proof.
  intros w x n H. unfold combination. rewrite Rsum_scal. transitivity (x * (at_ w 0 + Rsum n (fun k => at_ w (k + 1))))%R; [ring|]. rewrite H. ring.
Qed.
Print Assumptions C42_equal_forces.

(** Only the two moduli of a sample matter: two tables of sample parameters with the same bulk and
    shear moduli give the same forces, so an uncertain density, or a parameter whose name is
    misspelled, is accepted and has no effect. *)
Definition same_moduli (p p' : sample_params) : Prop := forall b k,
  match sample_parameters p b k, sample_parameters p' b k with
  | Ok r, Ok r' => param r (lit "bulk_modulus") = param r' (lit "bulk_modulus") /\ param r (lit "shear_modulus") = param r' (lit "shear_modulus")
  | UB, UB => True
  | _, _ => False
  end.
Lemma ofold_ext {A B} (f g : A -> B -> outcome A) l : (forall a b, f a b = g a b) -> forall a, ofold f l a = ofold g l a.
Proof. intros H. induction l as [|b l IH]; intros a; cbn [ofold]; auto. rewrite H. destruct (g a b); cbn [obind]; auto. Qed.
Theorem C42_other_parameters_refuted :
  forall block_force reduce N q p p' blocks disp disps force forces, same_moduli p p' ->
    uq_internal_force block_force reduce N q p blocks disp disps force forces =
    uq_internal_force block_force reduce N q p' blocks disp disps force forces.
Proof.
  intros block_force reduce N q p p' blocks disp disps force forces H. unfold uq_internal_force.
  destruct (oloop 0 (uq_nexact q + uq_napprox q) _ forces) as [z| | |]; cbn [obind]; auto.
  rewrite (@ofold_ext _ _ (block_forces block_force q p disp disps) (block_forces block_force q p' disp disps)); auto.
  intros [a l] b. unfold block_forces. cbn [fst snd]. destruct (block_force b None disp) as [g| | |]; cbn [obind]; auto.
  f_equal. unfold oloop. apply ofold_ext. intros fs k. destruct (vget disps k) as [u| | |]; cbn [obind]; auto.
  destruct (vget fs k) as [f| | |]; cbn [obind]; auto. specialize (H b k).
  destruct (sample_parameters p b k), (sample_parameters p' b k); try contradiction; auto. cbn [obind]. destruct H as [-> ->]. reflexivity.
Qed.
Print Assumptions C42_other_parameters_refuted.

(** Refuted: "the trajectory loop touches only existing trajectories".  Without approximate samples
    the loop over i <= number of exact samples goes one past the last force, so a UQ run with exact
    samples only never computes a force. *)
Theorem C42_no_approximate_refuted :
  forall block_force reduce N q p blocks disp disps force forces r,
  uq_napprox q = 0 -> length forces = uq_nexact q ->
  uq_internal_force block_force reduce N q p blocks disp disps force forces <> Ok r.
Proof. intros. now apply no_approx. Qed.
Print Assumptions C42_no_approximate_refuted.

(** ** C66 *)
(** The ingredients of a run. *)
Record run_ok (block_force : block_force_t) (reduce : view -> view) (N : nat) (mass : list R) (ref : view) (u : uq_input)
    (q : uq_samples) (p : sample_params) (blocks : list Z) (st : uq_state) : Prop := {
  ro_samples : samples_ok (length (uq_order u)) q;
  ro_order : forall b name, In (b, name) (uq_order u) -> assoc Z.eqb b (uq_nominal u) <> None;
  ro_blocks : forall b, In b blocks -> assoc Z.eqb b (uq_nominal u) <> None;
  ro_params : scale_parameters u q = Ok p;
  ro_approx : 0 < uq_napprox q;
  ro_mass : length mass = N;
  ro_ref : shaped N 3 ref;
  ro_bc : bc_input_ok (us_mgr st) N;
  ro_dim : mg_dim (us_mgr st) = 3;
  ro_force : forall b m v, In b blocks -> shaped N 3 v -> succeeds (block_force b m v);
  ro_reduce : forall v w, agree N v w -> agree N (reduce v) (reduce w);
  ro_fresh : fresh N (uq_nexact q + uq_napprox q) st }.

Lemma run_params block_force reduce N mass ref u q p blocks st : run_ok block_force reduce N mass ref u q p blocks st ->
  forall b k, In b blocks -> k < uq_nexact q -> succeeds (sample_parameters p b k).
Proof.
  intros H b k Hb Hk. destruct (@C42_scaled u q (ro_samples H) (ro_order H)) as (p' & E & Hp). rewrite (ro_params H) in E. injection E as <-.
  specialize (Hp b k ltac:(lia)). pose proof (ro_blocks H b Hb). destruct (assoc Z.eqb b (uq_nominal u)); [|congruence].
  destruct Hp as (r & E & _). now exists r.
Qed.
Lemma reduce_shape N (reduce : view -> view) : (forall v w, agree N v w -> agree N (reduce v) (reduce w)) -> forall v, shaped N 3 v -> shaped N 3 (reduce v).
Proof. intros H v Hv. apply (H v v). split; auto. Qed.

(** C66: a UQ run of any number of steps succeeds, and every sample, exact or approximate, moves by
    the explicit (leapfrog) scheme under its own force and the prescribed velocities, independently
    of the other samples' motion: half kick, prescribed velocities, drift, force, half kick.  The
    force of exact sample k is the sum over the blocks with the moduli of sample k at the sample's own
    displacement, that of an approximate sample the weighted combination of the nominal and exact
    forces.  The nominal run is the same scheme with its own force, and prescribed displacements
    (driven_entry).  Samples start at rest at zero displacement, except for initial and prescribed velocities. *)
Definition driven_entry (mg : manager) (ref : view) (h t : R) (n c : nat) (dv : R * R) : R * R := fold_left (entry_effect mg h t ref n c) (mg_bcs mg) dv.
Definition velocity_given (mg : manager) (ref : view) (t : R) (n c : nat) (v : R) : R := fold_left (off_effect mg t ref n c) (mg_bcs mg) v.
Theorem C66_motion :
  forall block_force reduce N mass ref u q p blocks st dt, run_ok block_force reduce N mass ref u q p blocks st ->
  forall k, exists s s',
    uq_run block_force reduce N mass q p blocks ref k dt st = Ok s /\
    uq_run block_force reduce N mass q p blocks ref (k + 1) dt st = Ok s' /\
    us_time s = (us_time st + INR k * dt)%R /\
    (k = 0 -> forall n c, n < N -> c < 3 -> v_at (us_acc s) n c = 0%R /\
       (v_at (k_disp (us_kin s)) n c, v_at (k_vel (us_kin s)) n c) =
         driven_entry (us_mgr st) ref (0 - 0) 0 n c (0%R, fold_left (init_effect (us_mgr st) ref n c) (mg_bcs (us_mgr st)) 0%R)) /\
    (forall n c, n < N -> c < 3 ->
      let t := (us_time s + dt)%R in
      let bc := driven_entry (us_mgr st) ref (t - us_time s) t n c in
      let dw := bc (v_at (k_disp (us_kin s)) n c, v_at (k_vel (us_kin s)) n c + dt / 2 * v_at (us_acc s) n c)%R in
      let dv := bc (fst dw + dt * snd dw, snd dw)%R in
      v_at (k_disp (us_kin s')) n c = fst dv /\ v_at (us_acc s') n c = (v_at (us_force s') n c / nth n mass 0)%R /\
      v_at (k_vel (us_kin s')) n c = (snd dv + dt / 2 * v_at (us_acc s') n c)%R) /\
    (k = 0 -> forall j n c, j < uq_nexact q + uq_napprox q -> n < N -> c < 3 ->
       v_at (field (us_disps s) j) n c = 0%R /\ v_at (field (us_forces s) j) n c = 0%R /\
       v_at (field (k_off (us_kin s)) j) n c =
         velocity_given (us_mgr st) ref 0 n c (fold_left (init_effect (us_mgr st) ref n c) (mg_bcs (us_mgr st)) 0%R)) /\
    (forall j n c, j < uq_nexact q + uq_napprox q -> n < N -> c < 3 ->
      let m := nth n mass 0%R in
      let bc := velocity_given (us_mgr st) ref (us_time s + dt) n c in
      let half := bc (v_at (field (k_off (us_kin s)) j) n c + dt / 2 * (v_at (field (us_forces s) j) n c / m))%R in
      v_at (field (us_disps s') j) n c = (v_at (field (us_disps s) j) n c + dt * half)%R /\
      v_at (field (k_off (us_kin s')) j) n c = (bc half + dt / 2 * (v_at (field (us_forces s') j) n c / m))%R) /\
    (exists totals, forall i, i < uq_nexact q -> field (us_forces s') i = reduce (totals i) /\ shaped N 3 (totals i) /\
       forall n c, v_at (totals i) n c = sum_over blocks (fun b => entry_of (block_force b (moduli p b i) (field (us_disps s') i)) n c)) /\
    (forall i n c, i < uq_napprox q -> n < N -> c < 3 -> v_at (field (us_forces s') (uq_nexact q + i)) n c =
       combination (row (uq_coeffs q) i) (v_at (us_force s') n c) (fun k => v_at (field (us_forces s') k) n c) (uq_nexact q)).
Proof.
  intros block_force reduce N mass ref u q p blocks st dt H k.
  pose proof (run_params H) as Hpar. pose proof (@reduce_shape N reduce (ro_reduce H)) as Hred.
  destruct (@start_all reduce N mass ref q p blocks (us_mgr st) (ro_approx H) Hpar (ro_mass H) (ro_bc H) (ro_dim H) (ro_ref H) Hred st eq_refl (ro_fresh H)) as (s0 & E0 & S0 & T0 & V1 & V0).
  assert (Hrun : forall k, exists s, uq_run block_force reduce N mass q p blocks ref k dt st = Ok s /\ shapes N q (us_mgr st) s /\ us_time s = (us_time st + INR k * dt)%R /\
     (k = 0 -> s = s0) /\ uq_run block_force reduce N mass q p blocks ref (k + 1) dt st = uq_step block_force reduce N mass q p blocks ref dt s).
  { intros k0. unfold uq_run. rewrite E0. cbn [obind].
    assert (Hs : exists s, oloop 0 k0 (fun _ s => uq_step block_force reduce N mass q p blocks ref dt s) s0 = Ok s /\ shapes N q (us_mgr st) s /\ us_time s = (us_time st + INR k0 * dt)%R /\ (k0 = 0 -> s = s0)).
    { apply (@oloop_ind _ (fun k s => shapes N q (us_mgr st) s /\ us_time s = (us_time st + INR k * dt)%R /\ (k = 0 -> s = s0)) 0 k0 (fun _ s => uq_step block_force reduce N mass q p blocks ref dt s)); auto; [lia| |].
      - split; auto. split; auto. rewrite T0. cbn. ring.
      - intros i s _ (Hs & Ht & _). destruct (@step_all block_force reduce N mass ref q p blocks (us_mgr st) (length (uq_order u)) (ro_samples H) (ro_approx H) Hpar (ro_mass H) (ro_bc H) (ro_dim H) (ro_ref H) (ro_force H) Hred dt s Hs) as (s' & E & Hs' & Ht' & _).
        exists s'. split; auto. split; auto. split; [|discriminate]. rewrite Ht', Ht, plus_INR. cbn. ring. }
    destruct Hs as (s & Es & Hs & Ht & Hz). exists s. split; auto. split; auto. split; auto. split; auto.
    unfold oloop in *. rewrite Nat.sub_0_r in *. rewrite seq_app, ofold_app, Es. cbn [obind seq ofold Nat.add].
    destruct (uq_step block_force reduce N mass q p blocks ref dt s); reflexivity. }
  destruct (Hrun k) as (s & Es & Hs & Ht & Hz & Enext).
  destruct (@step_all block_force reduce N mass ref q p blocks (us_mgr st) (length (uq_order u)) (ro_samples H) (ro_approx H) Hpar (ro_mass H) (ro_bc H) (ro_dim H) (ro_ref H) (ro_force H) Hred dt s Hs) as (s' & E & _ & _ & M0 & M1 & M2 & M3).
  exists s, s'. split; auto. split; [congruence|]. split; auto. split; [intros K0; rewrite (Hz K0); exact V1|]. split; [exact M0|]. split; [intros K0; rewrite (Hz K0); exact V0|]. split; auto.
Qed.
Print Assumptions C66_motion.

(** C66: a sample whose parameter values are all zero, or an approximate sample whose weights sum to
    one and only involve the nominal run and such samples, is indistinguishable from the nominal run
    after any number of steps: same displacements, velocities and forces at every node -- when no
    displacement is prescribed, and the force with the nominal moduli is the nominal force. *)
Theorem C66_follow :
  forall block_force reduce N mass ref u q p blocks st dt, run_ok block_force reduce N mass ref u q p blocks st ->
  mg_scheme (us_mgr st) = EXPLICIT ->
  (forall b, In b (mg_bcs (us_mgr st)) -> bc_kind b <> PRESCRIBED_DISPLACEMENT) ->
  (forall b nom v w n c, In b blocks -> assoc Z.eqb b (uq_nominal u) = Some nom -> agree N v w -> n < N -> c < 3 ->
    entry_of (block_force b None v) n c =
    entry_of (block_force b (Some (param nom (lit "bulk_modulus"), param nom (lit "shear_modulus"))) w) n c) ->
  forall k, exists s, uq_run block_force reduce N mass q p blocks ref k dt st = Ok s /\
    forall j, unperturbed q j ->
      agree N (field (us_disps s) j) (k_disp (us_kin s)) /\ agree N (field (k_off (us_kin s)) j) (k_vel (us_kin s)) /\
      agree N (field (us_forces s) j) (us_force s).
Proof.
  intros block_force reduce N mass ref u q p blocks st dt H Hs Hd Hf k.
  destruct (@run_follow block_force reduce N mass ref u q p blocks (us_mgr st) (ro_samples H) (ro_order H) (ro_params H) (ro_approx H)
     (ro_blocks H) (ro_mass H) (ro_bc H) (ro_dim H) Hs (ro_ref H) Hd (ro_force H) Hf (ro_reduce H) k dt st eq_refl (ro_fresh H)) as (s & E & I).
  exists s. split; auto. intros j Hj. split; [apply (in_d I); auto|]. split; [apply (in_v I); auto|apply (in_f I); auto].
Qed.
Print Assumptions C66_follow.

(** ** concrete runs *)
Definition ex_block_force : block_force_t := fun b m v =>
  Ok (fun n c => (- (match m with Some (K, _) => K | None => 100 end) * v_at v n c)%R).
Definition ex_u : uq_input := UqInput [(1%Z, ex_nominal [])] [(1%Z, [(lit "bulk_modulus", 10%R)])] [(1%Z, lit "bulk_modulus")].
Definition ex_q : uq_samples := UqSamples 2 1 [[0%R]; [1%R]; [0%R]] [[(1 / 2)%R; (1 / 2)%R; 0%R]].
Definition zero_view (N : nat) : view := View N 3 (fun _ _ => 0%R).
Definition ex_state (b : bc) (N ns : nat) : uq_state :=
  UqState (Mgr [(1%Z, [0])] [b] 3 EXPLICIT) (Kin (zero_view N) (zero_view N) (repeat (zero_view N) ns)) (repeat (zero_view N) ns)
    (zero_view N) (zero_view N) (zero_view N) (repeat (zero_view N) ns) 0%R.
Lemma zero_blank N : blank_field N (zero_view N).
Proof. split; [split; reflexivity|reflexivity]. Qed.
Lemma ex_fresh b N ns : fresh N ns (ex_state b N ns).
Proof.
  assert (H : Forall (blank_field N) (repeat (zero_view N) ns)) by (apply Forall_forall; intros v Hv; apply repeat_spec in Hv; subst; apply zero_blank).
  split; cbn; auto using zero_blank; (split; [apply repeat_length|exact H]).
Qed.
Lemma ex_run_ok b N : bc_coord b < 3 -> 0 < N -> exists p,
  run_ok ex_block_force (fun v => v) N (repeat 1%R N) (zero_view N) ex_u ex_q p [1%Z] (ex_state b N 3).
Proof.
  intros Hb HN.
  assert (Hq : samples_ok 1 ex_q).
  { split; cbn; auto.
    - intros s Hs. destruct s as [|[|[|s]]]; cbn; auto; lia.
    - intros s Hs. destruct s as [|s]; cbn; auto; lia. }
  assert (Ho : forall b name, In (b, name) (uq_order ex_u) -> assoc Z.eqb b (uq_nominal ex_u) <> None).
  { intros b' name [H|[]]. apply pair_equal_spec in H. destruct H as [<- _]. discriminate. }
  destruct (@scale_ok ex_u ex_q Hq Ho) as (p & E & _). exists p. split; auto.
  - intros b' [<-|[]]. discriminate.
  - apply repeat_length.
  - split; reflexivity.
  - split; cbn; auto.
    + intros b' [<-|[]]; auto.
    + intros id n. unfold node_set. cbn. destruct (id =? 1)%Z; cbn; [intros [<-|[]]; auto|intros []].
    + intros id. unfold node_set. cbn. destruct (id =? 1)%Z; repeat constructor; auto.
  - intros b' m v _ _. eexists. reflexivity.
  - apply ex_fresh.
Qed.
(** the hypotheses of C66_motion and C66_follow hold for a run with an initial velocity in which
    samples 0 and 2 are unperturbed *)
Example C66_follow_premise :
  let st := ex_state (BC INITIAL_VELOCITY 1 (-1) 0 (Magnitude 1)) 2 3 in
  (exists p, run_ok ex_block_force (fun v => v) 2 (repeat 1%R 2) (zero_view 2) ex_u ex_q p [1%Z] st) /\
  mg_scheme (us_mgr st) = EXPLICIT /\ (forall b, In b (mg_bcs (us_mgr st)) -> bc_kind b <> PRESCRIBED_DISPLACEMENT) /\
  (forall b nom v w n c, In b [1%Z] -> assoc Z.eqb b (uq_nominal ex_u) = Some nom -> agree 2 v w -> n < 2 -> c < 3 ->
    entry_of (ex_block_force b None v) n c =
    entry_of (ex_block_force b (Some (param nom (lit "bulk_modulus"), param nom (lit "shear_modulus"))) w) n c) /\
  unperturbed ex_q 0 /\ ~ unperturbed ex_q 1 /\ unperturbed ex_q 2.
Proof.
  assert (U0 : unperturbed_exact ex_q 0). { split; [cbn; lia|]. intros i. unfold at_, row. cbn. destruct i as [|[|i]]; reflexivity. }
  split; [apply ex_run_ok; cbn; lia|]. split; [reflexivity|]. split; [intros b [<-|[]]; discriminate|]. split; [|split; [now left|split]].
  - intros b nom v w n c [<-|[]] Hn (_ & _ & Hv) Hn' Hc. injection Hn as <-. cbn. rewrite Hv by auto. unfold param. cbn. reflexivity.
  - intros [(_ & H)|(s & H & _)]; [|cbn in H; lia]. specialize (H 0). unfold at_, row in H. cbn in H. lra.
  - right. exists 0. split; [reflexivity|]. split; [cbn; lia|]. cbv zeta. unfold at_, row. cbn. split; [lra|].
    intros k Hk. destruct k as [|[|k]]; cbn; auto. lia.
Qed.

(** Refuted: prescribed displacements do not move the samples.  In a run with zero forces, where the
    displacement of the only node is prescribed as 1, the unperturbed sample stays at 0 although the
    nominal run moves to 1. *)
Theorem C66_prescribed_displacement_refuted :
  let st := ex_state (BC PRESCRIBED_DISPLACEMENT 1 (-1) 0 (Magnitude 1)) 1 3 in
  exists p s, run_ok ex_block_force (fun v => v) 1 [1%R] (zero_view 1) ex_u ex_q p [1%Z] st /\
    uq_run ex_block_force (fun v => v) 1 [1%R] ex_q p [1%Z] (zero_view 1) 1 1 st = Ok s /\
    unperturbed ex_q 0 /\ v_at (k_disp (us_kin s)) 0 0 = 1%R /\ v_at (field (us_disps s) 0) 0 0 = 0%R.
Proof.
  intros st. destruct (@ex_run_ok (BC PRESCRIBED_DISPLACEMENT 1 (-1) 0 (Magnitude 1)) 1) as (p & H); [cbn; lia|lia|].
  exists p. destruct (@C66_motion _ _ _ _ _ _ _ _ _ _ 1%R H 0) as (s & s' & E & E' & Et & Hn0 & Hn & Hz & Hm & _).
  exists s'. split; [exact H|]. split; [exact E'|]. split; [apply C66_follow_premise|].
  cbn in Et. specialize (Hn0 eq_refl 0 0 ltac:(lia) ltac:(lia)). destruct Hn0 as (Ha & Hd). specialize (Hz eq_refl 0 0 0 ltac:(cbn; lia) ltac:(lia) ltac:(lia)).
  specialize (Hm 0 0 0 ltac:(cbn; lia) ltac:(lia) ltac:(lia)). specialize (Hn 0 0 ltac:(lia) ltac:(lia)). destruct Hz as (Z1 & Z2 & Z3). destruct Hm as (M1 & _). destruct Hn as (N1 & _).
  split.
  - unfold driven_entry, entry_effect, covers, value_at, node_set in Hd. cbn -[Rlt_dec] in Hd. destruct (Rlt_dec 0 (0 - 0)); [lra|].
    apply pair_equal_spec in Hd. destruct Hd as (Hd & Hv).
    rewrite N1. unfold driven_entry, entry_effect, covers, value_at, node_set. cbn -[Rlt_dec]. rewrite Hd, Hv, Ha, Et.
    destruct (Rlt_dec 0 (0 + 0 * 1 + 1 - (0 + 0 * 1))); [|lra]. cbn [fst snd]. field.
  - rewrite M1, Z1, Z2, Z3. unfold velocity_given, off_effect, covers, value_at, node_set. cbn. field.
Qed.
Print Assumptions C66_prescribed_displacement_refuted.
