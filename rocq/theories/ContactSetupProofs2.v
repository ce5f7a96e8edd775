From Coq Require Import NArith Permutation.
From Verif Require Import Base Strings ListLemmas InputModel InputSpec MeshTextModel ContactSetupModel ContactSetupSpec.
Local Close Scope string_scope.
Local Open Scope list_scope.
Set Implicit Arguments.
Local Notation length := List.length.

Section VisMesh.
  Variable D : Type.
  Local Notation vface := (vface D).
  Local Notation vnode := (vnode D).

  Lemma fold_max l : forall m, (m <= fold_left (fun m z => if (z >? m)%Z then z else m) l m)%Z /\
    (forall z, In z l -> (z <= fold_left (fun m z => if (z >? m)%Z then z else m) l m)%Z) /\
    (fold_left (fun m z => if (z >? m)%Z then z else m) l m = m \/ In (fold_left (fun m z => if (z >? m)%Z then z else m) l m) l).
  Proof.
    induction l as [|x l IH]; intros m; cbn [fold_left]; [split; [lia|]; split; [intros z []|auto]|].
    rewrite Z.gtb_ltb. destruct (Z.ltb_spec m x) as [L|L].
    - destruct (IH x) as (A & B & C). split; [lia|]. split; [intros z [<-|H]; [lia|auto]|]. destruct C as [->|C]; [right; now left|right; now right].
    - destruct (IH m) as (A & B & C). split; [lia|]. split; [intros z [<-|H]; [lia|auto]|]. destruct C as [->|C]; [now left|right; now right].
  Qed.
  Lemma max_entity (faces : list vface) (nodes : list vnode) : (0 <= max_entity_id faces nodes)%Z /\ forall z, In z (entity_ids (faces, nodes)) -> (z <= max_entity_id faces nodes)%Z.
  Proof.
    unfold max_entity_id, entity_ids. cbn [fst snd]. set (m1 := fold_left _ (map (@vf_id D) faces) 0%Z).
    destruct (fold_max (map (@vf_id D) faces) 0%Z) as (A & B & _). fold m1 in A, B.
    destruct (fold_max (map (@vn_id D) nodes) m1) as (A' & B' & _). split; [lia|].
    intros z Hz. apply in_app_or in Hz. destruct Hz as [Hz|Hz]; [specialize (B z Hz); lia|auto].
  Qed.

  Definition fids (mx : Z) (f : vface) : list Z := [3 * vf_id f + mx + 9; 3 * vf_id f + mx + 10; 3 * vf_id f + mx + 11]%Z.
  Lemma face_ids_ok mx (faces : list vface) : (0 <= mx)%Z -> (4 * mx + 11 < 2 ^ 31)%Z -> (forall f, In f faces -> (0 <= vf_id f <= mx)%Z) ->
    omapM (fun f => do a <- face_node_id mx (vf_id f) 9; do b <- face_node_id mx (vf_id f) 10; do c <- face_node_id mx (vf_id f) 11; Ok [a; b; c]) faces = Ok (map (fids mx) faces).
  Proof.
    intros H0 Hm. induction faces as [|f faces IH]; intros H; [reflexivity|]. cbn [omapM map].
    assert (Hf := H f (or_introl eq_refl)).
    assert (K : forall k, (9 <= k <= 11)%Z -> face_node_id mx (vf_id f) k = Ok (3 * vf_id f + mx + k)%Z).
    { intros k Hk. assert (P : (2 ^ 31 = 2147483648)%Z) by reflexivity. unfold face_node_id, int_ok, in_int.
      assert (B : forall z, (0 <= z <= 4 * mx + 11)%Z -> ((- 2 ^ 31 <=? z)%Z && (z <? 2 ^ 31)%Z)%bool = true) by (intros; apply andb_true_intro; split; [apply Z.leb_le; lia|apply Z.ltb_lt; lia]).
      rewrite B by lia. cbn [obind]. rewrite B by lia. cbn [obind]. rewrite B by lia. reflexivity. }
    rewrite !K by lia. cbn [obind]. rewrite IH by (intros; apply H; now right). reflexivity.
  Qed.
  Definition vis_mesh (mx : Z) (faces : list vface) (nodes : list vnode) : mesh D :=
    initialize (empty_mesh D) (flat_map (fids mx) faces ++ map (@vn_id D) nodes) (map (@px D) (points faces nodes)) (map (@py D) (points faces nodes)) (map (@pz D) (points faces nodes))
          (map (@vf_id D) faces ++ map (@vn_id D) nodes) [1; 2]%Z
          [(1%Z, lit "contact_faces"); (2%Z, lit "contact_nodes")] [(1%Z, []); (2%Z, [])] [(1%Z, 3%Z); (2%Z, 1%Z)]
          [(1%Z, map Z.of_nat (seq 0 (3 * length faces))); (2%Z, map Z.of_nat (seq (3 * length faces) (length nodes)))].
  Lemma vis_ok mx (faces : list vface) (nodes : list vnode) : (0 <= mx)%Z -> (4 * mx + 11 < 2 ^ 31)%Z -> (forall f, In f faces -> (0 <= vf_id f <= mx)%Z) ->
    initialize_visualization mx faces nodes = Ok (vis_mesh mx faces nodes).
  Proof.
    intros H0 H1 H2. unfold initialize_visualization. rewrite face_ids_ok by auto. cbn [obind]. unfold vis_mesh. do 2 f_equal. now rewrite flat_map_concat_map.
  Qed.

  Lemma points_length (faces : list vface) (nodes : list vnode) : length (points faces nodes) = 3 * length faces + length nodes.
  Proof. unfold points. rewrite app_length, map_length. f_equal. induction faces; simpl; lia. Qed.
  Lemma statuses_length (faces : list vface) (nodes : list vnode) : length (statuses faces nodes) = 3 * length faces + length nodes.
  Proof. unfold statuses. rewrite app_length, map_length. f_equal. induction faces; simpl; lia. Qed.
  Lemma combine_points (faces : list vface) (nodes : list vnode) : combine (points faces nodes) (statuses faces nodes) =
    flat_map (fun f => [(vf_1 f, vf_status f); (vf_2 f, vf_status f); (vf_3 f, vf_status f)]) faces ++ map (fun n => (vn_1 n, vn_status n)) nodes.
  Proof.
    unfold points, statuses. induction faces as [|f faces IH]; cbn [flat_map app combine]; [|now rewrite IH].
    induction nodes as [|n nodes IH]; cbn [map combine]; congruence.
  Qed.
  Lemma active_count (faces : list vface) : num_active_faces faces = length (filter (@vf_status D) faces).
  Proof.
    unfold num_active_faces. assert (H : forall n, fold_left (fun n f => n + (if vf_status f then 1 else 0)) faces n = n + length (filter (@vf_status D) faces)).
    { induction faces as [|f faces IH]; intros n; cbn [fold_left filter]; [simpl; lia|]. rewrite IH. destruct (vf_status f); simpl; lia. }
    now rewrite H.
  Qed.
End VisMesh.

Section VisProofs.
  Variable D : Type.
  Variable sub : D -> D -> D.
  Variable zero one : D.
  Variable of_count : nat -> D.
  Local Notation vface := (vface D).
  Local Notation vnode := (vnode D).

  (** the records *)

  Lemma list_set_app {A} (l1 l2 : list A) a b : list_set (l1 ++ a :: l2) (length l1) b = l1 ++ b :: l2.
  Proof. induction l1; simpl; congruence. Qed.
  Definition diff (p q : D * D * D) : D * D * D := (sub (px p) (px q), sub (py p) (py q), sub (pz p) (pz q)).
  Definition num (b : bool) : D := if b then one else zero.
  (** the state after the first points *)
  Definition state (n : nat) (ds : list (D * D * D)) (bs : list bool) : nat * (list D * list D * list D * list D) :=
    let pad := repeat zero (n - length ds) in
    (length ds, (map (@px D) ds ++ pad, map (@py D) ds ++ pad, map (@pz D) ds ++ pad, map num bs ++ pad)).
  Lemma put_ok (m : mesh D) qs ds bs p b q : m_x m = map (@px D) qs -> m_y m = map (@py D) qs -> m_z m = map (@pz D) qs ->
    nth_error qs (length ds) = Some q -> length bs = length ds ->
    put_node sub zero one m (state (length qs) ds bs) p b = Ok (state (length qs) (ds ++ [diff p q]) (bs ++ [b])).
  Proof.
    intros Hx Hy Hz Hq Hb. assert (Hl : length ds < length qs) by (apply nth_error_Some; congruence).
    unfold put_node, state. rewrite Hx, Hy, Hz. unfold vget. rewrite !nth_error_map, Hq. cbn [option_map obind].
    rewrite !app_length, !map_length, repeat_length, Hb. rewrite (proj2 (Nat.ltb_lt _ _)) by lia. cbn [List.length].
    replace (length qs - length ds) with (S (length qs - (length ds + 1))) by lia. cbn [repeat].
    assert (E : forall A (f : A -> D) l x, length l = length ds -> list_set (map f l ++ zero :: repeat zero (length qs - (length ds + 1))) (length ds) x = map f l ++ x :: repeat zero (length qs - (length ds + 1))).
    { intros A f l x <-. rewrite <- (map_length f l). apply list_set_app. }
    rewrite !E by auto. rewrite !map_app, <- !app_assoc. cbn [map app]. rewrite Nat.add_1_r. reflexivity.
  Qed.
  Lemma put_all (m : mesh D) qs : m_x m = map (@px D) qs -> m_y m = map (@py D) qs -> m_z m = map (@pz D) qs ->
    forall l ds bs, length bs = length ds -> length ds + length l <= length qs ->
    ofold (fun s pb => put_node sub zero one m s (fst pb) (snd pb)) l (state (length qs) ds bs) =
    Ok (state (length qs) (ds ++ map (fun pq => diff (fst (fst pq)) (snd pq)) (combine l (skipn (length ds) qs))) (bs ++ map snd l)).
  Proof.
    intros Hx Hy Hz. induction l as [|[p b] l IH]; intros ds bs Hb Hl; cbn [ofold map]; [rewrite !app_nil_r; reflexivity|]. cbn [List.length] in Hl.
    destruct (nth_error qs (length ds)) as [q|] eqn:Hq; [|apply nth_error_None in Hq; lia]. cbn [fst snd].
    rewrite (@put_ok m qs ds bs p b q) by auto. cbn [obind]. rewrite IH by (rewrite !app_length; simpl; lia).
    assert (Es : skipn (length ds) qs = q :: skipn (length (ds ++ [diff p q])) qs).
    { clear - Hq. rewrite app_length. cbn [List.length]. rewrite Nat.add_1_r. revert ds Hq. induction qs as [|a qs IH]; intros ds Hq; [destruct (length ds); discriminate|].
      destruct ds as [|d ds]; [simpl in *; congruence|]. apply (IH ds). exact Hq. }
    rewrite Es. cbn [combine map fst snd]. rewrite <- !app_assoc. reflexivity.
  Qed.
  Lemma flat_ofold {A B S} (g : A -> list B) (f : S -> B -> outcome S) l : forall s, ofold f (flat_map g l) s = ofold (fun s a => ofold f (g a) s) l s.
  Proof. induction l as [|a l IH]; intros s; cbn [flat_map ofold]; auto. rewrite ofold_app. destruct (ofold f (g a) s); cbn [obind]; auto. Qed.
  Lemma ofold_map {A B S} (g : A -> B) (f : S -> B -> outcome S) l : forall s, ofold f (map g l) s = ofold (fun s a => f s (g a)) l s.
  Proof. induction l as [|a l IH]; intros s; cbn [map ofold]; auto. destruct (f s (g a)); cbn [obind]; auto. Qed.
  Lemma ofold_ext {A S} (f g : S -> A -> outcome S) : (forall s a, f s a = g s a) -> forall l s, ofold f l s = ofold g l s.
  Proof. intros H. induction l as [|a l IH]; intros s; cbn [ofold]; auto. rewrite H. destruct (g s a); cbn [obind]; auto. Qed.
  Lemma write_ok (m : mesh D) qs (faces : list vface) (nodes : list vnode) :
    m_x m = map (@px D) qs -> m_y m = map (@py D) qs -> m_z m = map (@pz D) qs -> length (points faces nodes) = length qs ->
    write_visualization sub zero one of_count m faces nodes =
    Ok ([of_count (length (filter (@vf_status D) faces))],
        [map (fun pq => sub (px (fst pq)) (px (snd pq))) (combine (points faces nodes) qs); map (fun pq => sub (py (fst pq)) (py (snd pq))) (combine (points faces nodes) qs);
         map (fun pq => sub (pz (fst pq)) (pz (snd pq))) (combine (points faces nodes) qs); map num (statuses faces nodes)]).
  Proof.
    intros Hx Hy Hz Hl. unfold write_visualization. rewrite Hx, map_length.
    set (s0 := (0, (repeat zero (length qs), repeat zero (length qs), repeat zero (length qs), repeat zero (length qs)))).
    assert (E0 : s0 = state (length qs) [] []) by (unfold state, s0; simpl; now rewrite Nat.sub_0_r).
    pose proof (@put_all m qs Hx Hy Hz (combine (points faces nodes) (statuses faces nodes)) [] [] eq_refl) as P.
    assert (Hc : length (combine (points faces nodes) (statuses faces nodes)) = length qs) by (rewrite combine_length, Hl, statuses_length, <- points_length, Hl; lia).
    specialize (P ltac:(simpl; lia)). rewrite <- E0 in P. rewrite combine_points in P at 1. rewrite ofold_app, flat_ofold in P.
    rewrite (@ofold_ext _ _ _ (fun s f => do s <- put_node sub zero one m s (vf_1 f) (vf_status f); do s <- put_node sub zero one m s (vf_2 f) (vf_status f); put_node sub zero one m s (vf_3 f) (vf_status f))) in P.
    2: { intros s a. cbn [ofold fst snd]. destruct (put_node _ _ _ _ _ _ _); auto. cbn [obind]. destruct (put_node _ _ _ _ _ _ _); auto. cbn [obind]. now destruct (put_node _ _ _ _ _ _ _). }
    destruct (ofold _ faces s0) as [s1| | |]; try discriminate. cbn [obind] in *. rewrite ofold_map in P. cbn [fst snd] in P. rewrite P. cbn [obind app skipn length].
    unfold state. cbv beta iota zeta. rewrite active_count. cbn [skipn List.length].
    assert (Lc : length (map (fun pq : (D * D * D * bool) * (D * D * D) => diff (fst (fst pq)) (snd pq)) (combine (combine (points faces nodes) (statuses faces nodes)) qs)) = length qs) by (rewrite map_length, combine_length, Hc; lia).
    rewrite Lc, Nat.sub_diag. cbn [repeat]. rewrite !app_nil_r, !map_map.
    assert (Ls : length (statuses faces nodes) = length (points faces nodes)) by (rewrite points_length, statuses_length; reflexivity). 
    assert (Q : forall (g : D * D * D -> D) (h : D * D * D -> D * D * D -> D), (forall p q, g (diff p q) = h p q) -> map (fun x : (D * D * D * bool) * (D * D * D) => g (diff (fst (fst x)) (snd x))) (combine (combine (points faces nodes) (statuses faces nodes)) qs) = map (fun pq => h (fst pq) (snd pq)) (combine (points faces nodes) qs)).
    { intros g h Hg. revert Ls. generalize (statuses faces nodes) as bs, qs as qs'. generalize (points faces nodes) as ps. clear - Hg.
      induction ps as [|p ps IH]; intros bs qs Ls; [destruct bs; [reflexivity|discriminate]|]. destruct bs as [|b bs]; [discriminate|]. destruct qs as [|q qs]; [reflexivity|]. cbn [combine map fst snd]. rewrite Hg. f_equal. apply IH. simpl in Ls. lia. }
    rewrite (Q (@px D) (fun p q => sub (px p) (px q))), (Q (@py D) (fun p q => sub (py p) (py q))), (Q (@pz D) (fun p q => sub (pz p) (pz q))) by reflexivity.
    do 4 f_equal. f_equal. f_equal. f_equal. f_equal. revert Ls. generalize (statuses faces nodes) as bs. generalize (points faces nodes) as ps. clear. induction ps as [|p ps IH]; intros [|b bs] Ls; try discriminate; auto. cbn [combine map snd]. f_equal. apply IH. simpl in Ls. lia.
  Qed.
End VisProofs.
