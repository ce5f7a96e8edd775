(** Proofs for nimble.mpi.serialization.h. *)
From Verif Require Import Base ListLemmas SerialModel.
From Coq Require Import NArith.
Local Open Scope nat_scope.
Local Open Scope list_scope.
Arguments put : simpl never.
Arguments get : simpl never.

Fixpoint enc (t : ty) (v : val) {struct t} : list byte :=
  match t, v with
  | Pod n, VPod bs => bs
  | Pair a b, VPair x y => enc a x ++ enc b y
  | Vec a, VSeq l => le_bytes 8 (N.of_nat (length l)) ++ concat (map (enc a) l)
  | Arr n a, VSeq l => concat (map (enc a) l)
  | _, _ => []
  end.

Lemma le_bytes_length k n : length (le_bytes k n) = k.
Proof. revert n; induction k; intros; simpl; auto. Qed.
Lemma le_roundtrip k n : (n < 256 ^ N.of_nat k)%N -> le_value (le_bytes k n) = n.
Proof.
  revert n; induction k as [|k IH]; intros n H; [simpl in *; lia|].
  cbn [le_bytes le_value]. rewrite Nat2N.inj_succ, N.pow_succ_r' in H.
  rewrite IH by (apply N.div_lt_upper_bound; lia).
  pose proof (N.div_mod' n 256). lia.
Qed.

Lemma fold_left_sum {A} (f : A -> nat) l a : fold_left (fun acc e => acc + f e) l a = a + list_sum (map f l).
Proof. revert a; induction l as [|x l IH]; intros a; simpl; [lia|]. rewrite IH. unfold list_sum. simpl. lia. Qed.

Lemma length_concat_map {A B} (f : A -> list B) l :
  length (concat (map f l)) = list_sum (map (fun x => length (f x)) l).
Proof. induction l; simpl; auto. rewrite app_length, IHl. reflexivity. Qed.

Lemma list_sum_const {A} (f : A -> nat) l c : Forall (fun x => f x = c) l -> list_sum (map f l) = length l * c.
Proof. induction 1; simpl; auto. Qed.

Lemma list_sum_ext {A} (f g : A -> nat) l : Forall (fun x => f x = g x) l -> list_sum (map f l) = list_sum (map g l).
Proof. induction 1; simpl; auto. Qed.

Arguments le_bytes : simpl never.

(** plain types: enc = flat, constant length sizeof *)
Lemma plain_enc t : plain t = true -> forall v, has_type t v -> enc t v = flat v /\ length (enc t v) = sizeof t.
Proof.
  induction t as [n|a IHa b IHb|a IHa|n a IHa]; simpl; intros Hp v Hv; try discriminate.
  - destruct v; try contradiction. auto.
  - destruct v as [|x y|l]; try contradiction. destruct Hv as [Hl Hf].
    assert (G : concat (map (enc a) l) = concat (map flat l) /\ length (concat (map (enc a) l)) = length l * sizeof a).
    { clear Hl. induction Hf as [|x l Hx _ IH]; simpl; auto.
      destruct (IHa Hp x Hx) as [E1 E2], IH as [E3 E4].
      rewrite app_length, E2, E4, E1, E3. auto. }
    destruct G as [G1 G2]. split; [exact G1|]. now rewrite <- Hl.
Qed.

Lemma mem_fixed t : supported t = true -> mem t = true -> forall v, has_type t v -> length (enc t v) = fixed_size t.
Proof.
  induction t as [n|a IHa b IHb|a IHa|n a IHa]; intros Hs Hm v Hv; try discriminate.
  - destruct v; simpl in *; try contradiction. auto.
  - simpl in Hs, Hm. apply andb_prop in Hs as [Hs1 Hs2]. apply andb_prop in Hm as [Hm1 Hm2].
    destruct v as [|x y|]; simpl in Hv; try contradiction. simpl. rewrite app_length, IHa, IHb; tauto.
  - simpl in Hs, Hm. rewrite Hm in Hs. apply andb_prop in Hs as [Hs1 Hs2]. simpl in Hs2.
    rewrite orb_false_r in Hs2.
    destruct (@plain_enc (Arr n a)) with (v := v) as [_ E]; auto.
Qed.

Lemma size_enc t : supported t = true -> forall v, has_type t v -> size t v = length (enc t v).
Proof.
  induction t as [n|a IHa b IHb|a IHa|n a IHa]; intros Hs v Hv.
  - destruct v; simpl in *; try contradiction. auto.
  - simpl in Hs. apply andb_prop in Hs as [Hs1 Hs2].
    destruct v as [|x y|]; simpl in Hv; try contradiction. simpl. rewrite app_length, IHa, IHb; tauto.
  - simpl in Hs. destruct v as [|x y|l]; try (simpl in Hv; contradiction). destruct Hv as [Hl Hf].
    cbn [size enc]. rewrite app_length, le_bytes_length, length_concat_map. unfold sizeof_size_t.
    destruct (mem a) eqn:Hm.
    + rewrite (list_sum_const (fun x => length (enc a x)) l (fixed_size a)); [lia|].
      eapply Forall_impl; [|exact Hf]. intros; now apply mem_fixed.
    + rewrite fold_left_sum, (list_sum_ext (size a) (fun x => length (enc a x)) l); [lia|].
      eapply Forall_impl; [|exact Hf]. intros; now apply IHa.
  - destruct v as [|x y|l]; try (simpl in Hv; contradiction).
    destruct (mem a) eqn:Hm.
    + pose proof (@mem_fixed (Arr n a) Hs Hm (VSeq l) Hv) as E. rewrite E. cbn [size]. now rewrite Hm.
    + destruct Hv as [Hl Hf]. simpl in Hs. apply andb_prop in Hs as [Hs _].
      cbn [size enc]. rewrite Hm, length_concat_map, fold_left_sum.
      rewrite (list_sum_ext (size a) (fun x => length (enc a x)) l); [lia|].
      eapply Forall_impl; [|exact Hf]. intros; now apply IHa.
Qed.

(** Writing a then b is writing a ++ b. *)
Lemma put_app a b buf pos : pos + length (a ++ b) <= length buf ->
  obind (put a (buf, pos)) (fun s => put b s) = put (a ++ b) (buf, pos).
Proof.
  intros H. rewrite app_length in H. unfold put.
  replace (pos + length a <=? length buf) with true by (symmetry; apply Nat.leb_le; lia). unfold obind.
  rewrite (app_length a b).
  replace (pos + (length a + length b) <=? length buf) with true by (symmetry; apply Nat.leb_le; lia).
  assert (E : length (firstn pos buf ++ a ++ skipn (pos + length a) buf) = length buf).
  { rewrite !app_length, firstn_length, skipn_length. lia. }
  rewrite E.
  replace (pos + length a + length b <=? length buf) with true by (symmetry; apply Nat.leb_le; lia).
  f_equal. f_equal; [|lia].
  assert (E2 : length (firstn pos buf ++ a) = pos + length a) by (rewrite app_length, firstn_length; lia).
  rewrite (app_assoc (firstn pos buf) a).
  rewrite firstn_app, skipn_app, E2, Nat.sub_diag, firstn_O, app_nil_r.
  rewrite firstn_all2 by lia. rewrite skipn_all2 by lia. rewrite skipn_skipn.
  rewrite <- !app_assoc. simpl app. do 4 f_equal. lia.
Qed.

Lemma put_fits bs buf pos : pos + length bs <= length buf -> exists buf',
  put bs (buf, pos) = Ok (buf', pos + length bs) /\ length buf' = length buf.
Proof.
  intros H. unfold put. replace (pos + length bs <=? length buf) with true by (symmetry; apply Nat.leb_le; lia).
  eexists. split; [reflexivity|]. rewrite !app_length, firstn_length, skipn_length. lia.
Qed.

Lemma put_nil buf pos : pos <= length buf -> put [] (buf, pos) = Ok (buf, pos).
Proof.
  intros H. unfold put. simpl. rewrite Nat.add_0_r.
  replace (pos <=? length buf) with true by (symmetry; apply Nat.leb_le; lia).
  now rewrite firstn_skipn.
Qed.

Lemma ofold_put {A} (e : A -> list byte) (f : buffer -> A -> outcome buffer) l : forall buf pos,
  (forall x buf pos, In x l -> pos + length (e x) <= length buf -> f (buf, pos) x = put (e x) (buf, pos)) ->
  pos + length (concat (map e l)) <= length buf ->
  ofold f l (buf, pos) = put (concat (map e l)) (buf, pos).
Proof.
  induction l as [|x l IH]; intros buf pos Hf Hfit; simpl in *.
  - symmetry. apply put_nil. lia.
  - rewrite app_length in Hfit. rewrite Hf by (auto; lia).
    rewrite <- put_app by (rewrite app_length; lia).
    destruct (@put_fits (e x) buf pos) as (buf' & E & El); [lia|]. rewrite E. simpl.
    apply IH; [auto|lia].
Qed.

Lemma pack_put t : supported t = true -> forall v buf pos, has_type t v ->
  pos + length (enc t v) <= length buf -> pack t v (buf, pos) = put (enc t v) (buf, pos).
Proof.
  induction t as [n|a IHa b IHb|a IHa|n a IHa]; intros Hs v buf pos Hv Hfit.
  - destruct v; simpl in *; try contradiction. reflexivity.
  - simpl in Hs. apply andb_prop in Hs as [Hs1 Hs2].
    destruct v as [|x y|]; simpl in Hv; try contradiction. destruct Hv as [Hx Hy].
    cbn [pack enc] in *. rewrite app_length in Hfit. rewrite IHa by (auto; lia).
    rewrite <- put_app by (rewrite app_length; lia).
    destruct (@put_fits (enc a x) buf pos) as (buf' & E & El); [lia|]. rewrite E. simpl.
    apply IHb; auto; lia.
  - simpl in Hs. destruct v as [|x y|l]; try (simpl in Hv; contradiction). destruct Hv as [Hl Hf].
    cbn [pack enc] in *. rewrite app_length in Hfit.
    rewrite <- put_app by (rewrite app_length; lia).
    destruct (@put_fits (le_bytes 8 (N.of_nat (length l))) buf pos) as (buf' & E & El); [lia|].
    rewrite E. unfold obind. apply ofold_put with (e := enc a); [|rewrite El; lia].
    intros x buf0 pos0 Hx Hfit0. apply IHa; auto. eapply Forall_forall in Hf; eauto.
  - destruct v as [|x y|l]; try (simpl in Hv; contradiction). cbn [pack].
    destruct (mem a) eqn:Hm.
    + simpl in Hs. rewrite Hm in Hs. apply andb_prop in Hs as [Hs1 Hs2]. simpl in Hs2.
      rewrite orb_false_r in Hs2.
      destruct (@plain_enc (Arr n a)) with (v := VSeq l) as [E _]; auto. now rewrite E.
    + simpl in Hs. apply andb_prop in Hs as [Hs _]. destruct Hv as [Hl Hf]. apply ofold_put; auto.
      intros x buf0 pos0 Hx Hfit0. apply IHa; auto. eapply Forall_forall in Hf; eauto.
Qed.

(** ** Reading *)
(** The buffer holds bs at position pos. *)
Definition at_pos (bs : list byte) (buf : list byte) (pos : nat) : Prop :=
  exists pre post, buf = pre ++ bs ++ post /\ length pre = pos.

Lemma at_pos_app a b buf pos : at_pos (a ++ b) buf pos -> at_pos a buf pos /\ at_pos b buf (pos + length a).
Proof.
  intros (pre & post & -> & <-). split.
  - exists pre, (b ++ post). now rewrite <- app_assoc.
  - exists (pre ++ a), post. rewrite app_length, <- !app_assoc. auto.
Qed.

Lemma get_at bs buf pos : at_pos bs buf pos -> get (length bs) (buf, pos) = Ok (bs, (buf, pos + length bs)).
Proof.
  intros (pre & post & -> & <-). unfold get. rewrite !app_length.
  replace (length pre + length bs <=? _) with true by (symmetry; apply Nat.leb_le; lia).
  rewrite skipn_app, skipn_all2, Nat.sub_diag by lia. simpl.
  now rewrite firstn_app, Nat.sub_diag, firstn_all, firstn_O, app_nil_r.
Qed.

Lemma put_at bs buf pos buf' p : put bs (buf, pos) = Ok (buf', p) -> at_pos bs buf' pos.
Proof.
  unfold put. destruct (Nat.leb_spec (pos + length bs) (length buf)); [|discriminate].
  intros [= <- <-]. exists (firstn pos buf), (skipn (pos + length bs) buf). split; auto.
  rewrite firstn_length. lia.
Qed.

Lemma unpack_n_at (f : buffer -> outcome (val * buffer)) (e : val -> list byte) buf l : forall pos,
  (forall x pos, In x l -> at_pos (e x) buf pos -> f (buf, pos) = Ok (x, (buf, pos + length (e x)))) ->
  at_pos (concat (map e l)) buf pos ->
  unpack_n f (length l) (buf, pos) = Ok (l, (buf, pos + length (concat (map e l)))).
Proof.
  induction l as [|x l IH]; intros pos Hf Hat; simpl in *.
  - now rewrite Nat.add_0_r.
  - apply at_pos_app in Hat as [H1 H2]. rewrite (Hf x) by auto. simpl. rewrite IH by auto. simpl.
    rewrite app_length. do 3 f_equal. lia.
Qed.

Lemma concat_chunk {A} (ls : list (list A)) c i x : Forall (fun l => length l = c) ls ->
  nth_error ls i = Some x -> firstn c (skipn (i * c) (concat ls)) = x.
Proof.
  intros H. revert i; induction H as [|l ls Hl H IH]; intros [|i] E; simpl in E; try discriminate.
  - injection E as ->. simpl. subst c. rewrite firstn_app, Nat.sub_diag, firstn_all, firstn_O, app_nil_r. auto.
  - simpl. rewrite skipn_app, skipn_all2 by (rewrite Hl; lia). simpl.
    rewrite Hl. replace (c + i * c - c) with (i * c) by lia. auto.
Qed.

Lemma map_seq_nth {A B} (f : nat -> B) (g : A -> B) l :
  (forall i x, nth_error l i = Some x -> f i = g x) -> map f (seq 0 (length l)) = map g l.
Proof.
  revert f; induction l as [|x l IH]; intros f H; simpl; auto.
  rewrite (H 0 x eq_refl). f_equal. rewrite <- seq_shift, map_map. apply IH.
  intros i y Hy. now apply (H (S i)).
Qed.

Lemma unflat_flat t : plain t = true -> forall v, has_type t v -> unflat t (flat v) = v.
Proof.
  induction t as [n|a IHa b IHb|a IHa|n a IHa]; simpl; intros Hp v Hv; try discriminate.
  - destruct v; try contradiction. reflexivity.
  - destruct v as [|x y|l]; try contradiction. destruct Hv as [<- Hf]. f_equal.
    transitivity (map (fun x => x) l); [|now rewrite map_id].
    apply map_seq_nth. intros i x Hx. simpl flat.
    assert (Hc : Forall (fun l => length l = sizeof a) (map flat l)).
    { apply Forall_forall. intros y Hy. apply in_map_iff in Hy as (z & <- & Hz).
      eapply Forall_forall in Hf; eauto. destruct (plain_enc _ Hp _ Hf) as [<- E]. auto. }
    rewrite (@concat_chunk _ (map flat l) (sizeof a) i (flat x)); auto.
    + apply IHa; auto. eapply Forall_forall in Hf; eauto. eapply nth_error_In; eauto.
    + rewrite nth_error_map, Hx. reflexivity.
Qed.

Lemma unpack_at t : supported t = true -> forall v buf pos, has_type t v -> at_pos (enc t v) buf pos ->
  unpack t (buf, pos) = Ok (v, (buf, pos + length (enc t v))).
Proof.
  induction t as [n|a IHa b IHb|a IHa|n a IHa]; intros Hs v buf pos Hv Hat.
  - destruct v; simpl in *; try contradiction. subst n. rewrite (get_at _ _ _ Hat). reflexivity.
  - simpl in Hs. apply andb_prop in Hs as [Hs1 Hs2].
    destruct v as [|x y|]; simpl in Hv; try contradiction. destruct Hv as [Hx Hy].
    cbn [unpack enc] in *. apply at_pos_app in Hat as [H1 H2].
    rewrite (IHa Hs1 x) by auto. simpl. rewrite (IHb Hs2 y) by auto. simpl. rewrite app_length.
    do 3 f_equal. lia.
  - simpl in Hs. destruct v as [|x y|l]; try (simpl in Hv; contradiction). destruct Hv as [Hl Hf].
    cbn [unpack enc] in *. apply at_pos_app in Hat as [H1 H2]. rewrite le_bytes_length in H2.
    pose proof (get_at _ _ _ H1) as G. rewrite le_bytes_length in G. rewrite G. cbn beta iota delta [obind fst snd].
    cbn [fst snd]. rewrite le_roundtrip by exact Hl. rewrite Nat2N.id.
    rewrite (unpack_n_at _ (enc a)); auto.
    + cbn beta iota delta [obind fst snd]. rewrite app_length, le_bytes_length. do 3 f_equal. lia.
    + intros x p Hx Hp. apply IHa; auto. eapply Forall_forall in Hf; eauto.
  - destruct v as [|x y|l]; try (simpl in Hv; contradiction). cbn [unpack].
    destruct (mem a) eqn:Hm.
    + pose proof Hs as Hs'. simpl in Hs. rewrite Hm in Hs. apply andb_prop in Hs as [Hs1 Hs2]. simpl in Hs2.
      rewrite orb_false_r in Hs2.
      destruct (@plain_enc (Arr n a)) with (v := VSeq l) as [E1 E2]; auto.
      rewrite <- E2. rewrite (get_at _ _ _ Hat). cbn beta iota delta [obind fst snd]. rewrite E1 at 1.
      rewrite (unflat_flat (Arr n a)) by auto. reflexivity.
    + simpl in Hs. apply andb_prop in Hs as [Hs _]. destruct Hv as [<- Hf]. cbn [enc] in *.
      rewrite (unpack_n_at _ (enc a)); auto.
      intros x p Hx Hp. apply IHa; auto. eapply Forall_forall in Hf; eauto.
Qed.

(** ** The entry points *)
Lemma vresize_length d bytes n : length (vresize d bytes n) = n * d.
Proof. unfold vresize. rewrite app_length, firstn_length, repeat_length. lia. Qed.

Lemma pack_at_spec t v buf pos : supported t = true -> has_type t v -> pos + size t v <= length buf ->
  exists buf', pack t v (buf, pos) = Ok (buf', pos + size t v) /\
    unpack t (buf', pos) = Ok (v, (buf', pos + size t v)) /\
    length buf' = length buf /\
    (forall i, i < pos \/ pos + size t v <= i -> nth_error buf' i = nth_error buf i).
Proof.
  intros Hs Hv Hfit. rewrite size_enc in * by auto.
  rewrite pack_put by auto. destruct (put_fits _ _ _ Hfit) as (buf' & E & El).
  exists buf'. split; auto. split; [apply unpack_at; auto; eapply put_at; eauto|]. split; auto.
  intros i Hi. unfold put in E. destruct (pos + length (enc t v) <=? length buf) eqn:El'; [|discriminate].
  injection E as <-. apply Nat.leb_le in El'.
  assert (Hfl : length (firstn pos buf) = pos) by (rewrite firstn_length; lia).
  destruct Hi as [Hi|Hi].
  - rewrite nth_error_app1 by lia. rewrite <- (firstn_skipn pos buf) at 2.
    rewrite nth_error_app1 by lia. reflexivity.
  - rewrite app_assoc, nth_error_app2; rewrite app_length, Hfl; [|lia].
    rewrite <- (firstn_skipn (pos + length (enc t v)) buf) at 2.
    rewrite (nth_error_app2 (firstn _ _)); rewrite firstn_length_le by lia; [reflexivity|lia].
Qed.

Lemma pack_vec_spec t v d vect : supported t = true -> has_type t v -> 0 < d ->
  exists buf, pack_vec t v d vect = Ok (buf, size t v) /\ unpack_vec t buf = Ok v.
Proof.
  intros Hs Hv Hd. unfold pack_vec.
  destruct (pack_at_spec t v (vresize d vect (size t v / d + 1)) 0 Hs Hv) as (buf & E & U & _ & _).
  - rewrite vresize_length. pose proof (Nat.div_mod (size t v) d ltac:(lia)).
    pose proof (Nat.mod_upper_bound (size t v) d ltac:(lia)). nia.
  - exists buf. rewrite E. simpl. split; auto. unfold unpack_vec. rewrite U. reflexivity.
Qed.

Lemma pack_avoid_resize_spec t v d vect : supported t = true -> has_type t v -> 0 < d ->
  exists buf, pack_avoid_resize t v d vect = Ok (buf, size t v) /\ unpack_vec t buf = Ok v.
Proof.
  intros Hs Hv Hd. unfold pack_avoid_resize.
  destruct (pack_at_spec t v (if length vect / d <? size t v then vresize d vect (size t v / d + 1) else vect) 0 Hs Hv)
    as (buf & E & U & _ & _).
  - destruct (Nat.ltb_spec (length vect / d) (size t v)) as [H|H].
    + rewrite vresize_length. pose proof (Nat.div_mod (size t v) d ltac:(lia)).
      pose proof (Nat.mod_upper_bound (size t v) d ltac:(lia)). nia.
    + pose proof (Nat.mul_div_le (length vect) d ltac:(lia)). nia.
  - exists buf. rewrite E. simpl. split; auto. unfold unpack_vec. rewrite U. reflexivity.
Qed.

(** vector<pair<int, vector<array<double,3>>>> with two entries *)
Example ex_serial_typed :
  let t := Vec (Pair (Pod 4) (Vec (Arr 3 (Pod 8)))) in
  let d b := VPod (repeat b 8) in
  let v := VSeq [VPair (VPod [1; 0; 0; 0]%N) (VSeq [VSeq [d 1%N; d 2%N; d 3%N]]);
                 VPair (VPod [2; 0; 0; 0]%N) (VSeq [])] in
  supported t = true /\ has_type t v /\ size t v = 8 + (4 + 8 + 24) + (4 + 8).
Proof. cbv zeta. split; [reflexivity|]. split; [|reflexivity]. repeat (constructor || simpl; auto). Qed.
