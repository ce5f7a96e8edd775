(** C84: the timing file. *)
From Coq Require Import Reals Lra.
From Verif Require Import Base ListLemmas Strings StopwatchModel StopwatchSpec StopwatchProofs InputProofs3.
Set Implicit Arguments.
Local Open Scope Z_scope.
Local Open Scope list_scope.

(** *** Words *)
Lemma pieces_end c w : ~ In c w -> pieces c w = [w].
Proof.
  induction w as [|x w IH]; intros H; [reflexivity|]. cbn [pieces]. destruct (ascii_dec x c) as [->|]; [now destruct H; left|].
  rewrite IH; [reflexivity|]. intros Hi. apply H. now right.
Qed.
Lemma pieces_word c w r : ~ In c w -> pieces c (w ++ c :: r) = w :: pieces c r.
Proof.
  induction w as [|x w IH]; intros H; cbn [app pieces].
  - destruct (ascii_dec c c); congruence.
  - destruct (ascii_dec x c) as [->|]; [now destruct H; left|]. rewrite IH; [reflexivity|]. intros Hi. apply H. now right.
Qed.
Lemma digits_no c w : is_digit c = false -> digits w -> ~ In c w.
Proof. intros Hc Hw Hi. unfold digits in Hw. rewrite Forall_forall in Hw. apply Hw in Hi. congruence. Qed.
Lemma pieces_joined w ws : Forall digits (w :: ws) -> pieces dot (joined (w :: ws)) = w :: ws.
Proof.
  revert w. induction ws as [|v ws IH]; intros w H; inversion H; subst.
  - cbn [joined]. apply pieces_end. now apply digits_no.
  - rewrite joined_cons, pieces_word by (now apply digits_no). now rewrite IH.
Qed.

Lemma localtime_ok zone t : 0 <= t + zone t -> exists_date (localtime zone t) /\ instant_of (localtime zone t) = t + zone t /\ 1970 <= tm_year (localtime zone t).
Proof. apply broken_down_ok. Qed.

(** *** Property C84 *)
(** The stamp shows the local date and time of day and the microsecond *)
Theorem C84_stamp zone now : 0 <= now / 1000000000 + zone (now / 1000000000) ->
  exists b, exists_date b /\ instant_of b = now / 1000000000 + zone (now / 1000000000) /\
    map number (pieces "." (microsecond_stamp zone now)) =
      [tm_year b; tm_mon b; tm_mday b; tm_hour b; tm_min b; tm_sec b; now / 1000 mod 1000000] /\
    map (@List.length ascii) (tl (pieces "." (microsecond_stamp zone now))) = [2; 2; 2; 2; 2; 6]%nat.
Proof.
  intros H. change (now / 1000000000) with (whole_seconds now) in *. destruct (@localtime_ok zone _ H) as (A1 & A2 & A3).
  exists (localtime zone (whole_seconds now)). split; [exact A1|]. split; [exact A2|].
  destruct (part_us now) as (P1 & P2 & P3). destruct (@words_ok _ _ A1 P2 ltac:(lia)) as (W1 & W2 & W3).
  rewrite stamp_joined. change "."%char with dot. rewrite (pieces_joined W1). rewrite W2. rewrite <- P1. split; [reflexivity|exact W3].
Qed.
Example C84_stamp_used :
  microsecond_stamp (fun _ => -25200) 1709276399123456789 = lit "2024.02.29.23.59.59.123456" /\
  0 <= 1709276399123456789 / 1000000000 + -25200.
Proof. split; [vm_compute; reflexivity|vm_compute; discriminate]. Qed.

(** The name of the file *)
Lemma stamp_plain zone now : 0 <= whole_seconds now + zone (whole_seconds now) -> map no_space (microsecond_stamp zone now) = microsecond_stamp zone now.
Proof.
  intros H. rewrite stamp_joined. destruct (@localtime_ok zone _ H) as (A1 & A2 & A3). destruct (part_us now) as (P1 & P2 & P3).
  destruct (@words_ok _ _ A1 P2 ltac:(lia)) as (W1 & _ & _). revert W1.
  generalize (put_year (tm_year (localtime zone (whole_seconds now))) :: words (localtime zone (whole_seconds now)) (part 1000 now)).
  assert (Hd : forall w, digits w -> map no_space w = w).
  { induction w as [|c w IH]; intros Hw; inversion Hw; subst; [reflexivity|]. cbn [map]. f_equal; [|auto].
    unfold no_space. destruct (ascii_dec c " ") as [->|]; [discriminate|reflexivity]. }
  induction l as [|w ws IH]; intros Hw; inversion Hw; subst; [reflexivity|]. destruct ws as [|v ws]; [now apply Hd|].
  rewrite joined_cons, map_app, Hd by assumption. cbn [map]. rewrite IH by assumption. reflexivity.
Qed.
Lemma file_name_eq zone n now a b c d e : shown zone now ->
  file_name (TimingInfo n (microsecond_stamp zone now) a b c d e) = name_of zone n now.
Proof.
  intros (H & _). unfold file_name. cbn [ti_num_ranks ti_time_stamp]. rewrite !map_app, stamp_plain by exact H.
  unfold name_of. f_equal. f_equal. pose proof (dec_digits n) as Hd. induction Hd as [|x w Hx Hw IH]; [reflexivity|]. cbn [map]. rewrite IH. f_equal.
  unfold no_space. destruct (ascii_dec x " ") as [->|]; [discriminate|reflexivity].
Qed.
Lemma split_word c a : forall b x y, is_digit c = false -> digits a -> digits b -> a ++ c :: x = b ++ c :: y -> a = b /\ x = y.
Proof.
  induction a as [|u a IH]; intros [|v b] x y Hc Ha Hb E; cbn [app] in E.
  - split; congruence.
  - inversion Hb; congruence.
  - inversion Ha; congruence.
  - inversion Ha; subst. inversion Hb; subst. destruct (IH b x y) as (-> & ->); auto; [congruence|]. split; congruence.
Qed.

(** File names of runs on equally many ranks are listed in the order of time, the names of two runs are the
    same only if they have equally many ranks and ended in the same microsecond. *)
Theorem C84_names zone : never_set_back zone -> forall n a b, shown zone a -> shown zone b ->
  (before (name_of zone n a) (name_of zone n b) <-> a / 1000 < b / 1000) /\
  (forall n', name_of zone n a = name_of zone n' b <-> n = n' /\ same_microsecond a b).
Proof.
  intros Hz n a b Ha Hb. destruct Ha as (A1 & A2), Hb as (B1 & B2). change (?x / 1000000000) with (whole_seconds x) in *.
  pose proof (fun e H => @stamp_before zone a b e Hz A1 B2 H) as Hab. pose proof (fun e H => @stamp_before zone b a e Hz B1 A2 H) as Hba.
  split.
  - unfold name_of. rewrite !before_same. split; [|apply Hab]. intros H.
    destruct (Z.lt_trichotomy (a / 1000) (b / 1000)) as [L|[L|L]]; [exact L| |].
    + rewrite (stamp_same zone _ _ L) in H. now apply before_irrefl in H.
    + now destruct (before_asym _ _ H (Hba _ L)).
  - intros n'. split.
    + intros E. unfold name_of in E. apply app_inv_head in E. cbn [lit list_ascii_of_string app] in E.
      apply split_word in E as (E1 & E2); [|reflexivity|apply dec_digits|apply dec_digits].
      apply dec_inj in E1. split; [exact E1|]. unfold same_microsecond.
      destruct (Z.lt_trichotomy (a / 1000) (b / 1000)) as [L|[L|L]]; [|exact L|].
      * specialize (Hab (lit ".log") L). cbn [lit list_ascii_of_string] in Hab. rewrite E2 in Hab. now apply before_irrefl in Hab.
      * specialize (Hba (lit ".log") L). cbn [lit list_ascii_of_string] in Hba. rewrite E2 in Hba. now apply before_irrefl in Hba.
    + intros (<- & E). unfold name_of. now rewrite (stamp_same zone _ _ E).
Qed.
Example C84_names_used : never_set_back (fun _ => 3600) /\ shown (fun _ => 3600) 999999999 /\ shown (fun _ => 3600) 1793000000000000000 /\
  name_of (fun _ => 3600) 16 1793000000000000000 = lit "nimble_timing_data_n16_2026.10.26.08.33.20.000000.log".
Proof.
  split; [intros a b H; lia|]. split; [vm_compute; split; [discriminate|reflexivity]|].
  split; [vm_compute; split; [discriminate|reflexivity]|]. vm_compute. reflexivity.
Qed.

(** What a run leaves *)
Lemma finish_eq put zone fs e : shown zone (e_now e) ->
  (writes zone e -> finish put zone fs e = assoc_set chars_eqb (name_of zone (e_ranks e) (e_now e))
     (dec (e_ranks e) ++ [tab] ++ put (t_simulation (e_totals e)) ++ [tab] ++ put (t_force (e_totals e)) ++ [tab] ++
      put (t_contact (e_totals e)) ++ [tab] ++ put (t_exodus (e_totals e)) ++ [tab] ++ put (t_reduction (e_totals e)) ++ [newline]) fs) /\
  (~ writes zone e -> finish put zone fs e = fs).
Proof.
  intros Hs. unfold finish, write_timing, writes, binary_write. rewrite file_name_eq by exact Hs. unfold file_text.
  cbn [ti_num_ranks ti_simulation ti_internal ti_contact ti_exodus ti_reduction].
  destruct (Nat.eqb_spec (e_rank e) 0) as [E|E]; cbn [andb]; [|split; [intros (H & _); contradiction|reflexivity]].
  destruct (e_asked e); [|split; [intros (_ & H & _); discriminate|reflexivity]].
  destruct (e_opens e _); split; try reflexivity; [intros H; destruct H; auto|intros (_ & _ & H); discriminate].
Qed.
Lemma other_history put zone name es : forall fs, Forall (fun e => shown zone (e_now e)) es ->
  Forall (fun e => writes zone e -> name_of zone (e_ranks e) (e_now e) <> name) es ->
  assoc chars_eqb name (fold_left (finish put zone) es fs) = assoc chars_eqb name fs.
Proof.
  induction es as [|e es IH]; intros fs Hs Hn; [reflexivity|]. inversion Hs; subst. inversion Hn; subst. cbn [fold_left]. rewrite IH by assumption.
  destruct (@finish_eq put zone fs e) as (F1 & F2); [assumption|].
  assert (Hw : writes zone e \/ ~ writes zone e).
  { unfold writes. destruct (Nat.eq_dec (e_rank e) 0), (e_asked e), (e_opens e (name_of zone (e_ranks e) (e_now e))); intuition congruence. }
  destruct Hw as [Hw|Hw]; [|now rewrite F2]. rewrite F1 by exact Hw. rewrite (assoc_assoc_set chars_eqb chars_eqb_eq).
  destruct (chars_eqb name _) eqn:E; [|reflexivity]. apply chars_eqb_eq in E. symmetry in E. now destruct (H3 Hw).
Qed.

(** After any history of runs the file of every run that wrote one, and was not followed by another in the same
    microsecond on equally many ranks, is there and has the number of ranks and the five times in one line; every
    other file is as it was. *)
Theorem C84_files put zone fs es : never_set_back zone -> Forall (fun e => shown zone (e_now e)) es ->
  (forall x, ~ In tab (put x) /\ ~ In newline (put x)) ->
  (forall first e later, es = first ++ e :: later -> writes zone e ->
     (forall e', In e' later -> writes zone e' -> ~ (e_ranks e' = e_ranks e /\ same_microsecond (e_now e') (e_now e))) ->
     exists line, assoc chars_eqb (name_of zone (e_ranks e) (e_now e)) (fold_left (finish put zone) es fs) = Some (line ++ [newline]) /\
       ~ In newline line /\
       pieces tab line = [dec (e_ranks e); put (t_simulation (e_totals e)); put (t_force (e_totals e)); put (t_contact (e_totals e));
                          put (t_exodus (e_totals e)); put (t_reduction (e_totals e))]) /\
  (forall name, (forall e, In e es -> writes zone e -> name <> name_of zone (e_ranks e) (e_now e)) ->
     assoc chars_eqb name (fold_left (finish put zone) es fs) = assoc chars_eqb name fs).
Proof.
  intros Hz Hs Hp. split.
  - intros first e later -> Hw Hl. rewrite Forall_app in Hs. destruct Hs as (Hs1 & Hs2). inversion Hs2; subst.
    rewrite fold_left_app. cbn [fold_left].
    assert (Hd : ~ In tab (dec (e_ranks e))) by (apply digits_no; [reflexivity|apply dec_digits]).
    assert (Hn : ~ In newline (dec (e_ranks e))) by (apply digits_no; [reflexivity|apply dec_digits]).
    exists (dec (e_ranks e) ++ [tab] ++ put (t_simulation (e_totals e)) ++ [tab] ++ put (t_force (e_totals e)) ++ [tab] ++
      put (t_contact (e_totals e)) ++ [tab] ++ put (t_exodus (e_totals e)) ++ [tab] ++ put (t_reduction (e_totals e))). split; [|split].
    + rewrite other_history; [|assumption|].
      * destruct (@finish_eq put zone (fold_left (finish put zone) first fs) e ltac:(assumption)) as (F1 & _). rewrite (F1 Hw).
        rewrite (assoc_assoc_set chars_eqb chars_eqb_eq). replace (chars_eqb _ _) with true by (symmetry; now apply chars_eqb_eq).
        rewrite <- !app_assoc. reflexivity.
      * rewrite Forall_forall in *. intros e' He' Hw' E. symmetry in E. apply (@C84_names zone Hz (e_ranks e) (e_now e) (e_now e')) in E; auto.
        apply (Hl e' He' Hw'). destruct E as (E1 & E2). unfold same_microsecond in *. auto.
    + intros Hi. assert (Ht : ~ In newline [tab]) by (intros [H|[]]; discriminate).
      repeat (apply in_app_or in Hi; destruct Hi as [Hi|Hi]); try contradiction; revert Hi; apply Hp.
    + cbn [app]. rewrite pieces_word by exact Hd. rewrite !pieces_word by apply Hp. now rewrite pieces_end by apply Hp.
  - intros name Hn. apply other_history; [exact Hs|]. rewrite Forall_forall. intros e He Hw E. symmetry in E. revert E. now apply Hn.
Qed.
(** Two runs an hour and a microsecond apart, the second on another number of ranks *)
Example C84_files_used :
  let put := fun _ : R => lit "0.5" in
  let e1 := Ending 0 true 4 1793000000000000000 (Totals 1 1 1 1 1) (fun _ => true) in
  let e2 := Ending 0 true 8 1793003600000001000 (Totals 2 1 0 1 1) (fun _ => true) in
  let quiet := Ending 3 true 8 1793003600000001000 (Totals 2 1 0 1 1) (fun _ => true) in
  Forall (fun e => shown (fun _ => 0) (e_now e)) [e1; e2; quiet] /\ writes (fun _ => 0) e1 /\ writes (fun _ => 0) e2 /\ ~ writes (fun _ => 0) quiet /\
  (forall x, ~ In tab (put x) /\ ~ In newline (put x)).
Proof.
  repeat split; try (repeat constructor; vm_compute; (discriminate || reflexivity)).
  - intros (H & _). discriminate.
  - cbn. intuition discriminate.
  - cbn. intuition discriminate.
Qed.

(** Refuted: when the clock is set back, two runs an hour apart have the same file, and the first result is lost *)
Theorem C84_summer_time_refuted :
  exists zone a b, a + 3600 * 1000000000 <= b /\ shown zone a /\ shown zone b /\
    forall put t1 t2,
    let opens := fun _ => true in
    let after1 := write_timing put opens zone 0 true 4 a t1 [] in
    let after2 := write_timing put opens zone 0 true 4 b t2 after1 in
    map fst after2 = map fst after1 /\ List.length after2 = 1%nat.
Proof.
  (* central Europe, 25 October 2026, 01:00 UTC *)
  exists (fun t => if t <? 1792890000 then 7200 else 3600), 1792888200000000000, 1792891800000000000.
  split; [vm_compute; discriminate|]. split; [vm_compute; split; [discriminate|reflexivity]|].
  split; [vm_compute; split; [discriminate|reflexivity]|]. intros put t1 t2 opens after1 after2.
  assert (E : microsecond_stamp (fun t => if t <? 1792890000 then 7200 else 3600) 1792888200000000000 =
              microsecond_stamp (fun t => if t <? 1792890000 then 7200 else 3600) 1792891800000000000) by (vm_compute; reflexivity).
  unfold after2, after1, write_timing, binary_write, opens. cbn [Nat.eqb andb assoc_set].
  unfold file_name. cbn [ti_num_ranks ti_time_stamp]. rewrite E.
  set (k := map no_space _). replace (chars_eqb k k) with true by (symmetry; now apply chars_eqb_eq). split; reflexivity.
Qed.

(** Refuted: the stamp with milliseconds reads the clock twice, so a later stamp can name an earlier time *)
Theorem C84_milliseconds_refuted :
  exists now1 later1 now2 later2, now1 <= later1 /\ later1 < now2 /\ now2 <= later2 /\
    before (millisecond_stamp (fun _ => 0) now2 later2) (millisecond_stamp (fun _ => 0) now1 later1).
Proof.
  exists 1793000000500000000, 1793000000500000100, 1793000000999999900, 1793000001000000100.
  split; [lia|]. split; [lia|]. split; [lia|]. vm_compute. repeat (right; split; [reflexivity|]). left. reflexivity.
Qed.
