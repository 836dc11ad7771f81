(** Replaying a recording: what a replay notices and what it does not. *)
From Coq Require Import ZArith List Bool Lia ZifyBool.
From Verif Require Import GoPrims PrimLemmas Recorder PropsMisc.
Import ListNotations.
Open Scope Z_scope.

(** * C64 (false: the bytes written are not compared) *)
(** Direction of each byte transferred ([true]: written), and the bytes read. *)
Definition dirs (w : bool) (n : Z) : list bool := repeat w (Z.to_nat n).
Definition asked (o : pop) : list bool := match o with PRead n => dirs false n | PWrite b => dirs true (zlen b) end.
Definition recorded (e : event) : list bool := dirs (ev_write e) (zlen (ev_data e)).
Definition recorded_reads (e : event) : bytes := if ev_write e then [] else ev_data e.
Definition sensible (o : pop) : Prop := match o with PRead n => 0 <= n | PWrite _ => True end.
Definition fine (r : pout) : Prop := po_fail r = false.
Definition left (p : player) : list event := skipn (pl_cur p) (pl_events p).

Lemma dirs_add w a b : 0 <= a -> 0 <= b -> dirs w (a + b) = dirs w a ++ dirs w b.
Proof. intros. unfold dirs. rewrite Z2Nat.inj_add, repeat_app by lia. reflexivity. Qed.
Lemma skipn_here : forall A (l : list A) i x, nth_error l i = Some x -> skipn i l = x :: skipn (S i) l.
Proof. induction l as [|y l IH]; intros [|i] x E; cbn in *; try discriminate; [congruence|]. exact (IH i x E). Qed.
Lemma skipn_set : forall i e l, skipn (S i) (set_nth i e l) = skipn (S i) l.
Proof. induction i as [|i IH]; intros e [|x l]; try reflexivity. cbn [set_nth]. rewrite !skipn_cons. apply IH. Qed.
Lemma nth_set : forall i e l x, nth_error l i = Some x -> nth_error (set_nth i e l) i = Some e.
Proof. induction i as [|i IH]; intros e [|y l] x E; cbn in *; try discriminate; [reflexivity|]. eauto. Qed.

Lemma play_call_fine : forall p o, sensible o -> fine (fst (play_call p o)) ->
  flat_map recorded (left p) = asked o ++ flat_map recorded (left (snd (play_call p o))) /\
  flat_map recorded_reads (left p) = po_data (fst (play_call p o)) ++ flat_map recorded_reads (left (snd (play_call p o))).
Proof.
  intros p o Ho. unfold play_call, fine, left. destruct (nth_error (pl_events p) (pl_cur p)) as [e|] eqn:E; [|discriminate].
  rewrite (skipn_here _ _ _ _ E).
  assert (G : forall n w, 0 <= n -> asked o = dirs w n -> 
    let r := (if negb (Bool.eqb (ev_write e) w) then ({| po_data := []; po_n := 0; po_fail := true |}, p)
      else
        let taken := ztake n (ev_data e) in
        let e' := {| ev_data := zdrop n (ev_data e); ev_write := ev_write e; ev_done := ev_done e; ev_err := ev_err e |} in
        let evs := set_nth (pl_cur p) e' (pl_events p) in
        let data := if w then [] else taken in
        if zlen taken <? n then
          ({| po_data := data; po_n := zlen taken; po_fail := true |}, {| pl_events := evs; pl_cur := pl_cur p |})
        else
          ({| po_data := data; po_n := n; po_fail := false |},
           {| pl_events := evs; pl_cur := if zlen (ev_data e') =? 0 then S (pl_cur p) else pl_cur p |})) in
    po_fail (fst r) = false ->
    flat_map recorded (e :: skipn (S (pl_cur p)) (pl_events p)) = asked o ++ flat_map recorded (skipn (pl_cur (snd r)) (pl_events (snd r))) /\
    flat_map recorded_reads (e :: skipn (S (pl_cur p)) (pl_events p)) = po_data (fst r) ++ flat_map recorded_reads (skipn (pl_cur (snd r)) (pl_events (snd r)))).
  { intros n w Hn HA r. subst r. destruct (Bool.eqb (ev_write e) w) eqn:W; cbn [negb]; [|discriminate]. apply Bool.eqb_prop in W.
    cbv zeta. destruct (zlen (ztake n (ev_data e)) <? n) eqn:L; [discriminate|]. intros _. cbn [fst snd po_data pl_events pl_cur ev_data].
    assert (LN : n <= zlen (ev_data e)).
    { pose proof (zlen_nonneg (ev_data e)). rewrite zlen_ztake in L by lia. lia. }
    assert (LD : zlen (zdrop n (ev_data e)) = zlen (ev_data e) - n) by (rewrite zlen_zdrop by lia; lia).
    set (e' := {| ev_data := zdrop n (ev_data e); ev_write := ev_write e; ev_done := ev_done e; ev_err := ev_err e |}).
    assert (R1 : recorded e = asked o ++ recorded e').
    { unfold recorded. cbn [e' ev_write ev_data]. rewrite HA, LD, <- W, <- dirs_add by lia. f_equal. lia. }
    assert (R2 : recorded_reads e = (if w then [] else ztake n (ev_data e)) ++ recorded_reads e').
    { unfold recorded_reads. cbn [e' ev_write ev_data]. rewrite W. destruct w; [reflexivity|]. now rewrite ztake_zdrop. }
    cbn [flat_map]. rewrite R1, R2, <- !app_assoc.
    destruct (zlen (zdrop n (ev_data e)) =? 0) eqn:Z0.
    - rewrite skipn_set. assert (zdrop n (ev_data e) = []) as E0 by (destruct (zdrop n (ev_data e)) as [|x l]; [reflexivity|]; rewrite zlen_cons in Z0; pose proof (zlen_nonneg l); lia).
      unfold recorded at 1, recorded_reads at 1. cbn [e' ev_data ev_write]. rewrite E0. split; [reflexivity|]. destruct (ev_write e); reflexivity.
    - rewrite (skipn_here _ _ _ _ (nth_set _ e' _ _ E)), skipn_set. split; reflexivity. }
  destruct o as [n|b].
  - apply (G n false Ho). reflexivity.
  - apply (G (zlen b) true); [apply zlen_nonneg|reflexivity].
Qed.

(** A replay in which no call fails and Close returns nil has transferred, byte by byte in
    the recorded directions, exactly as much as was recorded, and read the recorded bytes. *)
Theorem C64_shape_partial : forall evs os, Forall sensible os ->
  let '(rs, p) := play {| pl_events := evs; pl_cur := 0 |} os in
  Forall fine rs -> play_close p = true ->
  flat_map asked os = flat_map recorded evs /\ flat_map po_data rs = flat_map recorded_reads evs.
Proof.
  assert (G : forall os p, Forall sensible os -> Forall fine (fst (play p os)) ->
    flat_map recorded (left p) = flat_map asked os ++ flat_map recorded (left (snd (play p os))) /\
    flat_map recorded_reads (left p) = flat_map po_data (fst (play p os)) ++ flat_map recorded_reads (left (snd (play p os)))).
  { induction os as [|o os IH]; intros p HS HF; [split; reflexivity|]. inversion HS as [|? ? H1 H2]; subst. cbn [play] in *.
    pose proof (play_call_fine p o H1) as HC. destruct (play_call p o) as [r p1]. cbn [fst snd] in HC.
    specialize (IH p1 H2). destruct (play p1 os) as [rs p2]. cbn [fst snd] in *. inversion HF as [|? ? F1 F2]; subst.
    destruct (HC F1) as [A1 A2]. destruct (IH F2) as [B1 B2]. cbn [flat_map]. rewrite A1, A2, B1, B2, <- !app_assoc. split; reflexivity. }
  assert (LP : forall os p, length (pl_events (snd (play p os))) = length (pl_events p)).
  { assert (LS : forall i e l, length (set_nth i e l) = length l) by (induction i; intros e [|x l]; cbn; auto).
    induction os as [|o os IH]; intros p; [reflexivity|]. cbn [play]. destruct (play_call p o) as [r p1] eqn:E. specialize (IH p1).
    destruct (play p1 os) as [rs p2]. cbn [snd] in *. rewrite IH. clear - E LS. unfold play_call in E.
    destruct (nth_error (pl_events p) (pl_cur p)); [|now injection E as _ <-].
    destruct o; cbv zeta in E; (destruct (negb _); [now injection E as _ <-|]); (destruct (_ <? _); injection E as _ <-; cbn [pl_events]; apply LS). }
  intros evs os HS. pose proof (G os {| pl_events := evs; pl_cur := 0 |} HS) as H. pose proof (LP os {| pl_events := evs; pl_cur := 0 |}) as HL.
  destruct (play {| pl_events := evs; pl_cur := 0 |} os) as [rs p]. cbn [fst snd] in *. unfold left at 1 3 in H. cbn [pl_cur pl_events skipn] in H, HL.
  intros HF HC. destruct (H HF) as [A B]. rewrite A, B.
  assert (LE : left p = []).
  { unfold left. unfold play_close in HC. destruct (pl_events p) as [|x l] eqn:E; [now rewrite skipn_nil|].
    apply andb_prop in HC as [HC _]. apply Nat.eqb_eq in HC. rewrite HC. apply skipn_all. }
  rewrite LE. cbn [flat_map]. now rewrite !app_nil_r.
Qed.
Print Assumptions C64_shape_partial.
(** A call in the wrong direction, or after the end, fails and takes nothing. *)
Theorem C64_direction_partial : forall p o,
  (forall e, nth_error (pl_events p) (pl_cur p) = Some e -> ev_write e <> match o with PRead _ => false | PWrite _ => true end) ->
  play_call p o = ({| po_data := []; po_n := 0; po_fail := true |}, p).
Proof.
  intros p o H. unfold play_call. destruct (nth_error (pl_events p) (pl_cur p)) as [e|]; [|reflexivity]. specialize (H e eq_refl).
  destruct o; destruct (ev_write e); cbn [Bool.eqb negb] in *; congruence.
Qed.
Print Assumptions C64_direction_partial.
(** The bytes written are not looked at: a client that writes anything else of the same
    length gets the same answers, down to Close. *)
Definition same_lengths (o o' : pop) : Prop :=
  match o, o' with PRead n, PRead n' => n = n' | PWrite b, PWrite b' => zlen b = zlen b' | _, _ => False end.
Theorem C64_refuted : forall os os' p, Forall2 same_lengths os os' -> play p os = play p os'.
Proof.
  intros os os' p H. revert p. induction H as [|o o' os os' H HF IH]; intros p; [reflexivity|]. cbn [play].
  assert (E : play_call p o = play_call p o').
  { unfold play_call. destruct o as [n|b], o' as [n'|b']; cbn in H; try easy; rewrite H; reflexivity. }
  rewrite E. destruct (play_call p o') as [r p1]. now rewrite IH.
Qed.
Print Assumptions C64_refuted.
Example C64_example :
  exists evs, rec_session [] [OWrite [1; 2; 0; 0] 4 false; ORead 2 [5; 6] false] = Some evs /\
  play_close (snd (play {| pl_events := evs; pl_cur := 0 |} [PWrite [9; 9]; PWrite [7; 7]; PRead 2])) = true /\
  fst (play {| pl_events := evs; pl_cur := 0 |} [PWrite [9; 9]; PRead 2]) =
    [{| po_data := []; po_n := 2; po_fail := false |}; {| po_data := []; po_n := 0; po_fail := true |}].
Proof. eexists. split; [reflexivity|]. split; reflexivity. Qed.

(** * C65 (false: a recording with a fault cannot be loaded) *)
Definition failed (o : rop) : bool := match o with ORead _ _ f => f | OWrite _ _ f => f end.
Definition of_write (o : rop) : bool := match o with ORead _ _ _ => false | OWrite _ _ _ => true end.
Lemma record_prefix : forall d w evs evs', record d w evs = Some evs' ->
  exists before e, evs' = before ++ [e] /\ (evs = before \/ exists e0, evs = before ++ [e0] /\ ev_done e0 = false /\ (ev_err e0 = true -> ev_err e = true)).
Proof.
  intros d w evs evs'. unfold record, open_event. destruct (rev evs) as [|e before] eqn:E.
  - destruct (add_data d (new_event w)) as [e'|]; [|discriminate]. intros H; injection H as <-. exists [], e'. split; [reflexivity|]. left.
    apply (f_equal (@rev event)) in E. rewrite rev_involutive in E. exact E.
  - apply (f_equal (@rev event)) in E. rewrite rev_involutive in E. cbn [rev] in E.
    destruct (ev_done e || negb (Bool.eqb (ev_write e) w)) eqn:D.
    + destruct (add_data d (new_event w)) as [e'|]; [|discriminate]. intros H; injection H as <-. exists evs, e'. split; [reflexivity|]. left. reflexivity.
    + destruct (add_data d e) as [e'|] eqn:A; [|discriminate]. intros H; injection H as <-. exists (rev before), e'. split; [reflexivity|]. right. exists e.
      split; [exact E|]. apply orb_false_elim in D. split; [apply D|]. unfold add_data in A. destruct (last_two d) as [[a b]|]; [|discriminate]. injection A as <-. auto.
Qed.
Lemma record_err_prefix : forall w evs, exists before e, record_err w evs = before ++ [e] /\ ev_err e = true /\ ev_done e = true /\ ev_write e = w /\
  (evs = before \/ exists e0, evs = before ++ [e0] /\ ev_done e0 = false).
Proof.
  intros w evs. unfold record_err, open_event. destruct (rev evs) as [|e before] eqn:E; apply (f_equal (@rev event)) in E; rewrite rev_involutive in E; cbn [rev] in E.
  - eexists [], _. split; [reflexivity|]. repeat split. now left.
  - destruct (ev_done e || negb (Bool.eqb (ev_write e) w)) eqn:D.
    + exists evs. eexists. split; [reflexivity|]. repeat split. now left.
    + apply orb_false_elim in D. destruct D as [D W]. apply negb_false_iff, Bool.eqb_prop in W.
      exists (rev before). eexists. split; [reflexivity|]. repeat split; trivial. right. eauto.
Qed.
(** events complete in the recording stay there, in order *)
Definition kept (a b : list event) : Prop :=
  forall pre, (exists post, a = pre ++ post) -> (pre = [] \/ ev_done (last pre (new_event false)) = true) -> exists post, b = pre ++ post.
Lemma kept_step : forall evs before e, (evs = before \/ exists e0, evs = before ++ [e0] /\ ev_done e0 = false) -> kept evs (before ++ [e]).
Proof.
  intros evs before e H pre (post & E) D. destruct H as [-> |(e0 & -> & D0)].
  - exists (post ++ [e]). now rewrite E, <- app_assoc.
  - destruct post as [|x post] using rev_ind.
    + rewrite app_nil_r in E. subst pre. destruct D as [D|D]; [destruct before; discriminate|]. rewrite last_last in D. congruence.
    + rewrite app_assoc in E. apply app_inj_tail in E as [-> _]. exists (post ++ [e]). now rewrite <- app_assoc.
Qed.
Lemma kept_trans : forall a b c, kept a b -> kept b c -> kept a c.
Proof. intros a b c H1 H2 pre P D. apply H2; [|exact D]. apply H1; assumption. Qed.
Lemma kept_refl : forall a, kept a a. Proof. intros a pre P _. exact P. Qed.
Lemma rec_call_kept : forall evs o evs', rec_call evs o = Some evs' -> kept evs evs' /\
  (failed o = true -> exists before e, evs' = before ++ [e] /\ ev_err e = true /\ ev_done e = true /\ ev_write e = of_write o).
Proof.
  intros evs o evs' H. unfold rec_call in H.
  assert (G : forall (data : bytes) (w f : bool), match (if 0 <? zlen data then record data w evs else Some evs) with None => None | Some evs1 => Some (if f then record_err w evs1 else evs1) end = Some evs' ->
    kept evs evs' /\ (f = true -> exists before e, evs' = before ++ [e] /\ ev_err e = true /\ ev_done e = true /\ ev_write e = w)).
  { clear H. intros data w f H.
    assert (K : forall evs1, (if 0 <? zlen data then record data w evs else Some evs) = Some evs1 -> kept evs evs1).
    { intros evs1 K. destruct (0 <? zlen data); [|injection K as <-; apply kept_refl].
      destruct (record_prefix _ _ _ _ K) as (before & e & -> & [->|(e0 & -> & D & _)]); apply kept_step; eauto. }
    destruct (if 0 <? zlen data then record data w evs else Some evs) as [evs1|]; [|discriminate]. specialize (K evs1 eq_refl). injection H as <-.
    destruct f; [|split; [exact K|discriminate]].
    destruct (record_err_prefix w evs1) as (before & e & E & A1 & A2 & A3 & A4). rewrite E. split.
    - eapply kept_trans; [exact K|]. now apply kept_step.
    - intros _. now exists before, e. }
  destruct o as [n got f|b n f]; exact (G _ _ _ H).
Qed.
Lemma rec_session_kept : forall os evs evs', rec_session evs os = Some evs' -> kept evs evs'.
Proof.
  induction os as [|o os IH]; intros evs evs' H; cbn [rec_session] in H; [injection H as <-; apply kept_refl|].
  destruct (rec_call evs o) as [evs1|] eqn:E; [|discriminate]. eapply kept_trans; [apply (rec_call_kept _ _ _ E)|eauto].
Qed.
Theorem C65_refuted : forall os evs, rec_session [] os = Some evs -> existsb failed os = true -> load evs = None.
Proof.
  intros os evs H HF. assert (G : forall os evs0, rec_session evs0 os = Some evs -> existsb failed os = true -> existsb ev_err evs = true).
  { clear. induction os as [|o os IH]; intros evs0 H HF; cbn [existsb rec_session] in *; [discriminate|].
    destruct (rec_call evs0 o) as [evs1|] eqn:E; [|discriminate]. destruct (failed o) eqn:F; [|exact (IH _ H HF)].
    destruct (rec_call_kept _ _ _ E) as (_ & K). destruct (K F) as (before & e & -> & A & D & _).
    destruct (rec_session_kept _ _ _ H (before ++ [e])) as (post & ->); [exists []; now rewrite app_nil_r|right; rewrite last_last; exact D|].
    rewrite !existsb_app. cbn [existsb]. rewrite A. now rewrite orb_true_r. }
  unfold load. now rewrite (G os [] H HF).
Qed.
Print Assumptions C65_refuted.
(** What does hold: the recording has the fault where it happened.  After a failed call its
    last event is complete, carries the error and has the direction of the call, and
    whatever is recorded later comes after it. *)
Theorem C65_recorded_partial : forall os1 o os2 evs1 evs, failed o = true ->
  rec_session [] (os1 ++ [o]) = Some evs1 -> rec_session evs1 os2 = Some evs ->
  (exists before e, evs1 = before ++ [e] /\ ev_err e = true /\ ev_done e = true /\ ev_write e = of_write o) /\ exists after, evs = evs1 ++ after.
Proof.
  intros os1 o os2 evs1 evs F H1 H2.
  assert (K : exists evs0, rec_call evs0 o = Some evs1).
  { revert H1. generalize (@nil event). induction os1 as [|x os1 IH]; intros l H1; cbn [app rec_session] in H1.
    - destruct (rec_call l o) as [y|] eqn:E; [|discriminate]. injection H1 as <-. eauto.
    - destruct (rec_call l x); [|discriminate]. eauto. }
  destruct K as (evs0 & K). destruct (rec_call_kept _ _ _ K) as (_ & A). destruct (A F) as (before & e & -> & B1 & B2 & B3).
  split; [now exists before, e|]. apply (rec_session_kept _ _ _ H2); [exists []; now rewrite app_nil_r|]. right. now rewrite last_last.
Qed.
Print Assumptions C65_recorded_partial.
(** Recordings without faults load, so C51 is about them. *)
Theorem C65_clean_partial : forall os evs, Forall clean_call os -> rec_session [] os = Some evs -> load evs = Some {| pl_events := evs; pl_cur := 0 |}.
Proof.
  intros os evs HF H. unfold load. replace (existsb ev_err evs) with false; [reflexivity|]. symmetry.
  assert (G : forall os evs0, Forall clean_call os -> existsb ev_err evs0 = false -> rec_session evs0 os = Some evs -> existsb ev_err evs = false).
  { clear. induction os as [|o os IH]; intros evs0 HF H0 H; cbn [rec_session] in H; [congruence|]. inversion HF as [|? ? C HF']; subst.
    destruct evs0 as [|e0 l0] using rev_ind.
    - rewrite rec_call_first in H by exact C. eapply IH; [exact HF'| |exact H]. reflexivity.
    - rewrite rec_call_clean in H by exact C. rewrite existsb_app in H0. cbn [existsb] in H0. apply orb_false_elim in H0 as [A B]. rewrite orb_false_r in B.
      destruct (ev_done e0 || negb (Bool.eqb (ev_write e0) (call_write o))); (eapply IH; [exact HF'| |exact H]); rewrite !existsb_app; cbn [existsb ev_err ev_of]; rewrite A, B; reflexivity. }
  exact (G os [] HF eq_refl H).
Qed.
Print Assumptions C65_clean_partial.
Example C65_example : exists evs, rec_session [] [OWrite [1; 2] 2 false; ORead 4 [3; 4] true; ORead 2 [0; 5] false] = Some evs /\ load evs = None /\
  map ev_err evs = [false; true; false].
Proof. eexists. split; [reflexivity|]. split; reflexivity. Qed.

(** * C51 for programs *)
(** A program that uses the connection: its next call depends on the results so far;
    [None]: it is done.  The driver under a fixed list of API calls is one. *)
Definition program := list pout -> option pop.
(** The program made exactly the calls [os] while they were recorded. *)
Definition recorded_by (pr : program) (os : list rop) : Prop :=
  pr (map original os) = None /\
  forall before o after, os = before ++ o :: after -> pr (map original before) = Some (again o).
(** The program on a replaying connection, for at most [f] calls: results, player, done? *)
Fixpoint drive (pr : program) (f : nat) (rs : list pout) (p : player) : list pout * player * bool :=
  match pr rs with
  | None => (rs, p, true)
  | Some o => match f with
              | O => (rs, p, false)
              | S f' => let '(r, p') := play_call p o in drive pr f' (rs ++ [r]) p'
              end
  end.
Lemma drive_play : forall pr after before p, recorded_by pr (before ++ after) ->
  fst (play p (map again after)) = map original after ->
  drive pr (length after) (map original before) p = (map original (before ++ after), snd (play p (map again after)), true).
Proof.
  intros pr after. induction after as [|o after IH]; intros before p [H1 H2] HP.
  - rewrite app_nil_r in *. cbn [length drive]. rewrite H1. reflexivity.
  - cbn [length drive]. rewrite (H2 before o after eq_refl). cbn [map play] in HP |- *.
    destruct (play_call p (again o)) as [r p1]. specialize (IH (before ++ [o]) p1). rewrite <- app_assoc in IH. cbn [app] in IH.
    specialize (IH (conj H1 H2)). destruct (play p1 (map again after)) as [rs p2]. cbn [fst snd] in *. injection HP as -> E.
    rewrite map_app in IH. cbn [map] in IH. now apply IH.
Qed.
(** A program recorded with complete transfers makes the same calls when replayed, gets the
    same results, comes to its end, and Close returns nil. *)
Theorem C51_program_partial : forall pr os, Forall clean_call os -> recorded_by pr os ->
  exists evs p', rec_session [] os = Some evs /\ load evs = Some {| pl_events := evs; pl_cur := 0 |} /\
    drive pr (length os) [] {| pl_events := evs; pl_cur := 0 |} = (map original os, p', true) /\ play_close p' = true.
Proof.
  intros pr os HC HR. destruct (C51_replay_partial os HC) as (evs & E & P & C). exists evs. eexists. split; [exact E|]. split.
  - now apply C65_clean_partial with (os := os).
  - split; [|exact C]. now apply (drive_play pr os [] _ HR P).
Qed.
Print Assumptions C51_program_partial.
(** A program that writes, reads two bytes, and writes them back. *)
Definition echo : program := fun rs =>
  match rs with
  | [] => Some (PWrite [1; 2])
  | [_] => Some (PRead 2)
  | [_; r] => Some (PWrite (po_data r))
  | _ => None
  end.
Example C51_program_example : recorded_by echo [OWrite [1; 2] 2 false; ORead 2 [7; 8] false; OWrite [7; 8] 2 false] /\ Forall clean_call [OWrite [1; 2] 2 false; ORead 2 [7; 8] false; OWrite [7; 8] 2 false].
Proof.
  split; [split; [reflexivity|]|repeat constructor; discriminate].
  intros before o after H. destruct before as [|a [|b [|c [|d l]]]]; cbn [app] in H; try (injection H; intros; subst; reflexivity).
  all: apply (f_equal (@length rop)) in H; cbn in H; try rewrite app_length in H; cbn in H; lia.
Qed.

(** * C51 exactly *)
(** What a call returned while it was recorded, and how many bytes it asked for. *)
Definition returned (o : rop) : pout :=
  match o with
  | ORead _ got fail => {| po_data := got; po_n := zlen got; po_fail := fail |}
  | OWrite _ n fail => {| po_data := []; po_n := n; po_fail := fail |}
  end.
Definition wanted (o : rop) : Z := match o with ORead n _ _ => n | OWrite b _ _ => zlen b end.
(** The session can be recorded, the recording loads, and the same calls get the same answers. *)
Definition replays (os : list rop) : Prop :=
  exists evs p, rec_session [] os = Some evs /\ load evs = Some p /\ fst (play p (map again os)) = map returned os.
Lemma play_all_or_fail : forall p o, po_fail (fst (play_call p o)) = false ->
  po_n (fst (play_call p o)) = match o with PRead n => n | PWrite b => zlen b end.
Proof.
  intros p o. unfold play_call. destruct (nth_error (pl_events p) (pl_cur p)) as [e|]; [|discriminate].
  destruct o as [n|b]; (destruct (negb _); [discriminate|]); cbv zeta; (destruct (zlen (ztake _ _) <? _); [discriminate|]); reflexivity.
Qed.
Lemma rec_no_single : forall os evs evs' o, rec_session evs os = Some evs' -> In o os ->
  zlen (match o with ORead _ got _ => got | OWrite b n _ => ztake n b end) <> 1.
Proof.
  induction os as [|x os IH]; intros evs evs' o H Hi; [destruct Hi|]. cbn [rec_session] in H. destruct (rec_call evs x) as [evs1|] eqn:E; [|discriminate].
  destruct Hi as [->|Hi]; [|eauto]. intros H1. unfold rec_call in E.
  assert (G : forall data w, zlen data = 1 -> record data w evs = None).
  { intros data w Hd. unfold record. destruct (open_event w evs) as [b e]. destruct data as [|y [|z l]]; [discriminate|reflexivity|]. unfold zlen in Hd. cbn [length] in Hd. lia. }
  destruct o as [n got fail|b n fail]; rewrite H1 in E; cbn [Z.ltb Z.compare] in E; rewrite G in E by exact H1; discriminate.
Qed.
Theorem C51_exactly : forall os, Forall (fun o => 0 < wanted o) os -> (replays os <-> Forall clean_call os).
Proof.
  intros os HW. split.
  - intros (evs & p & H1 & H2 & H3). apply Forall_forall. intros o Ho. pose proof (proj1 (Forall_forall _ _) HW o Ho) as Hw. cbv beta in Hw.
    assert (Hf : failed o = false).
    { destruct (failed o) eqn:F; [|reflexivity]. rewrite (C65_refuted os evs H1) in H2; [discriminate|]. apply existsb_exists. eauto. }
    assert (Hn : po_n (returned o) = wanted o).
    { clear HW H1 H2. revert p H3. induction os as [|x os IH]; intros p H3; [destruct Ho|]. cbn [map play] in H3.
      pose proof (play_all_or_fail p (again x)) as Hp. destruct (play_call p (again x)) as [r p1]. specialize (IH) with (p := p1). destruct (play p1 (map again os)) as [rs p2].
      cbn [fst] in *. injection H3 as -> H3. destruct Ho as [->|Ho]; [|auto]. destruct o; cbn in *; auto. }
    pose proof (rec_no_single os [] evs o H1 Ho) as Hs. destruct o as [n got fail|b n fail]; cbn in Hf, Hn, Hw; subst fail.
    + cbn. lia.
    + cbn. rewrite ztake_all in Hs by lia. lia.
  - intros HC. destruct (C51_replay_partial os HC) as (evs & E & P & _). exists evs. eexists. split; [exact E|]. split; [now apply C65_clean_partial with (os := os)|].
    rewrite P. apply map_ext_in. intros o Ho. pose proof (proj1 (Forall_forall _ _) HC o Ho) as C. destruct o as [n got fail|b n fail]; destruct C as (C1 & C2 & ->); cbn; subst; reflexivity.
Qed.
Print Assumptions C51_exactly.
(** Sessions that do not replay: a Read that got two of three bytes, a message of one byte, a timeout. *)
Example C51_example_exactly : ~ replays [OWrite [1; 2] 2 false; ORead 3 [4; 5] false] /\ ~ replays [ORead 1 [4] false] /\ ~ replays [ORead 2 [] true] /\
  replays [OWrite [1; 2] 2 false; ORead 2 [0; 3] false; ORead 3 [4; 0; 0] false].
Proof.
  rewrite !C51_exactly by (repeat constructor). repeat split.
  - intros H. inversion H as [|? ? _ H']; subst. inversion H' as [|? ? C _]; subst. cbn in C. lia.
  - intros H. inversion H as [|? ? C _]; subst. cbn in C. lia.
  - intros H. inversion H as [|? ? C _]; subst. destruct C as (_ & _ & C). discriminate.
  - repeat constructor; cbn; lia.
Qed.
