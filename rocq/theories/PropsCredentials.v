(** C95: Open sends the credentials of the connection string once, to a server that has picked the version
    offered, and to no other. *)
From Coq Require Import ZArith String List Bool Lia.
From Verif Require Import GoPrims PrimLemmas Value Errors Encoder Decoder Misc Session SessionSim SessionNet ConnString PropsMisc PropsNames PropsSession PropsOpen PropsConnString SessionSends PropsTalk OpenTape.
Import ListNotations.
Open Scope list_scope.
Open Scope Z_scope.

Section Any.
Context {N : Type} (ops : netops N).
Let RN (x : N * list happening) (n : N) : Prop := fst x = n.
Let none (x : N * list happening) : Prop := False.
(** Keeping minutes changes nothing. *)
Theorem C95_minutes_are_faithful : forall f user password pooled n,
  fst (opening ops f user password pooled n) = fst (initialize ops f (close ops f) user password (fresh pooled n)).
Proof.
  intros f user password pooled n. unfold opening.
  assert (HS : Sim RN none (initialize (minuted ops) f (close (minuted ops) f) user password) (initialize ops f (close ops f) user password)).
  { apply Sim_open; try (intros; contradiction).
    - intros [m l] n' cs v <-. right. unfold RN. cbn. destruct (n_send ops m cs v). auto.
    - intros [m l] n' <-. right. unfold RN. cbn. destruct (n_recv ops m). auto.
    - intros [m l] n' <-. right. unfold RN. cbn. destruct (n_close ops m). auto.
    - intros [m l] n' <-. right. unfold RN. cbn. destruct (n_shake ops m). auto. }
  destruct (proj2 HS (fresh pooled (n, @nil happening)) (fresh pooled n)) as [[]|(E & _)]; [repeat split|].
  destruct (initialize (minuted ops) f (close (minuted ops) f) user password (fresh pooled (n, []))) as [r w]. exact E.
Qed.
(** On every network, whatever the server answers and whatever fails: the handshake comes first. If it fails,
    no message is sent at all. If it passes, the first message is INIT with this user and this password,
    and no other message is sent but ACK_FAILURE and RESET. *)
Theorem C95_partial : forall f user password pooled n,
  let l := snd (opening ops f user password pooled n) in
  (exists e rest, l = Shake (Some e) :: rest /\ forall h, In h rest -> exists b, h = Shut b) \/
  (exists r rest, l = Shake None :: Say 65535 (init_message client_id user password) r :: rest /\
    forall h, In h rest -> match h with Shake _ => False | Say _ v _ => v = VAckFailure \/ v = VReset | Hear _ | Shut _ => True end).
Proof.
  intros f user password pooled n. cbv zeta. destruct (opening_says ops f user password pooled n) as (_ & rest & E & H). rewrite E.
  destruct (snd (snd (n_shake ops n))) as [e|].
  - left. destruct H as (F & _). exists e, rest. split; [reflexivity|]. rewrite Forall_forall in F. intros h Hh. specialize (F h Hh). destruct h; try contradiction. eauto.
  - right. destruct H as (rest' & -> & F). eexists _, rest'. split; [reflexivity|]. rewrite Forall_forall in F. exact F.
Qed.
(** ... and it stays at that as long as the connection lives, whatever is called: INIT is sent at most once, as the
    first message, and the handshake is not repeated. *)
Definition later (h : happening) : Prop := match h with Shake _ | Say _ (VInit _ _) _ => False | _ => True end.
Lemma later_run : forall mk f os w, c_tx (w_conn w) = None -> exists l, snd (w_net (snd (run (minuted ops) mk f os w))) = snd (w_net w) ++ l /\ Forall later l.
Proof.
  intros mk f os w Hw.
  set (R := fun x y : N * list happening => x = y /\ exists l, snd x = snd (w_net w) ++ l /\ Forall later l).
  assert (add : forall x l h, x = snd (w_net w) ++ l -> Forall later l -> later h -> exists l', x ++ [h] = snd (w_net w) ++ l' /\ Forall later l').
  { intros x l h -> F Hh. exists (l ++ [h]). rewrite app_assoc. split; [reflexivity|]. apply Forall_app. auto. }
  destruct (run_alike (minuted ops) (minuted ops) (fun _ => True) (fun _ => True) (fun _ => True) (fun _ => True) R) with (mk := mk) (f := f) (os := os) (w := w) (w' := w) as (_ & HA).
  - intros x y cs v (<- & l & E & F) _ Hv. split; [reflexivity|]. split; [reflexivity|]. cbn. destruct (n_send ops (fst x) cs v) as [n' r]. cbn.
    eapply add; eauto. destruct v; cbn in *; auto.
  - intros x y (<- & l & E & F). split; [reflexivity|]. split; [reflexivity|]. cbn. destruct (n_recv ops (fst x)) as [n' r]. cbn. eapply add; eauto. exact I.
  - intros x y (<- & l & E & F). split; [reflexivity|]. split; [reflexivity|]. cbn. destruct (n_close ops (fst x)) as [n' r]. cbn. eapply add; eauto. exact I.
  - apply Forall_forall. intros o _. destruct o; repeat split; cbn; auto; try (apply Forall_forall; auto); try (destruct (driver_args mk args); exact I).
  - repeat split; auto.
    + apply Forall_forall. intros s _. split; [auto|]. apply Forall_forall. auto.
    + exists []. rewrite app_nil_r. auto.
  - destruct HA as (_ & _ & _ & _ & _ & _ & (_ & l & E & F)). eauto.
Qed.
Theorem C95_once : forall mk f user password os pooled n,
  let l := snd (snd (whole (minuted ops) mk f user password os pooled (n, []))) in
  (exists e rest, l = Shake (Some e) :: rest /\ forall h, In h rest -> exists b, h = Shut b) \/
  (exists r rest, l = Shake None :: Say 65535 (init_message client_id user password) r :: rest /\
    forall h, In h rest -> match h with Shake _ => False | Say _ (VInit _ _) _ => False | _ => True end).
Proof.
  intros mk f user password os pooled n. cbv zeta. unfold whole. destruct (opening_says ops f user password pooled n) as ((_ & HT) & _).
  pose proof (C95_partial f user password pooled n) as HP. cbv zeta in HP.
  assert (HL : forall rest, (forall h, In h rest -> match h with Shake _ => False | Say _ v _ => v = VAckFailure \/ v = VReset | Hear _ | Shut _ => True end) -> forall h, In h rest -> later h).
  { intros rest H h Hh. specialize (H h Hh). destruct h; auto. destruct H as [-> | ->]; exact I. }
  unfold opening in HP. destruct (opening_says ops f user password pooled n) as (_ & rest0 & E0 & H0). unfold opening in E0, H0.
  destruct (initialize (minuted ops) f (close (minuted ops) f) user password (fresh pooled (n, []))) as [r w]. cbn [fst snd] in *.
  assert (same : snd (w_net w) = minutes w) by reflexivity.
  destruct r as [[e|]| |]; cbn [snd];
    try (rewrite same; destruct HP as [HP|(r & rest & E & F)]; [left; exact HP|right; exists r, rest; split; [exact E|]; intros h Hh; exact (HL rest F h Hh)]).
  destruct (later_run mk f os w HT) as (l & El & Fl). destruct (run (minuted ops) mk f os w) as [[a b] w']. cbn [snd] in *. rewrite El, same.
  destruct HP as [(e & rest & E & F)|(r & rest & E & F)].
  - exfalso. rewrite E in E0. injection E0 as E0 <-. rewrite <- E0 in H0. destruct H0 as (_ & H0). specialize (H0 _ eq_refl). discriminate.
  - right. exists r, (rest ++ l). rewrite E. split; [reflexivity|]. intros h Hh. apply in_app_or in Hh. destruct Hh as [Hh|Hh]; [exact (HL rest F h Hh)|].
    rewrite Forall_forall in Fl. exact (Fl h Hh).
Qed.
End Any.
Print Assumptions C95_once.
Print Assumptions C95_minutes_are_faithful.
Print Assumptions C95_partial.

(** Over bytes: which servers are sent INIT.  The first Read after the twenty bytes of the handshake decides. *)
Theorem C95_recipients : forall T (io : transport T) mk f user password pooled t,
  wc_n (snd (t_put io t handshake_bytes)) = 20 ->
  let l := snd (opening (bytenet io mk) f user password pooled t) in
  let INIT := init_message client_id user password in
  ((exists cs r, In (Say cs INIT r) l) <-> exists b more, t_in io (fst (t_put io t handshake_bytes)) = RData b :: more /\ ztake 4 b <> [0; 0; 0; 0]).
Proof.
  intros T io mk f user password pooled t Hw l INIT.
  assert (HS : snd (snd (n_shake (bytenet io mk) t)) = None <-> exists b more, t_in io (fst (t_put io t handshake_bytes)) = RData b :: more /\ ztake 4 b <> [0; 0; 0; 0]).
  { cbn [n_shake bytenet]. destruct (t_put io t handshake_bytes) as [t1 w]. cbn [fst snd] in *. pose proof (C20_exact_partial w (t_in io t1)) as C.
    destruct (handshake w (t_in io t1)) as [e r]. cbn [fst] in C. rewrite Hw. cbn [Z.eqb Pos.eqb snd]. rewrite C, Hw. split.
    - intros [(K & _)|(_ & K)]; [congruence|exact K].
    - intros K. right. split; [reflexivity|exact K]. }
  rewrite <- HS. unfold l. destruct (opening_says (bytenet io mk) f user password pooled t) as (_ & rest & E & H). rewrite E.
  destruct (snd (snd (n_shake (bytenet io mk) t))) as [e|].
  - split; [|discriminate]. intros (cs & r & [K|K]); [discriminate|]. destruct H as (F & _). rewrite Forall_forall in F. destruct (F _ K).
  - split; [reflexivity|]. intros _. destruct H as (rest' & -> & _). eexists _, _. right. left. reflexivity.
Qed.
Print Assumptions C95_recipients.
(** So user name and password, as they are in the connection string, go to every server that answers with
    anything but four zeros: one that speaks another version or another protocol, or has sent one byte so far. *)
Theorem C95_refuted : forall T (io : transport T) mk f pooled t b more sch n p ct h path ps qt c,
  eq_ci sch s_bolt -> cred_text (Some (n, Some p)) ct -> host_text h -> path_text path -> query_text ps qt -> n <> [] ->
  configure (sch ++ text "://" ++ ct ++ h ++ path ++ qt) = POk c ->
  wc_n (snd (t_put io t handshake_bytes)) = 20 ->
  t_in io (fst (t_put io t handshake_bytes)) = RData b :: more -> ztake 4 b <> [0; 0; 0; 0] ->
  exists r rest, snd (opening (bytenet io mk) f (cf_user c) (cf_password c) pooled t) =
    Shake None :: Say 65535 (VInit client_id [(text "scheme", VStr (text "basic")); (text "principal", VStr n); (text "credentials", VStr p)]) r :: rest.
Proof.
  intros T io mk f pooled t b more sch n p ct h path ps qt c Hs Hc Hh Hp Hq Hn HC Hw Ht Hb.
  destruct (C92_configured_partial sch n p ct h path ps qt c Hs Hc Hh Hp Hq) as (_ & HU & _). destruct (HU HC) as (-> & ->).
  destruct (C95_partial (bytenet io mk) f n p pooled t) as [(e & rest & E & F)|(r & rest & E & _)].
  - exfalso. destruct (proj2 (C95_recipients T io mk f n p pooled t Hw)) as (cs & r & K); [eauto|]. rewrite E in K. destruct K as [K|K]; [discriminate|]. destruct (F _ K) as (x & X). discriminate.
  - exists r, rest. rewrite E. unfold init_message. apply str_eqb_neq in Hn. rewrite Hn. reflexivity.
Qed.
Print Assumptions C95_refuted.

(** A server of another protocol: it answers everything with the same bytes. *)
Definition parrot (answer : bytes) : transport (list bytes * reader) :=
  {| t_put := fun t b => ((fst t ++ [b], [RData answer]), {| wc_n := zlen b; wc_err := false |});
     t_in := snd; t_left := fun t r => (fst t, r); t_close := fun t => (t, false) |}.
Definition talked (answer : bytes) (s : str) : option (bool * list bytes) :=
  match configure s with
  | POk c => match initialize (bytenet (parrot answer) true) 9 (close (bytenet (parrot answer) true) 9) (cf_user c) (cf_password c) (fresh false ([], [])) with
             | (Ok e, w) => Some (match e with None => true | Some _ => false end, fst (w_net w))
             | _ => None
             end
  | PErr => None
  end.
Example C95_example :
  (* an HTTP server is sent the password; Open fails, later *)
  option_map (fun x => (fst x, hd [] (snd x), length (snd x))) (talked (text "HTTP/1.1 400 Bad Request") (text "bolt://neo4j:secret@db")) = Some (false, handshake_bytes, 4%nat) /\
  option_map (fun x => skipn 54 (nth 2 (snd x) [])) (talked (text "HTTP/1.1 400 Bad Request") (text "bolt://neo4j:secret@db")) = Some (text "credentials" ++ [134] ++ text "secret") /\
  (* a server that declines is sent nothing but the handshake *)
  talked [0; 0; 0; 0] (text "bolt://neo4j:secret@db") = Some (false, [handshake_bytes]).
Proof. split; [|split]; vm_compute; reflexivity. Qed.
