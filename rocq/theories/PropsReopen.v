(** C79: the settings of a connection of a pool that is opened more than once. *)
From Coq Require Import ZArith List Bool Lia.
From Verif Require Import GoPrims Value PrimLemmas Misc PropsMisc.
Import ListNotations.
Open Scope Z_scope.

(** ** Model *)

(** conn.go:119-170 parseURL on a connection that has settings already: whether it succeeds, and the settings afterwards
    (also when it fails half-way).  [parse_url] of Misc.v is its result on a new connection, see [C79_first]. *)
Definition parse_from (c : connconf) (u : urlinfo) : bool * connconf :=
  let '(Build_connconf _ _ _ _ cert key ca nv) := c in
  let set_user n p c := {| cf_user := n; cf_password := p; cf_timeout := cf_timeout c; cf_tls := cf_tls c; cf_cert := cf_cert c;
                           cf_key := cf_key c; cf_ca := cf_ca c; cf_noverify := cf_noverify c |} in
  let set_timeout t c := {| cf_user := cf_user c; cf_password := cf_password c; cf_timeout := t; cf_tls := cf_tls c;
                            cf_cert := cf_cert c; cf_key := cf_key c; cf_ca := cf_ca c; cf_noverify := cf_noverify c |} in
  let set_tls b cert key ca nv c := {| cf_user := cf_user c; cf_password := cf_password c; cf_timeout := cf_timeout c; cf_tls := b;
                                       cf_cert := cert; cf_key := key; cf_ca := ca; cf_noverify := nv |} in
  if negb (str_eqb (to_lower (u_scheme u)) s_bolt) then (false, c)                              (* :125 *)
  else
    let '(ok, c) := match u_user u with                                                         (* :129-136 *)
                    | None => (true, c)
                    | Some (n, Some p) => (true, set_user n p c)
                    | Some (n, None) => (false, set_user n [] c)
                    end in
    if negb ok then (false, c)
    else
      let '(ok, c) := if str_eqb (qget s_timeout u) [] then (true, c)                           (* :138-146 *)
                      else match atoi (qget s_timeout u) with
                           | None => (false, c)
                           | Some n => (true, set_timeout (wraps 64 (n * 10 ^ 9)) c)
                           end in
      if negb ok then (false, c)
      else if truthy (qget s_tls u)                                                             (* :148-157 *)
           then (true, set_tls true (qget s_cert u) (qget s_key u) (qget s_ca u) (truthy (qget s_noverify u)) c)
           else (true, set_tls false cert key ca nv c).

(** What happens to the settings of one place of the pool: OpenPool opens it (driver.go:132-133, conn.go:263), a user
    calls SetTimeout (conn.go:547), a user returns it usable (driver.go:187-188: all fields are copied) or broken
    (driver.go:179: a new connection). *)
Inductive sev := SOpen | SSet (d : Z) | SBack | SBroken.
Definition set_timeout (d : Z) (c : connconf) : connconf :=
  {| cf_user := cf_user c; cf_password := cf_password c; cf_timeout := d; cf_tls := cf_tls c; cf_cert := cf_cert c;
     cf_key := cf_key c; cf_ca := cf_ca c; cf_noverify := cf_noverify c |}.
Definition sstep (u : urlinfo) (c : connconf) (e : sev) : connconf :=
  match e with
  | SOpen => snd (parse_from c u)
  | SSet d => set_timeout d c
  | SBack => c
  | SBroken => conf0
  end.
Definition settings (u : urlinfo) (es : list sev) : connconf := fold_left (sstep u) es conf0.

(** ** Properties *)

(** The settings other than the timeout *)
Definition others (c : connconf) : str * str * bool * str * str * str * bool :=
  (cf_user c, cf_password c, cf_tls c, cf_cert c, cf_key c, cf_ca c, cf_noverify c).

(** On a new connection it is [parse_url]. *)
Theorem C79_first : forall u, match parse_from conf0 u with (true, c) => parse_url u = POk c | (false, _) => parse_url u = PErr end.
Proof.
  intros u. unfold parse_from, parse_url, conf0. destruct (negb (str_eqb (to_lower (u_scheme u)) s_bolt)); [reflexivity|].
  destruct (u_user u) as [[n [p|]]|]; cbn [negb]; try reflexivity;
    (destruct (str_eqb (qget s_timeout u) []); [|destruct (atoi (qget s_timeout u))]; cbn [negb cf_timeout]; try reflexivity;
     destruct (truthy (qget s_tls u)); reflexivity).
Qed.
Print Assumptions C79_first.

(** The connection string has a timeout *)
Definition timed (u : urlinfo) : Prop := exists s, mget s_timeout (u_query u) = Some s /\ s <> [].
Lemma timed_iff u : str_eqb (qget s_timeout u) [] = false <-> timed u.
Proof.
  unfold timed, qget. destruct (mget s_timeout (u_query u)) as [[|c s]|]; cbn.
  - split; [discriminate|]. intros (s & E & N). congruence.
  - split; [|reflexivity]. intros _. exists (c :: s). split; [reflexivity|discriminate].
  - split; [discriminate|]. intros (s & E & N). congruence.
Qed.

(** Settings that are a new connection's, or the connection string's, except for the timeout *)
Definition before (u : urlinfo) (c k : connconf) : Prop := others c = others conf0 \/ others c = others k.

Lemma open_again u k c : parse_url u = POk k -> before u c k ->
  exists c', parse_from c u = (true, c') /\ others c' = others k /\
    (timed u -> cf_timeout c' = cf_timeout k) /\ (~ timed u -> cf_timeout c' = cf_timeout c).
Proof.
  pose proof (timed_iff u) as TI. revert TI. destruct c as [user pw t tls cert key ca nv]. unfold before, others, parse_url, parse_from, conf0. cbn.
  destruct (negb (str_eqb (to_lower (u_scheme u)) s_bolt)); [discriminate|].
  destruct (u_user u) as [[n [p|]]|]; cbn; try discriminate;
    (destruct (str_eqb (qget s_timeout u) []); [|destruct (atoi (qget s_timeout u)); try discriminate]; cbn; intros TI;
     destruct (truthy (qget s_tls u)); intros E; injection E as <-; cbn; intros B; eexists; (split; [reflexivity|]); cbn;
     destruct B as [B|B]; inversion B; subst; cbn; (split; [reflexivity|split; intros; first [reflexivity|exfalso; intuition discriminate]])).
Qed.

Lemma before_settings u k es : parse_url u = POk k -> before u (settings u es) k.
Proof.
  intros HU. unfold settings. assert (H : before u conf0 k) by now left. revert H. generalize conf0.
  induction es as [|e es IH]; intros c H; [exact H|]. cbn [fold_left]. apply IH. destruct e; cbn [sstep].
  - destruct (open_again _ _ _ HU H) as (c' & -> & E & _). right. exact E.
  - exact H.
  - exact H.
  - now left.
Qed.

Lemma settings_app u a b : settings u (a ++ b) = fold_left (sstep u) b (settings u a).
Proof. unfold settings. apply fold_left_app. Qed.

Definition sets (e : sev) : bool := match e with SSet _ => true | _ => false end.
Definition breaks (e : sev) : bool := match e with SBroken => true | _ => false end.
Definition opens (e : sev) : bool := match e with SOpen => true | _ => false end.

Lemma after_open u k es : parse_url u = POk k -> existsb breaks es = false ->
  forall c, others c = others k ->
  others (fold_left (sstep u) es c) = others k.
Proof.
  intros HU. induction es as [|e es IH]; intros HB c HC; [exact HC|]. cbn in HB. apply orb_false_elim in HB as [B1 B2].
  cbn [fold_left]. apply IH; [exact B2|]. destruct e; cbn in *; try discriminate; try exact HC.
  destruct (open_again u k c HU ltac:(now right)) as (c' & -> & E & _). exact E.
Qed.

Lemma timeout_kept u k es : parse_url u = POk k -> existsb breaks es = false -> existsb sets es = false ->
  forall c, before u c k -> (timed u -> existsb opens es = true -> cf_timeout c = cf_timeout k) ->
  cf_timeout (fold_left (sstep u) es c) = cf_timeout c.
Proof.
  intros HU. induction es as [|e es IH]; intros HB HS c HC HT; [reflexivity|]. cbn in HB, HS, HT.
  apply orb_false_elim in HB as [B1 B2]. apply orb_false_elim in HS as [S1 S2]. cbn [fold_left].
  destruct e; cbn in *; try discriminate.
  - destruct (open_again u k c HU HC) as (c' & -> & E & T1 & T2). cbn [snd].
    assert (EQ : cf_timeout c' = cf_timeout c).
    { destruct (str_eqb (qget s_timeout u) []) eqn:Q.
      - apply T2. intros X. apply timed_iff in X. congruence.
      - apply timed_iff in Q. rewrite T1, HT by auto. reflexivity. }
    rewrite IH; [exact EQ|exact B2|exact S2|now right|]. intros X _. rewrite EQ. auto.
  - apply IH; auto.
Qed.

(** Everything but the timeout is what the connection string says, whoever had the connection before and whatever they
    set. *)
Theorem C79_others_partial : forall u k es es', parse_url u = POk k -> existsb breaks es' = false ->
  others (settings u (es ++ SOpen :: es')) = others k.
Proof.
  intros u k es es' HU HB. rewrite settings_app. cbn [fold_left sstep].
  destruct (open_again u k _ HU (before_settings u k es HU)) as (c' & -> & E & _). now apply after_open.
Qed.
Print Assumptions C79_others_partial.

(** The timeout is that of the connection string as long as nobody sets it.  If the string gives one, every opening of
    the network connection goes back to it. *)
Theorem C79_partial : forall u k es es', parse_url u = POk k -> existsb sets es' = false -> existsb breaks es' = false ->
  existsb sets es = false \/ timed u ->
  cf_timeout (settings u (es ++ SOpen :: es')) = cf_timeout k.
Proof.
  intros u k es es' HU HS HB HT.
  assert (NT : ~ timed u -> cf_timeout k = cf_timeout conf0).
  { intros N. pose proof (C79_first u) as F. destruct (open_again u k conf0 HU ltac:(now left)) as (c' & EC & _ & _ & T2).
    rewrite EC in F. rewrite HU in F. injection F as <-. auto. }
  rewrite settings_app. cbn [fold_left sstep].
  destruct (open_again u k _ HU (before_settings u k es HU)) as (c' & -> & E & T1 & T2). cbn [snd].
  assert (X : cf_timeout c' = cf_timeout k).
  { destruct (str_eqb (qget s_timeout u) []) eqn:Q; [|now apply T1, timed_iff].
    assert (N : ~ timed u) by (intros Y; apply timed_iff in Y; congruence). rewrite (T2 N), (NT N).
    destruct HT as [HT|HT]; [|contradiction]. clear - HT N HU. unfold settings.
    assert (H : before u conf0 k) by now left. assert (T : cf_timeout conf0 = cf_timeout conf0) by reflexivity.
    revert H T. generalize conf0 at 1 2 4. revert HT.
    induction es as [|e es IH]; intros HT c B T; [exact T|]. cbn in HT. apply orb_false_elim in HT as [H1 H2]. cbn [fold_left].
    destruct e; cbn in *; try discriminate.
    - destruct (open_again u k c HU B) as (c' & -> & E & _ & T2). cbn [snd]. apply IH; [exact H2|now right|]. rewrite T2 by exact N. exact T.
    - now apply IH.
    - apply IH; [exact H2|now left|reflexivity]. }
  rewrite (timeout_kept u k); auto. now right.
Qed.
Print Assumptions C79_partial.

(** What a user sets stays for every later user, as long as the network connection is not opened again, and even then if
    the connection string gives no timeout. *)
Theorem C79_refuted : forall u k es d es', parse_url u = POk k -> existsb sets es' = false -> existsb breaks es' = false ->
  existsb opens es' = false \/ ~ timed u ->
  cf_timeout (settings u (es ++ SSet d :: SBack :: es')) = d.
Proof.
  intros u k es d es' HU HS HB HT. rewrite settings_app. cbn [fold_left sstep].
  rewrite (timeout_kept u k); auto.
  - exact (before_settings u k es HU).
  - intros T O. destruct HT as [HT|HT]; [congruence|contradiction].
Qed.
Print Assumptions C79_refuted.

(** A connection that comes back broken leaves nothing to the next user of its place. *)
Theorem C79_broken_partial : forall u es es', settings u (es ++ SBroken :: es') = settings u es'.
Proof. intros u es es'. now rewrite settings_app. Qed.
Print Assumptions C79_broken_partial.

(** bolt://u:p@h and bolt://u:p@h?timeout=5: a user sets 1 ns; the next one, with the same network connection or with a
    new one; after an error *)
Definition ex_url (q : list (str * str)) : urlinfo := Build_urlinfo s_bolt (Some ([117], Some [112])) [104] q.
Example C79_example :
  let t q es := cf_timeout (settings (ex_url q) es) in
  let five := [(s_timeout, [53])] in
  parse_url (ex_url []) <> PErr /\ ~ timed (ex_url []) /\ parse_url (ex_url five) <> PErr /\ timed (ex_url five) /\
  map (t []) [[SOpen]; [SOpen; SSet 1; SBack]; [SOpen; SSet 1; SBack; SOpen]; [SOpen; SSet 1; SBroken; SOpen]] =
    [60 * 10 ^ 9; 1; 1; 60 * 10 ^ 9] /\
  map (t five) [[SOpen]; [SOpen; SSet 1; SBack]; [SOpen; SSet 1; SBack; SOpen]; [SOpen; SSet 1; SBroken; SOpen]] =
    [5 * 10 ^ 9; 1; 5 * 10 ^ 9; 5 * 10 ^ 9].
Proof.
  cbv zeta. split; [discriminate|]. split; [intros (s & E & _); discriminate|]. split; [discriminate|].
  split; [exists [53]; split; [reflexivity|discriminate]|]. split; vm_compute; reflexivity.
Qed.
