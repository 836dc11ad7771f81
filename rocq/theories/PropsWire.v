(** Sessions over a byte stream: the driver with its own encoder, decoder and framing,
    talking to a server that is specified at the level of bytes (WireSpec.v). *)
From Coq Require Import ZArith List Bool Lia ZifyBool.
From Verif Require Import GoPrims Value PackSpec PrimLemmas Encoder EncoderProofs PackProofs Framing CodecProofs CodecIO PropsCodec Errors Misc Decoder
  Session SessionVoc ServerSpec SessionSpec SessionBolt SessionRefine SessionSends SessionNet WireSpec WireBytes SessionWire PropsBolt.
Import ListNotations.
Open Scope Z_scope.

(** ** What occurs in a history *)
Definition chunk_sizes (os : list op) : list Z := 65535 :: flat_map (fun o => match o with CSetChunkSize z => [z] | _ => [] end) os.
Definition queries (os : list op) : list str :=
  flat_map (fun o => match o with
    | CPrepare q | CExec q _ | CQuery q _ | CQueryAll q _ | CExecSql q _ | CQuerySql q _ => [q]
    | CPreparePipeline qs | CExecPipeline qs _ | CQueryPipeline qs _ => qs
    | _ => [] end) os.
Definition params (mk : bool) (os : list op) : list md :=
  flat_map (fun o => match o with
    | CExec _ ps | CQuery _ ps | CQueryAll _ ps | SExec _ ps | SQuery _ ps => [ps]
    | CExecPipeline _ pss | CQueryPipeline _ pss | SExecPipeline _ pss | SQueryPipeline _ pss => pss
    | CExecSql _ args | CQuerySql _ args | SExecSql _ args | SQuerySql _ args => match driver_args mk args with AOk ps => [ps] | _ => [] end
    | _ => [] end) os.
Definition tx_words (os : list op) : list str :=
  flat_map (fun o => match o with CBegin => [s_begin] | TCommit _ => [s_commit] | TRollback _ => [s_rollback] | _ => [] end) os.
Lemma tx_words_are os q : In q (tx_words os) -> q = s_begin \/ q = s_commit \/ q = s_rollback.
Proof. intros H. apply in_flat_map in H. destruct H as (o & _ & H). destruct o; cbn in H; intuition auto. Qed.
Lemma within_history mk os : Forall (op_within (fun z => In z (chunk_sizes os)) (fun q => In q (queries os)) (fun ps => In ps (params mk os)) (fun q => In q (tx_words os)) mk) os.
Proof.
  apply Forall_forall. intros o Ho.
  assert (H0 : forall z, In z (match o with CBegin => [s_begin] | TCommit _ => [s_commit] | TRollback _ => [s_rollback] | _ => [] end) -> In z (tx_words os)).
  { intros z Hz. apply in_flat_map. eauto. }
  assert (H1 : forall z, In z (match o with CSetChunkSize z => [z] | _ => [] end) -> In z (chunk_sizes os)).
  { intros z Hz. right. apply in_flat_map. eauto. }
  assert (H2 : forall q, In q (queries [o]) -> In q (queries os)).
  { intros q Hq. unfold queries in *. cbn in Hq. rewrite app_nil_r in Hq. apply in_flat_map. eauto. }
  assert (H3 : forall q, In q (params mk [o]) -> In q (params mk os)).
  { intros q Hq. unfold params in *. cbn in Hq. rewrite app_nil_r in Hq. apply in_flat_map. eauto. }
  unfold queries, params in H2, H3. destruct o; cbn in H0, H1, H2, H3; (split; [|split; [|split]]); cbn; auto;
    try (apply Forall_forall; intros x Hx; first [apply H2; rewrite ?app_nil_r; exact Hx|apply H3; rewrite ?app_nil_r; exact Hx]);
    try (destruct (driver_args mk args); auto; apply H3; left; reflexivity).
Qed.

(** A message that reaches the wire whole, with strings that fit a chunk, or one that the
    encoder refuses before anything reaches the wire. *)
Definition crosses (cs : Z) (v : goval) : Prop :=
  wt v /\ uints_fit v /\ strings_le cs v /\ Accepted v \/ ~ Accepted v /\ wire_bytes cs v = [].
Lemma encode_result cs v : snd (encode cs v) = snd (enc v).
Proof. unfold encode. destruct (enc v) as [w e]. destruct (chunk cs [] w) as [o bf]. destruct e; reflexivity. Qed.
Lemma crosses_travels cs v : 8 <= cs <= 65535 -> crosses cs v -> travels cs v.
Proof.
  intros Hc [(W & U & L & b & A)|(A & E)]; unfold travels; rewrite encode_result.
  - pose proof A as A'. apply Sent_iff in A'. destruct A' as (A' & _). unfold accepted in A'. rewrite A'. exists b. split; [now apply C01_conformance|].
    now apply C15_terminator_partial.
  - destruct (snd (enc v)) eqn:Ee; [exact E|]. exfalso. apply A. apply Accepted_iff. exact Ee.
Qed.
Lemma subs_none v sig : structure_of v = Some (sig, []) -> (forall w, Sub w v -> w = v).
Proof. intros E w H. inversion H; subst; auto; try discriminate. rewrite E in H0. injection H0 as <- <-. contradiction. Qed.
Lemma word_crosses cs q : zlen q <= 8 -> bytes_ok q -> 8 <= cs -> crosses cs (VRun q []).
Proof.
  intros L B Hc. left.
  assert (HS : forall w, Sub w (VRun q []) -> w = VRun q [] \/ w = VStr q \/ w = VMap []).
  { intros w H. inversion H as [|? ? ? Hi|? ? ? Hi|? ? ? ? Hi|? x ? sig fs E Hi Hs]; subst; auto. cbn in E. injection E as <- <-. destruct Hi as [<-|[<-|[]]].
    - inversion Hs; subst; auto. discriminate.
    - inversion Hs; subst; auto; [contradiction|discriminate]. }
  assert (HA : accepted (enc (VRun q []))).
  { cbn. unfold enc_str. pose proof (zlen_nonneg q). unfold accepted. replace (zlen q <=? 15) with true by lia. reflexivity. }
  split; [repeat constructor; assumption|]. split; [intros z H; destruct (HS _ H) as [E|[E|E]]; discriminate|].
  split; [|now apply Accepted_iff]. intros w H. destruct (HS _ H) as [->|[->| ->]]; [exact I|lia|intros k x []].
Qed.
Lemma control_crosses cs v : In v [VPullAll; VDiscardAll; VAckFailure; VReset] -> crosses cs v.
Proof.
  intros Hv. left. assert (exists sig, structure_of v = Some (sig, [])) as (sig & E) by (repeat (destruct Hv as [<-|Hv]; [eexists; reflexivity|]); contradiction).
  pose proof (subs_none v sig E) as HS. split; [repeat (destruct Hv as [<-|Hv]; [constructor|]); contradiction|].
  split; [intros z H; apply HS in H; subst v; discriminate|]. split.
  - intros w H. apply HS in H. subst w. repeat (destruct Hv as [<-|Hv]; [exact I|]); contradiction.
  - apply Accepted_iff. repeat (destruct Hv as [<-|Hv]; [reflexivity|]); contradiction.
Qed.

Section Bytes.
Context {DB : Type}.
(** What queries do and answer; how the server writes its answers; how they are cut into
    segments on the way. *)
Variable pexec : DB -> str -> list (str * pval) -> DB * outcome.
Variable ser : nat -> goval -> bytes.
Variable cut : nat -> bytes -> list bytes.
Variable mk : bool.
Hypothesis Hexec : forall db q ps, outcome_ok (snd (pexec db q ps)).
Hypothesis Hser : ser_ok ser.
Hypothesis Hcut : cut_ok cut.
Notation bytenet_ := (bytenet (stream pexec ser cut) mk).

(** ** C58: the bytes in between make no difference *)
Theorem C58_over_bytes : forall pooled db n f os,
  (forall cs, In cs (chunk_sizes os) -> 8 <= cs <= 65535) ->
  (forall cs q ps, In cs (chunk_sizes os) -> In q ([] :: queries os) -> In ps (params mk os) -> crosses cs (VRun q ps)) ->
  let b := run bytenet_ mk f os (fresh pooled (ready db n)) in
  let m := run (bolt (vexec pexec) takes) mk f os (fresh pooled (Build_bnet db Ready [])) in
  fst b = fst m /\ w_conn (snd b) = w_conn (snd m) /\ y_db (w_net (snd b)) = b_db (w_net (snd m)).
Proof.
  intros pooled db n f os Hcs Hq b m.
  destruct (wire_run pexec ser cut mk Hexec Hser Hcut (fun z => In z (chunk_sizes os)) (fun q => In q (queries os)) (fun ps => In ps (params mk os)) (fun q => In q (tx_words os)) f os
    (fresh pooled (ready db n)) (fresh pooled (Build_bnet db Ready []))) as (E & _ & _ & Ec & _ & _ & _ & _ & _ & Ed & _).
  - intros cs v Hc Hv. apply crosses_travels; [auto|]. destruct v; try contradiction; try (apply control_crosses; cbn; tauto).
    destruct Hv as [([Hv| ->] & Hp)|(Hv & ->)]; [| |apply tx_words_are in Hv; destruct Hv as [->|[->| ->]]]; [apply Hq; auto; right; exact Hv|apply Hq; auto; now left| | |];
      (apply word_crosses; [vm_compute; congruence|repeat constructor; unfold is_byte; lia|apply Hcs; exact Hc]).
  - apply within_history.
  - split; [split; [now left|reflexivity]|]. split; [constructor|]. do 4 (split; [reflexivity|]). apply ready_RN.
  - auto.
Qed.
(** So every result is what the same request answered in isolation gives (C28). *)
Theorem C58_own_answers : forall pooled db n os,
  (forall cs, In cs (chunk_sizes os) -> 8 <= cs <= 65535) ->
  (forall cs q ps, In cs (chunk_sizes os) -> In q ([] :: queries os) -> In ps (params mk os) -> crosses cs (VRun q ps)) ->
  exists f0, forall f, (f0 <= f)%nat ->
    follows (vexec pexec) takes mk pooled (start db) os (fst (fst (run bytenet_ mk f os (fresh pooled (ready db n))))).
Proof.
  intros pooled db n os H1 H2. assert (Hctl : controls takes) by (repeat split; reflexivity).
  destruct (C28_own_answers (vexec pexec) takes mk Hctl pooled db os) as (f0 & H). exists f0. intros f Hf.
  destruct (C58_over_bytes pooled db n f os H1 H2) as (E & _). rewrite E. now apply H.
Qed.

(** ** C60: opening *)
(** The bytes of the names and passwords that fit one chunk. *)
Definition short_bytes (s : str) : Prop := bytes_ok s /\ zlen s <= 65535.
Lemma init_crosses user password : short_bytes user -> short_bytes password ->
  (exists b, PS (denote (INIT user password)) b /\ Frame b (concat (fst (encode 65535 (INIT user password))))) /\ snd (encode 65535 (INIT user password)) = None.
Proof.
  intros (Bu & Lu) (Bp & Lp). set (v := INIT user password).
  set (strs := client_id :: s_none :: s_basic :: user :: password :: []).
  assert (HS : forall w, Sub w v -> w = v \/ (exists s, In s strs /\ w = VStr s) \/ exists m, w = VMap m /\ zlen m <= 3 /\ forall k x, In (k, x) m -> In k [s_scheme; s_principal; s_credentials]).
  { assert (Hstr : forall w s, Sub w (VStr s) -> w = VStr s) by (intros w s H; inversion H; subst; auto; discriminate).
    intros w H. inversion H as [|? ? ? Hi|? ? ? Hi|? ? ? ? Hi|? x ? sig fs E Hi Hs]; subst; auto; [unfold v, INIT, init_message in *; destruct (str_eqb user []); discriminate..|].
    cbn in E. injection E as <- <-. destruct Hi as [<-|[<-|[]]].
    - apply Hstr in Hs. right. left. exists client_id. split; [now left|exact Hs].
    - right. set (m := if str_eqb user [] then _ else _) in Hs. assert (Hm : forall k x, In (k, x) m -> In k [s_scheme; s_principal; s_credentials] /\ exists s, In s strs /\ x = VStr s).
      { intros k x Hi. unfold m in Hi. destruct (str_eqb user []); cbn in Hi; unfold strs.
        - destruct Hi as [Hi|[]]. injection Hi as <- <-. split; [cbn; tauto|]. exists s_none. cbn. tauto.
        - destruct Hi as [Hi|[Hi|[Hi|[]]]]; injection Hi as <- <-; (split; [cbn; tauto|]); eexists; (split; [|reflexivity]); cbn; tauto. }
      inversion Hs as [|? ? ? Hi'|? ? ? Hi'|? k x ? Hi' Hs'|? x ? sig fs E Hi' Hs']; subst; [|destruct (Hm k x Hi') as (_ & s & Hss & ->); apply Hstr in Hs'; eauto|discriminate].
      right. exists m. split; [reflexivity|]. split; [unfold m; destruct (str_eqb user []); vm_compute; congruence|]. intros k x Hx. now apply (Hm k x). }
  assert (Hstrs : forall s, In s strs -> short_bytes s).
  { intros s Hs. unfold strs in Hs. cbn in Hs. destruct Hs as [<-|[<-|[<-|[<-|[<-|[]]]]]]; split; try assumption; try (repeat constructor; unfold is_byte; lia); vm_compute; congruence. }
  assert (W : wt v).
  { unfold v, INIT, init_message. constructor; [apply (Hstrs client_id); now left|]. destruct (str_eqb user []); constructor; cbn [map fst snd];
    repeat match goal with
      | |- NoDup _ => constructor | |- ~ In _ _ => cbn; intuition discriminate | |- Forall _ _ => constructor
      | |- wt (VStr user) => constructor; assumption | |- wt (VStr password) => constructor; assumption | |- wt _ => constructor
      | |- bytes_ok _ => unfold bytes_ok | |- is_byte _ => unfold is_byte; cbn; lia end; assumption.
  }
  assert (U : uints_fit v) by (intros z H; destruct (HS _ H) as [E|[(s & _ & E)|(m & E & _)]]; [unfold v, INIT, init_message in E; destruct (str_eqb user []); discriminate|discriminate|discriminate]).
  assert (L : strings_le 65535 v).
  { intros w H. destruct (HS _ H) as [->|[(s & Hs & ->)|(m & -> & _ & Hk)]]; [unfold v, INIT, init_message; destruct (str_eqb user []); exact I|apply (Hstrs s Hs)|].
    intros k x Hx. specialize (Hk k x Hx). cbn in Hk. destruct Hk as [<-|[<-|[<-|[]]]]; vm_compute; congruence. }
  assert (A : Accepted v).
  { destruct (snd (enc v)) eqn:Ee; [|now apply Accepted_iff]. exfalso. assert (NA : ~ Accepted v) by (rewrite Accepted_iff; unfold accepted; congruence).
    apply (C03_rejects_iff v W) in NA. destruct NA as (w & Hw & Hu). destruct (HS _ Hw) as [->|[(s & Hs & ->)|(m & -> & Hl & Hk)]].
    - unfold v, INIT, init_message, Unrepresentable in Hu. destruct (str_eqb user []); cbn in Hu; unfold zlen in Hu; cbn in Hu; lia.
    - destruct (Hstrs s Hs) as (_ & Hl). cbn in Hu. unfold too_long in Hu. lia.
    - cbn in Hu. unfold too_long in Hu. destruct Hu as [Hu|(k & x & Hx & Hu)]; [lia|]. specialize (Hk k x Hx). cbn in Hk. destruct Hk as [<-|[<-|[<-|[]]]]; revert Hu; vm_compute; intros Hu; apply Hu; reflexivity. }
  pose proof (crosses_travels 65535 v ltac:(lia) (or_introl (conj W (conj U (conj L A))))) as T. unfold travels in T. rewrite encode_result in *.
  apply Accepted_iff in A. unfold accepted in A. rewrite A in *. auto.
Qed.
(** The server accepts; its choice of version arrives in one piece: the connection is open. *)
Theorem C60_opens_partial : forall pooled db n f user password, short_bytes user -> short_bytes password ->
  cut n [0; 0; 0; 1] = [[0; 0; 0; 1]] ->
  initialize bytenet_ f (close bytenet_ f) user password (fresh pooled (listening db n)) = (Ok None, fresh pooled (ready db (S n))).
Proof. intros pooled db n f user password Hu Hp Hc. destruct (init_crosses user password Hu Hp) as (HI & He). now apply wire_open. Qed.
(** From there on every result is what the same request answered in isolation gives. *)
Theorem C60_session_partial : forall pooled db n f user password os, short_bytes user -> short_bytes password ->
  cut n [0; 0; 0; 1] = [[0; 0; 0; 1]] ->
  (forall cs, In cs (chunk_sizes os) -> 8 <= cs <= 65535) ->
  (forall cs q ps, In cs (chunk_sizes os) -> In q ([] :: queries os) -> In ps (params mk os) -> crosses cs (VRun q ps)) ->
  exists w f0, initialize bytenet_ f (close bytenet_ f) user password (fresh pooled (listening db n)) = (Ok None, w) /\
    forall f', (f0 <= f')%nat -> follows (vexec pexec) takes mk pooled (start db) os (fst (fst (run bytenet_ mk f' os w))).
Proof.
  intros pooled db n f user password os Hu Hp Hc H1 H2. destruct (C58_own_answers pooled db (S n) os H1 H2) as (f0 & H).
  exists (fresh pooled (ready db (S n))), f0. split; [now apply C60_opens_partial|exact H].
Qed.
(** The server accepts just the same, but the first byte of its choice arrives alone:
    opening fails, for every user and every way of answering. *)
Theorem C60_refuted : forall db n f user password rest, short_bytes user -> short_bytes password ->
  cut n [0; 0; 0; 1] = [0] :: rest ->
  exists w, initialize bytenet_ (S f) (close bytenet_ (S f)) user password (fresh false (listening db n)) = (Ok (Some (gerr_of DEMarkerEOF)), w) /\
    y_phase (w_net w) = Up /\ c_closed (w_conn w) = true.
Proof.
  intros db n f user password rest Hu Hp Hc. destruct (init_crosses user password Hu Hp) as (HI & He).
  rewrite (wire_open_late pexec ser cut mk Hser Hcut false db n (S f) _ user password rest Hc HI He). eexists. split; [reflexivity|]. split; reflexivity.
Qed.
End Bytes.
Print Assumptions C58_over_bytes.
Print Assumptions C58_own_answers.
Print Assumptions C60_opens_partial.
Print Assumptions C60_session_partial.
Print Assumptions C60_refuted.

(** ** C59: nothing is sent that was not asked for *)
(** A network that also notes what it is asked to send, with the chunk size. *)
Definition noted {N} (ops : netops N) : netops (N * list (Z * goval)) :=
  {| n_send := fun n cs v => let '(n', r) := n_send ops (fst n) cs v in ((n', snd n ++ [(cs, v)]), r);
     n_recv := fun n => let '(n', r) := n_recv ops (fst n) in ((n', snd n), r);
     n_close := fun n => let '(n', r) := n_close ops (fst n) in ((n', snd n), r);
     n_shake := fun n => let '(n', r) := n_shake ops (fst n) in ((n', snd n), r) |}.
Definition asked_for (mk : bool) (os : list op) (cs : Z) (v : goval) : Prop :=
  In cs (chunk_sizes os) /\
  (In v [VPullAll; VDiscardAll; VAckFailure; VReset] \/
   (exists q ps, v = VRun q ps /\ In q ([] :: queries os) /\ In ps (params mk os)) \/
   (exists q, v = VRun q [] /\ In q (tx_words os))).
Theorem C59_only_what_was_asked : forall N (ops : netops N) mk f os pooled n,
  let r := run (noted ops) mk f os (fresh pooled (n, [])) in
  fst r = fst (run ops mk f os (fresh pooled n)) /\
  forall cs v, In (cs, v) (snd (w_net (snd r))) -> asked_for mk os cs v.
Proof.
  intros N ops mk f os pooled n r. set (ok := fun x : Z * goval => asked_for mk os (fst x) (snd x)).
  destruct (run_alike (noted ops) ops (fun z => In z (chunk_sizes os)) (fun q => In q (queries os)) (fun ps => In ps (params mk os)) (fun q => In q (tx_words os))
    (fun x n' => fst x = n' /\ Forall ok (snd x))) with (mk := mk) (f := f) (os := os) (w := fresh pooled (n, @nil (Z * goval))) (w' := fresh pooled n) as (E & HA).
  - intros [n1 l] n' cs v (<- & Hl) Hc Hv. cbn in *. destruct (n_send ops n1 cs v) as [n2 x]. cbn. split; [reflexivity|]. split; [reflexivity|].
    apply Forall_app. split; [exact Hl|]. constructor; [|constructor]. split; [exact Hc|]. cbn. destruct v; try contradiction; cbn; try tauto.
    right. destruct Hv as [([Hv| ->] & Hp)|(Hv & ->)]; [left; eauto 8|left; eexists _, _; split; [reflexivity|auto]|right; eauto].
  - intros [n1 l] n' (<- & Hl). cbn in *. destruct (n_recv ops n1). auto.
  - intros [n1 l] n' (<- & Hl). cbn in *. destruct (n_close ops n1). auto.
  - apply within_history.
  - repeat split; cbn; auto.
  - split; [exact E|]. intros cs v Hi. destruct HA as (_ & _ & _ & _ & _ & _ & _ & HA). rewrite Forall_forall in HA. exact (HA _ Hi).
Qed.
Print Assumptions C59_only_what_was_asked.

(** ** Examples: a counter that also reads its parameters, answers serialised with the
    widest headers, one chunk per byte and one segment per byte *)
Definition hdr_b : md := [([102], VNil)].
Definition ptoy (n : Z) (q : str) (ps : list (str * pval)) : Z * outcome :=
  match q, ps with
  | [1], [(_, PInt k)] => ((n + k) mod 1000, Runs hdr_b [[VInt KInt64 (n mod 1000)]; [VStr [104; 105]]] (Ends []))
  | [2], _ => (n, RunFails [([99], VInt KInt64 2)])
  | [3], _ => (n, Runs hdr_b [[VInt KInt64 (n mod 1000)]] (Breaks [([99], VInt KInt64 3)]))
  | _, _ => (n, Runs [] [] (Ends []))
  end.
Definition bytewise (n : nat) (b : bytes) : list bytes := map (fun x => [x]) b.
Lemma bytewise_ok : cut_ok bytewise.
Proof.
  intros n b. unfold bytewise. split; [induction b; cbn; congruence|]. intros H. apply in_map_iff in H. destruct H as (x & E & _). discriminate.
Qed.
Ltac is_answer :=
  split; [repeat constructor; cbn; intuition discriminate|]; split;
  [repeat match goal with
     | |- wtm _ => apply wtm_intro | |- NoDup _ => constructor | |- Forall _ _ => constructor
     | |- wt _ => constructor | |- bytes_ok _ => unfold bytes_ok | |- is_byte _ => unfold is_byte; cbn; lia
     | |- ~ In _ _ => cbn; intuition discriminate
     | |- _ = true => cbn; lia end|];
  eexists; apply penc_PS; cbn; unfold sz_ok, is_byte, zlen; cbn; lia.
Lemma a_int z : 0 <= z < 1000 -> answers_ok (VRecord [VInt KInt64 z]). Proof. intros H. is_answer. Qed.
Lemma a_str : answers_ok (VRecord [VStr [104; 105]]). Proof. is_answer. Qed.
Lemma a_hdr : answers_ok (VSuccess hdr_b). Proof. is_answer. Qed.
Lemma a_fail z : 0 <= z < 1000 -> answers_ok (VFailure [([99], VInt KInt64 z)]). Proof. intros H. is_answer. Qed.
Lemma ptoy_ok : forall db q ps, outcome_ok (snd (ptoy db q ps)).
Proof.
  intros db q ps. pose proof (Z.mod_pos_bound db 1000 ltac:(lia)) as Hm. pose proof (a_int _ Hm). pose proof a_str. pose proof a_hdr. pose proof ok_success.
  pose proof (a_fail 2 ltac:(lia)). pose proof (a_fail 3 ltac:(lia)). unfold ptoy.
  repeat match goal with |- context [match ?x with _ => _ end] => destruct x end; cbn [snd outcome_ok final];
    repeat match goal with |- _ /\ _ => split | |- Forall _ _ => constructor end; assumption.
Qed.
Definition ex_ps (z : Z) : md := [([107], VInt KInt z)].
Lemma ex_crosses cs q z : 8 <= cs -> zlen q <= 8 -> bytes_ok q -> 0 <= z < 100 -> crosses cs (VRun q (ex_ps z)).
Proof.
  intros Hc L B Hz. left.
  assert (HS : forall w, Sub w (VRun q (ex_ps z)) -> w = VRun q (ex_ps z) \/ w = VStr q \/ w = VMap (ex_ps z) \/ w = VInt KInt z).
  { intros w H. inversion H as [|? ? ? Hi|? ? ? Hi|? ? ? ? Hi|? x ? sig fs E Hi Hs]; subst; auto. cbn in E. injection E as <- <-. destruct Hi as [<-|[<-|[]]].
    - inversion Hs; subst; auto. discriminate.
    - inversion Hs as [| | |? k x ? Hi Hs'|]; subst; auto; [|discriminate]. destruct Hi as [Hi|[]]. injection Hi as <- <-. inversion Hs'; subst; auto. discriminate. }
  assert (W : wt (VRun q (ex_ps z))).
  { repeat match goal with
     | |- wtm _ => apply wtm_intro | |- NoDup _ => constructor | |- Forall _ (_ :: _) => constructor | |- Forall _ [] => constructor
     | |- wt _ => constructor | |- bytes_ok (fst _) => cbn [fst] | |- bytes_ok [_] => constructor | |- is_byte _ => unfold is_byte; cbn; lia
     | |- ~ In _ _ => cbn; intuition discriminate | |- _ = true => cbn; lia | |- Forall _ (ex_ps _) => unfold ex_ps end; assumption. }
  split; [exact W|split; [|split]].
  - intros x H. destruct (HS _ H) as [E|[E|[E|E]]]; discriminate.
  - intros w H. destruct (HS _ H) as [->|[->|[->| ->]]]; [exact I|lia| |exact I]. intros k x [Hx|[]]. injection Hx as <- <-. unfold zlen. cbn. lia.
  - apply Accepted_iff. destruct (snd (enc (VRun q (ex_ps z)))) eqn:Ee; [|exact Ee]. exfalso. assert (NA : ~ Accepted (VRun q (ex_ps z))) by (rewrite Accepted_iff; unfold accepted; congruence).
    apply (C03_rejects_iff _ W) in NA. destruct NA as (w & Hw & Hu). destruct (HS _ Hw) as [->|[->|[->| ->]]]; cbn in Hu.
    + unfold zlen in Hu. cbn in Hu. lia.
    + unfold too_long in Hu. lia.
    + destruct Hu as [Hu|(k & x & [Hx|[]] & Hu)]; [|injection Hx as <- <-]; unfold too_long, zlen in Hu; cbn in Hu; lia.
    + exact Hu.
Qed.
Definition ex_os : list op :=
  [CExec [1] (ex_ps 5); CSetChunkSize 8; CQuery [1] (ex_ps 7); RNext 0; RNext 0; RNext 0; RClose 0; CExec [2] [];
   CBegin; CPrepare [1]; SExec 3 (ex_ps 9); SClose 3; TCommit 0; CQueryAll [1] (ex_ps 1); CExecPipeline [[1]; [1]] [ex_ps 2; ex_ps 3]].
Definition ex_run := run (bytenet (stream ptoy plain bytewise) false) false 20 ex_os (fresh false (ready 0 0)).
(** It meets the hypotheses of C58, with a rejection, a chunk size of 8 and a transaction; the results. *)
Example C58_example : (forall cs, In cs (chunk_sizes ex_os) -> 8 <= cs <= 65535) /\
  (forall cs q ps, In cs (chunk_sizes ex_os) -> In q ([] :: queries ex_os) -> In ps (params false ex_os) -> crosses cs (VRun q ps)) /\
  (forall db q ps, outcome_ok (snd (ptoy db q ps))) /\ ser_ok plain /\ cut_ok bytewise /\
  fst ex_run = ([OResult (Some []) None; OUnit; OHandle (Some 0%nat) None;
         ONext (Some [VInt KInt64 5]) None None; ONext (Some [VStr [104; 105]]) None None; ONext None (Some []) (Some EEOF); OErr None;
         OResult None (Some (EDrv FConn 569 (Some (EFailMsg [([99], VInt KInt64 2)]))));
         OHandle (Some 0%nat) None; OHandle (Some 3%nat) None; OResult (Some []) None; OErr None; OErr None;
         OQueryAll (Some [[VInt KInt64 21]; [VStr [104; 105]]]) (Some hdr_b) (Some []) None; OResults (Some [[]; []]) None], Ok tt) /\
  y_db (w_net (snd ex_run)) = 27.
Proof.
  assert (Hcs : forall cs, In cs (chunk_sizes ex_os) -> 8 <= cs <= 65535) by (intros cs [<-|[<-|[]]]; lia).
  split; [exact Hcs|]. split; [|split; [exact ptoy_ok|split; [exact plain_ok|split; [exact bytewise_ok|split; vm_compute; reflexivity]]]].
  intros cs q ps Hc Hq Hp. specialize (Hcs cs Hc).
  assert (Hq' : zlen q <= 8 /\ bytes_ok q).
  { cbn in Hq. repeat (destruct Hq as [<-|Hq]; [split; [vm_compute; congruence|repeat constructor; unfold is_byte; lia]|]). contradiction. }
  destruct Hq' as (L & B). cbn in Hp. repeat (destruct Hp as [<-|Hp]; [first [apply word_crosses; try assumption; lia|apply ex_crosses; try assumption; lia]|]). contradiction.
Qed.
(** Opening and failing to open: the server's choice in one segment, or byte by byte. *)
Definition late_cut (n : nat) (b : bytes) : list bytes := match b with [0; 0; 0; 1] => [b] | _ => bytewise n b end.
Example C60_example : short_bytes [117] /\ short_bytes [112] /\ cut_ok late_cut /\ late_cut 0 [0; 0; 0; 1] = [[0; 0; 0; 1]] /\
  bytewise 0 [0; 0; 0; 1] = [0] :: [[0]; [0]; [1]] /\
  (let net := bytenet (stream ptoy plain late_cut) false in
   initialize net 5 (close net 5) [117] [112] (fresh false (listening 7 0)) = (Ok None, fresh false (ready 7 1))) /\
  (let net := bytenet (stream ptoy plain bytewise) false in
   fst (initialize net 5 (close net 5) [117] [112] (fresh false (listening 7 0))) = Ok (Some (EDrv FDec 105 (Some EEOF)))).
Proof.
  split; [split; [repeat constructor; unfold is_byte; lia|vm_compute; congruence]|]. split; [split; [repeat constructor; unfold is_byte; lia|vm_compute; congruence]|].
  split; [|repeat split; vm_compute; reflexivity].
  intros n b. assert (H : late_cut n b = [b] /\ b = [0; 0; 0; 1] \/ late_cut n b = bytewise n b).
  { unfold late_cut. repeat match goal with |- context [match ?x with _ => _ end] => destruct x end; auto. }
  destruct H as [(-> & ->)| ->]; [|apply bytewise_ok]. split; [reflexivity|]. intros [E|[]]. discriminate.
Qed.
(** All that is sent in a history with a rejected query. *)
Example C59_example : snd (w_net (snd (run (noted (bytenet (stream ptoy plain bytewise) false)) false 20
    [CSetChunkSize 8; CExec [1] (ex_ps 5); CBegin; CExec [2] []; TRollback 0] (fresh false (ready 0 0, []))))) =
  [(8, VRun [1] (ex_ps 5)); (8, VPullAll); (8, VRun s_begin []); (8, VPullAll); (8, VRun [2] []); (8, VPullAll); (8, VAckFailure);
   (8, VRun s_rollback []); (8, VPullAll)].
Proof. vm_compute. reflexivity. Qed.

(** ** C54 in bytes *)
(** A peer that has sent everything beforehand. *)
Definition tape : transport reader :=
  {| t_put := fun r b => (r, {| wc_n := zlen b; wc_err := false |}); t_in := fun r => r; t_left := fun _ r => r; t_close := fun r => (r, false) |}.
Lemma tape_send mk r cs v : takes v = true -> n_send (bytenet tape mk) r cs v = (r, SOk).
Proof.
  intros H. cbn [n_send bytenet]. pose proof (encode_result cs v) as E. destruct (encode cs v) as [outs e]. cbn [snd] in E. unfold takes in H. subst e.
  assert (P : puts tape r outs = (r, true)) by (induction outs as [|o outs IH]; cbn; auto). rewrite P. destruct (snd (enc v)); [discriminate|reflexivity].
Qed.
(** SUCCESS {}, RECORD [1] and a record of which everything after the marker of its only
    field is missing: All takes it for the end of a complete result. *)
Definition cut_short : bytes := [0; 3; 0xB1; 0x70; 0xA0; 0; 0;  0; 4; 0xB1; 0x71; 0x91; 1; 0; 0;  0; 4; 0xB1; 0x71; 0x91; 0xC8; 0; 0].
Theorem C54_refuted_bytes : forall mk q ps, takes (VRun q ps) = true ->
  exists w', run (bytenet tape mk) mk 5 [CQuery q ps; RAll 0] (fresh false [RData cut_short]) =
    ([OHandle (Some 0%nat) None; OAll [[VInt KInt64 1]] None None], Ok tt, w').
Proof.
  intros mk q ps H.
  assert (E1 : forall w, encode_msg (bytenet tape mk) (VRun q ps) w = (Ok None, w)).
  { intros w. unfold encode_msg, bind, getc, getn, setn, ret. rewrite tape_send by exact H. destruct w. reflexivity. }
  assert (E2 : forall w, encode_msg (bytenet tape mk) VPullAll w = (Ok None, w)).
  { intros w. unfold encode_msg, bind, getc, getn, setn, ret. rewrite tape_send by reflexivity. destruct w. reflexivity. }
  assert (E3 : exists w, step (bytenet tape mk) mk 5 (CQuery q ps) (fresh false [RData cut_short]) = (Ok (OHandle (Some 0%nat) None), w) /\
    step (bytenet tape mk) mk 5 (RAll 0) w = (Ok (OAll [[VInt KInt64 1]] None None), snd (step (bytenet tape mk) mk 5 (RAll 0) w))).
  { eexists. split.
    - unfold step. cbn [step_body]. unfold query_neo, guard_open, bind at 1 2, getc at 1. cbn [w_conn c_stmt c_closed fresh].
      unfold send_run_pull_all_consume_run, send_run_pull_all, send_run, send_pull_all, bind, ret, getc, modc, setc, news, newr, mods, gets, sets. cbn -[cut_short consume encode_msg bytenet].
      rewrite E1. cbn -[cut_short consume encode_msg bytenet]. rewrite E2. destruct mk; lazy; reflexivity.
    - destruct mk; lazy; reflexivity. }
  destruct E3 as (w & E3 & E4). cbn [run]. rewrite E3, E4. eexists. reflexivity.
Qed.
Print Assumptions C54_refuted_bytes.
Example C54_bytes_example : takes (VRun [1] (ex_ps 5)) = true. Proof. reflexivity. Qed.
