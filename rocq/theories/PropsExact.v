(** Property C85: exactly which values come back from Marshal and Unmarshal, and
    what the others do.

    [Delivered v]: the message bytes that encoding [v] produces can be taken out
    of the chunks that Marshal writes. *)
From Coq Require Import ZArith List Bool Lia.
From Coq Require Import ZifyBool.
From Verif Require Import GoPrims Value PackSpec PrimLemmas Encoder EncoderProofs PackProofs
  Decoder DecoderProofs RoundTrip Framing CodecProofs CodecIO CodecRefute CodecOrder PropsCodec ExactTrip Misc PropsMisc.
Import ListNotations.
Open Scope Z_scope.

Definition Delivered (v : goval) : Prop := exists b rest, Sent v b /\ Receives (fst (marshal v)) b rest.
(** Nothing in the value is of a kind the receiver does not have. *)
Definition kinds_ok (v : goval) : Prop := forall w, Sub w v -> kind_ok w.

Lemma Delivered_iff v : Delivered v <-> accepted (enc v) /\ zlen (backlog 65535 (fst (enc v))) < 65536.
Proof.
  split.
  - intros (b & rest & S & R). apply Sent_iff in S. destruct S as [A ->]. split; [assumption|].
    rewrite marshal_framed in R by assumption. apply (framed_iff 65535); [lia|]. now exists rest.
  - intros [A L]. destruct (proj2 (framed_iff 65535 (fst (enc v)) ltac:(lia)) L) as (rest & R).
    exists (wbytes (enc v)), rest. split; [now apply Sent_iff|]. now rewrite marshal_framed.
Qed.
Lemma short_delivered v : strings_le 65535 v -> Accepted v -> Delivered v.
Proof.
  intros S A. apply Accepted_iff in A. apply Delivered_iff. split; [assumption|].
  pose proof (framed_backlog 65535 v ltac:(lia) S). lia.
Qed.

(** * C85 *)
Theorem C85_round_trip_iff : forall mk v, wt v ->
  ((snd (marshal v) = None /\ unmarshal mk (fst (marshal v)) = DVal (canon v)) <-> (Transmissible v /\ Delivered v)).
Proof.
  intros mk v W. rewrite (roundtrip_iff mk v W), Delivered_iff. split.
  - intros [T L]. split; [exact T|]. split; [now apply trans_accepted|exact L].
  - now intros [T [_ L]].
Qed.
Print Assumptions C85_round_trip_iff.

(** With strings and map keys of at most 65535 bytes, the chunks never matter. *)
Theorem C85_short_strings_iff : forall mk v, wt v -> strings_le 65535 v ->
  ((snd (marshal v) = None /\ unmarshal mk (fst (marshal v)) = DVal (canon v)) <-> Transmissible v).
Proof.
  intros mk v W S. rewrite C85_round_trip_iff by assumption. split; [now intros []|]. intros T. split; [assumption|].
  apply short_delivered; trivial. apply Accepted_iff. now apply trans_accepted.
Qed.
Print Assumptions C85_short_strings_iff.

(** A value that has been sent and does not come back crashes the receiver: it
    gets neither another value nor an error. *)
Theorem C85_or_crash : forall mk v, wt v -> kinds_ok v -> Delivered v ->
  (mk = true \/ forall m, Sub (VMap m) v -> ~ bad_size (zlen m)) ->
  (Transmissible v /\ unmarshal mk (fst (marshal v)) = DVal (canon v)) \/
  (~ Transmissible v /\ unmarshal mk (fst (marshal v)) = DCrash).
Proof. intros mk v W K D G. apply Delivered_iff in D. destruct D as [A L]. now apply outcome. Qed.
Print Assumptions C85_or_crash.

(** A string of 200 bytes in the second element of a list in a map. *)
Definition ex_bad : goval := VMap [([107], VSlice [VInt KInt 1; VStr (repeat 65 200)])].
Lemma ex_bad_subs w : Sub w ex_bad ->
  w = ex_bad \/ w = VSlice [VInt KInt 1; VStr (repeat 65 200)] \/ w = VInt KInt 1 \/ w = VStr (repeat 65 200).
Proof.
  intros H. apply Sub_map_inv in H. destruct H as [->|(k & x & [HI|[]] & H)]; [tauto|]. injection HI as <- <-.
  apply Sub_slice_inv in H. destruct H as [->|(x & HI & H)]; [tauto|].
  destruct HI as [<-|[<-|[]]]; inversion H; subst; try discriminate; tauto.
Qed.
Lemma ex_bad_wt : wt ex_bad.
Proof.
  constructor. apply wtm_intro.
  - constructor; [intros []|constructor].
  - constructor; [|constructor]. constructor; [unfold is_byte; cbn; lia|constructor].
  - constructor; [|constructor]. constructor. constructor; [constructor; reflexivity|]. constructor; [|constructor].
    constructor. apply Forall_forall. intros x Hx. apply repeat_spec in Hx. subst. unfold is_byte. lia.
Qed.
Example C85_example :
  (wt ex_v /\ Transmissible ex_v /\ Delivered ex_v) /\
  (wt ex_bad /\ kinds_ok ex_bad /\ Delivered ex_bad /\ strings_le 65535 ex_bad /\ ~ Transmissible ex_bad) /\
  unmarshal true (fst (marshal ex_v)) = DVal (canon ex_v) /\ unmarshal true (fst (marshal ex_bad)) = DCrash.
Proof.
  split; [|split; [|split]].
  - split; [exact ex_wt|]. split; [exact ex_trans|]. apply short_delivered; [apply ex_strings; lia|]. eexists. eexists. split; reflexivity.
  - assert (S : strings_le 65535 ex_bad).
    { intros w H. apply ex_bad_subs in H. destruct H as [-> | [-> | [-> | ->]]]; cbn; trivial; [|vm_compute; discriminate].
      intros k x [HI|[]]. injection HI as <- <-. unfold zlen. cbn. lia. }
    split; [exact ex_bad_wt|]. split; [|split; [|split; [exact S|]]].
    + intros w H. apply ex_bad_subs in H. destruct H as [-> | [-> | [-> | ->]]]; exact I.
    + apply short_delivered; [exact S|]. eexists. eexists. split; reflexivity.
    + intros T. destruct (T (VStr (repeat 65 200))) as [_ Z].
      * eapply Sub_map; [now left|]. eapply Sub_slice; [right; now left|]. constructor.
      * cbn [size_ok] in Z. unfold signed_size, zlen in Z. rewrite repeat_length in Z. lia.
  - vm_compute. reflexivity.
  - vm_compute. reflexivity.
Qed.

(** * C49 (false): exactly which rows Next hands over with every value recoverable *)
Theorem C49_exact_partial : forall mk row n, Forall row_value row -> zlen row <= n ->
  ((exists ds, fill n row = (ds, NDone) /\ Forall2 (cell_of mk) row ds) <->
   Forall (fun v => is_collection v -> Transmissible v /\ Delivered v) row).
Proof.
  intros mk row. induction row as [|v row IH]; intros n F L.
  - split; [constructor|]. intros _. exists []. split; [reflexivity|constructor].
  - inversion F as [|? ? (D & W & K) F']; subst. rewrite zlen_cons in L. pose proof (zlen_nonneg row). specialize (IH (n - 1) F' ltac:(lia)).
    assert (C : (exists d, convert v = COk d /\ cell_of mk v d) <-> (is_collection v -> Transmissible v /\ Delivered v)).
    { assert (B : is_collection v -> ((exists d, convert v = COk d /\ cell_of mk v d) <-> (snd (marshal v) = None /\ unmarshal mk (fst (marshal v)) = DVal (canon v)))).
      { intros KC. rewrite canon_decodable by assumption. split.
        - intros (d & E & G). assert (M : exists b, d = DVBytes b /\ unmarshal mk b = DVal v /\ marshal v = (b, None)).
          { destruct v; cbn [is_collection convert cell_of] in *; try tauto; destruct G as [_ (b & -> & R)]; exists b; (split; [reflexivity|]; split; [exact R|]);
              match type of E with match ?m with _ => _ end = _ => destruct m as [b' [x|]] end; try discriminate; now injection E as ->. }
          destruct M as (b & -> & R & ->). cbn. now split.
        - destruct (marshal v) as [b e] eqn:M. cbn [fst snd]. intros [-> R]. exists (DVBytes b).
          destruct v; cbn [is_collection convert cell_of] in *; try tauto; rewrite M; (split; [reflexivity|]; split; [exact I|]; now exists b). }
      split.
      - intros G KC. apply (C85_round_trip_iff mk v W). now apply B.
      - intros G. destruct v; cbn [is_collection convert cell_of] in *; try tauto;
          try (apply B, (C85_round_trip_iff mk _ W), G; exact I); try (eexists; split; reflexivity).
        inversion D; subst. eexists; split; reflexivity. }
    rewrite (Forall_cons_iff _ v row). rewrite <- C. cbn [fill]. split.
    + intros (ds & E & G). inversion G as [|? d ? ds' G1 G2]; subst. destruct (convert v) as [d'|] eqn:EC.
      * replace (n <=? 0) with false in E by lia. destruct (fill (n - 1) row) as [ds2 e] eqn:EF. injection E as -> -> ->.
        split; [now exists d|]. apply IH. now exists ds'.
      * destruct (n <=? 0); discriminate.
    + intros [(d & -> & G) G']. apply IH in G'. destruct G' as (ds & -> & G'). replace (n <=? 0) with false by lia.
      exists (d :: ds). split; [reflexivity|]. now constructor.
Qed.
Print Assumptions C49_exact_partial.
