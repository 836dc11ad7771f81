(** C77, C78: what the log shows. *)
From Coq Require Import ZArith List Bool Lia.
From Coq Require Import ZifyBool.
From Verif Require Import GoPrims Value PrimLemmas PackSpec Encoder EncoderProofs Decoder Framing Misc Logging PackProofs CodecProofs SessionWire PropsWire.
Import ListNotations.
Open Scope Z_scope.

(** ** A reader of the dumps, not using anything of the printer *)
Definition blank (c : Z) : Prop := c = 9 \/ c = 10 \/ c = 32.
Definition hexval (c d : Z) : Prop := (48 <= c <= 57 /\ d = c - 48) \/ (97 <= c <= 102 /\ d = c - 97 + 10).
(** [Word w b]: the word [w] of one or two hexadecimal digits is the byte [b] *)
Inductive Word : str -> Z -> Prop :=
| Word1 c d : hexval c d -> Word [c] d
| Word2 c1 d1 c2 d2 : hexval c1 d1 -> hexval c2 d2 -> Word [c1; c2] (16 * d1 + d2).
(** [Dump t bs]: [t] consists of words, each followed by blanks, and possibly blanks in front *)
Inductive Dump : str -> bytes -> Prop :=
| Dump_nil : Dump [] []
| Dump_blank c t bs : blank c -> Dump t bs -> Dump (c :: t) bs
| Dump_word w b c t bs : Word w b -> blank c -> Dump t bs -> Dump (w ++ c :: t) (b :: bs).

Lemma hexdigit_val d : 0 <= d < 16 -> hexval (hexdigit d) d.
Proof. intros H. unfold hexdigit, hexval. destruct (d <? 10) eqn:C; lia. Qed.
Lemma hexbyte_word b : is_byte b -> Word (hexbyte b) b.
Proof.
  unfold is_byte, hexbyte. intros H. destruct (b <? 16) eqn:C; [constructor; apply hexdigit_val; lia|].
  pose proof (Z.div_mod b 16 ltac:(lia)) as E. pose proof (Z.mod_pos_bound b 16 ltac:(lia)).
  assert (0 <= b / 16 < 16) by (split; [apply Z.div_pos; lia|apply Z.div_lt_upper_bound; lia]).
  rewrite E at 3. constructor; apply hexdigit_val; lia.
Qed.

Lemma hex_from_dump b : Forall is_byte b -> forall i, Dump (hex_from i b ++ s_nl) b.
Proof.
  induction 1 as [|x b Hx HF IH]; intros i; cbn [hex_from].
  - apply Dump_blank; [unfold blank; tauto|constructor].
  - specialize (IH (i + 1)). apply hexbyte_word in Hx. rewrite <- !app_assoc.
    destruct ((i + 1) mod 16 =? 0); [|destruct ((i + 1) mod 4 =? 0)]; cbn [s_nl s_tab s_sp app] in *;
      (apply Dump_word; [exact Hx|unfold blank; tauto|]); repeat (apply Dump_blank; [unfold blank; tauto|]); exact IH.
Qed.

Lemma hexval_fun c d d' : hexval c d -> hexval c d' -> d = d'.
Proof. unfold hexval. lia. Qed.
Lemma hexval_not_blank c d : hexval c d -> ~ blank c.
Proof. unfold hexval, blank. lia. Qed.

Lemma word_split w b c t w' b' c' t' : Word w b -> Word w' b' -> blank c -> blank c' -> w ++ c :: t = w' ++ c' :: t' ->
  b = b' /\ t = t'.
Proof.
  intros [x d H|x1 d1 x2 d2 H1 H2] [x' d' H'|x1' d1' x2' d2' H1' H2'] B B' E; cbn [app] in E; injection E; intros; subst.
  - split; [eapply hexval_fun; eassumption|reflexivity].
  - now apply hexval_not_blank in H2'.
  - now apply hexval_not_blank in H2.
  - rewrite (hexval_fun _ _ _ H1 H1'), (hexval_fun _ _ _ H2 H2'). now split.
Qed.

Lemma word_head w b c t x y : Word w b -> w ++ c :: t = x :: y -> ~ blank x.
Proof. intros [z d H|z d z2 d2 H _] E; cbn in E; injection E as <- _; now apply hexval_not_blank in H. Qed.

(** A dump can be read in one way only. *)
Lemma Dump_unique t bs : Dump t bs -> forall bs', Dump t bs' -> bs = bs'.
Proof.
  induction 1 as [|c t bs HB H IH|w b c t bs HW HB H IH]; intros bs' H'.
  - inversion H' as [|?|w b c t bs HW HB H E]; [reflexivity|]. destruct HW; discriminate.
  - inversion H' as [|c' t' b' HB' H2 E|w b c' t' b' HW HB' H2 E]; subst; [now apply IH|].
    destruct (word_head _ _ _ _ _ _ HW E HB).
  - remember (w ++ c :: t) as x eqn:EX. destruct H' as [|c' t' b' HB' H2|w' b' c' t' bs' HW' HB' H2].
    + destruct HW; discriminate.
    + symmetry in EX. destruct (word_head _ _ _ _ _ _ HW EX HB').
    + destruct (word_split _ _ _ _ _ _ _ _ HW' HW HB' HB EX) as [-> ->]. f_equal. now apply IH.
Qed.

(** The dump of some bytes is a dump of these bytes and of no others. *)
Theorem C77_dump : forall b t, Forall is_byte b -> sprint_byte_hex b = t -> forall bs, Dump t bs <-> bs = b.
Proof.
  intros b t HB <- bs. assert (D : Dump (sprint_byte_hex b) b).
  { apply Dump_blank; [unfold blank; tauto|]. now apply hex_from_dump. }
  split; [intros D'; eapply Dump_unique; eassumption|now intros ->].
Qed.

(** ** Whole lines *)
Definition digit (c : Z) : Prop := 48 <= c <= 57.
Definition Decimal (t : str) (z : Z) : Prop :=
  t <> [] /\ Forall digit t /\ fold_left (fun a c => 10 * a + (c - 48)) t 0 = z.

Lemma show_nat_decimal fuel : forall z, (0 < fuel)%nat -> 0 <= z < 2 ^ Z.of_nat fuel -> Decimal (show_nat fuel z) z.
Proof.
  induction fuel as [|fuel IH]; intros z HF HZ; [lia|]. cbn [show_nat]. destruct (z <? 10) eqn:C.
  - split; [discriminate|]. split; [constructor; [unfold digit; lia|constructor]|]. cbn [fold_left]. lia.
  - rewrite Nat2Z.inj_succ, Z.pow_succ_r in HZ by lia.
    pose proof (Z.div_mod z 10 ltac:(lia)) as E. pose proof (Z.mod_pos_bound z 10 ltac:(lia)).
    assert (0 <= z / 10 < 2 ^ Z.of_nat fuel) by lia.
    destruct fuel as [|fuel]; [cbn in *; lia|].
    destruct (IH (z / 10) ltac:(lia) ltac:(lia)) as (N & F & V). split.
    + intros X. now apply app_eq_nil in X.
    + split; [apply Forall_app; split; [exact F|constructor; [unfold digit; lia|constructor]]|].
      rewrite fold_left_app, V. cbn [fold_left]. lia.
Qed.
Lemma show_num_decimal z : 0 <= z -> Decimal (show_num z) z.
Proof.
  intros H. unfold show_num. apply show_nat_decimal; [lia|]. rewrite Nat2Z.inj_succ, Z2Nat.id by apply Z.log2_nonneg.
  destruct (Z.eq_dec z 0) as [->|]; [cbn; lia|]. pose proof (Z.log2_spec z ltac:(lia)). lia.
Qed.

(** "Read <n> bytes from stream:\n\n<dump>\n" *)
Definition Reports_read (t : str) (n : Z) (bs : bytes) : Prop :=
  exists d x, Decimal d n /\ Dump x bs /\ t = s_read ++ d ++ s_bytes_from ++ x ++ [10].
(** "Wrote <n> of <m> bytes to stream:\n\n<dump>\n": [n] bytes of [m] were written, these *)
Definition Reports_written (t : str) (n m : Z) (bs : bytes) : Prop :=
  exists d d2 x, Decimal d n /\ Decimal d2 m /\ Dump x bs /\ t = s_wrote ++ d ++ s_of ++ d2 ++ s_bytes_to ++ x ++ [10].

Lemma digits_end d d' c t c' t' : Forall digit d -> Forall digit d' -> ~ digit c -> ~ digit c' ->
  d ++ c :: t = d' ++ c' :: t' -> d = d' /\ c :: t = c' :: t'.
Proof.
  intros H. revert d'. induction H as [|x d Hx H IH]; intros d' H' N N' E; destruct H' as [|x' d' Hx' H']; cbn in E.
  - now split.
  - injection E as -> _. contradiction.
  - injection E as <- _. contradiction.
  - injection E as <- E. destruct (IH d' H' N N' E) as [-> E2]. now split.
Qed.

Lemma read_line_reports buf n : Forall is_byte buf -> 0 <= n -> forall m bs,
  Reports_read (snd (read_line buf n)) m bs <-> m = n /\ bs = buf.
Proof.
  intros HB HN m bs. unfold read_line. cbn [snd]. split.
  - intros (d & x & (D1 & D2 & D3) & HX & E). apply app_inv_head in E.
    destruct (show_num_decimal n HN) as (_ & F & V).
    change (s_bytes_from) with (32 :: tl s_bytes_from) in E.
    apply digits_end in E; trivial; [|unfold digit; lia|unfold digit; lia]. destruct E as [<- E].
    injection E as E. change (sprint_byte_hex buf ++ [10] = x ++ [10]) in E. apply app_inv_tail in E. split; [congruence|].
    now apply (C77_dump buf (sprint_byte_hex buf) HB eq_refl); rewrite E.
  - intros [-> ->]. exists (show_num n), (sprint_byte_hex buf). split; [now apply show_num_decimal|].
    split; [|reflexivity]. now apply (C77_dump buf _ HB eq_refl).
Qed.

Lemma write_line_reports b n : Forall is_byte b -> 0 <= n <= zlen b -> forall k m bs,
  Reports_written (snd (write_line b n)) k m bs <-> k = zlen b /\ m = n /\ bs = ztake n b.
Proof.
  intros HB HN k m bs. unfold write_line. cbn [snd].
  assert (HT : Forall is_byte (ztake n b)).
  { rewrite <- (ztake_zdrop n b) in HB. now apply Forall_app in HB. }
  pose proof (zlen_nonneg b) as HL. split.
  - intros (d & d2 & x & (D1 & D2 & D3) & (D4 & D5 & D6) & HX & E). apply app_inv_head in E.
    destruct (show_num_decimal (zlen b) HL) as (_ & F & V). destruct (show_num_decimal n ltac:(lia)) as (_ & F2 & V2).
    change s_of with (32 :: tl s_of) in E. change s_bytes_to with (32 :: tl s_bytes_to) in E.
    apply digits_end in E; trivial; [|unfold digit; lia|unfold digit; lia]. destruct E as [<- E].
    injection E as E. apply digits_end in E; trivial; [|unfold digit; lia|unfold digit; lia]. destruct E as [<- E].
    injection E as E. change (sprint_byte_hex (ztake n b) ++ [10] = x ++ [10]) in E. apply app_inv_tail in E. split; [congruence|]. split; [congruence|].
    now apply (C77_dump _ (sprint_byte_hex (ztake n b)) HT eq_refl); rewrite E.
  - intros (-> & -> & ->). exists (show_num (zlen b)), (show_num n), (sprint_byte_hex (ztake n b)).
    split; [now apply show_num_decimal|]. split; [apply show_num_decimal; lia|].
    split; [|reflexivity]. now apply (C77_dump _ _ HT eq_refl).
Qed.

(** C77: a Read that fills the buffer, or a complete Write, is shown as it was. *)
Theorem C77_partial :
  (forall l, Forall is_byte l -> forall m bs, Reports_read (snd (read_line l (zlen l))) m bs <-> m = zlen l /\ bs = l) /\
  (forall l, Forall is_byte l -> forall k m bs, Reports_written (snd (write_line l (zlen l))) k m bs <-> k = zlen l /\ m = zlen l /\ bs = l).
Proof.
  split; intros l HB.
  - intros. apply read_line_reports; [assumption|apply zlen_nonneg].
  - intros. pose proof (zlen_nonneg l). rewrite write_line_reports by (trivial; lia). now rewrite ztake_all by lia.
Qed.

(** In general: after a Read the whole buffer is shown, of which the first [n] bytes were read; after a Write the bytes
    are the right ones, but the numbers are interchanged. *)
Theorem C77_lines_partial :
  (forall buf n, Forall is_byte buf -> 0 <= n <= zlen buf -> forall m bs,
    Reports_read (snd (read_line buf n)) m bs <-> m = n /\ bs = buf) /\
  (forall b n, Forall is_byte b -> 0 <= n <= zlen b -> forall k m bs,
    Reports_written (snd (write_line b n)) k m bs <-> k = zlen b /\ m = n /\ bs = ztake n b).
Proof. split; intros; [apply read_line_reports; trivial; lia|now apply write_line_reports]. Qed.

(** So no line about a Read that came up short shows just what was read, and no line about a Write that came up short
    has the right numbers. *)
Theorem C77_refuted :
  (forall buf n, Forall is_byte buf -> 0 <= n < zlen buf -> forall m, ~ Reports_read (snd (read_line buf n)) m (ztake n buf)) /\
  (forall b n, Forall is_byte b -> 0 <= n < zlen b -> forall bs, ~ Reports_written (snd (write_line b n)) n (zlen b) bs).
Proof.
  split.
  - intros buf n HB HN m R. apply read_line_reports in R; [|trivial|lia]. destruct R as [_ R].
    apply (f_equal zlen) in R. rewrite zlen_ztake in R by lia. lia.
  - intros b n HB HN bs R. apply write_line_reports in R; [|trivial|lia]. lia.
Qed.

(** A header of two bytes that arrives in two pieces: the first Read (one byte) is shown as "0 0". *)
Example C77_example :
  snd (read_line [0; 0] 1) = s_read ++ [49] ++ s_bytes_from ++ [9; 48; 32; 48; 32; 10; 10] /\
  snd (write_line [0x60; 0xB0; 1; 2; 3] 5) = s_wrote ++ [53] ++ s_of ++ [53] ++ s_bytes_to ++
    [9; 54; 48; 32; 98; 48; 32; 49; 32; 50; 32; 32; 51; 32; 10; 10] /\
  Reports_read (snd (read_line [0; 0] 1)) 1 [0; 0].
Proof.
  split; [reflexivity|]. split; [reflexivity|]. apply C77_lines_partial; [repeat constructor; unfold is_byte; lia|cbn; lia|now split].
Qed.

Print Assumptions C77_dump.
Print Assumptions C77_partial.
Print Assumptions C77_lines_partial.
Print Assumptions C77_refuted.

(** ** C78: the password *)
Definition with_password (u : urlinfo) (name pw : str) : urlinfo :=
  {| u_scheme := u_scheme u; u_user := Some (name, Some pw); u_host := u_host u; u_query := u_query u |}.

Lemma parse_password u name pw1 pw2 c1 : parse_url (with_password u name pw1) = POk c1 ->
  cf_user c1 = name /\ cf_password c1 = pw1 /\
  parse_url (with_password u name pw2) = POk {| cf_user := name; cf_password := pw2; cf_timeout := cf_timeout c1;
    cf_tls := cf_tls c1; cf_cert := cf_cert c1; cf_key := cf_key c1; cf_ca := cf_ca c1; cf_noverify := cf_noverify c1 |}.
Proof.
  unfold parse_url. cbn [with_password u_scheme u_user u_host u_query].
  change (qget s_timeout (with_password u name pw2)) with (qget s_timeout u).
  change (qget s_timeout (with_password u name pw1)) with (qget s_timeout u).
  destruct (negb _); [discriminate|].
  destruct (if str_eqb (qget s_timeout u) [] then _ else _); [|discriminate].
  change (qget s_tls (with_password u name pw1)) with (qget s_tls u).
  change (qget s_tls (with_password u name pw2)) with (qget s_tls u).
  destruct (truthy (qget s_tls u)); intros E; injection E as <-; repeat split.
Qed.

Section Lines.
Variables (show_duration : Z -> str) (show_message : goval -> str) (label : Z -> str).
Notation lines := (open_lines show_duration show_message label).

Lemma shown_app l a b : shown l (a ++ b) = shown l a ++ shown l b.
Proof. unfold shown. apply filter_app. Qed.
Lemma shown_writes l ws : l <> TraceLevel -> shown l (map (fun w => write_line w (zlen w)) ws) = [].
Proof. intros H. induction ws as [|w ws IH]; [reflexivity|]. cbn. destruct l; try contradiction; exact IH. Qed.

(** Below the trace level the log does not depend on the password. *)
Theorem C78_partial : forall l u name pw1 pw2 c1 c2 cs version reads resp, l <> TraceLevel ->
  parse_url (with_password u name pw1) = POk c1 -> parse_url (with_password u name pw2) = POk c2 ->
  shown l (lines (with_password u name pw1) c1 cs version reads resp) =
  shown l (lines (with_password u name pw2) c2 cs version reads resp).
Proof.
  intros l u name pw1 pw2 c1 c2 cs version reads resp HL P1 P2.
  destruct (parse_password u name pw1 pw2 c1 P1) as (E1 & _ & P). rewrite P in P2. injection P2 as <-.
  unfold open_lines. rewrite !(shown_app l). rewrite !(shown_writes l) by exact HL.
  cbn [cf_user cf_password]. rewrite E1. reflexivity.
Qed.

(** At every level: the password shows in the dumps of the writes of the INIT message and nowhere else. *)
Theorem C78_only_init_partial : forall u name cs version reads resp, exists pre post, forall pw c,
  parse_url (with_password u name pw) = POk c ->
  lines (with_password u name pw) c cs version reads resp =
  pre ++ map (fun w => write_line w (zlen w)) (fst (encode cs (init_message client_id name pw))) ++ post.
Proof.
  intros u name cs version reads resp.
  destruct (parse_url (with_password u name [])) as [c0|] eqn:P0.
  - exists (parse_lines show_duration label u c0 ++ [write_line handshake_bytes 20; read_line (fst version) (snd version);
      (LInfo, s_init ++ client_id ++ s_user ++ name ++ s_nl)]).
    eexists. intros pw c P. destruct (parse_password u name [] pw c0 P0) as (E1 & _ & P'). rewrite P' in P. injection P as <-.
    unfold open_lines. rewrite <- !app_assoc. reflexivity.
  - exists [], []. intros pw c P. destruct (parse_password u name pw [] c P) as (_ & _ & P'). congruence.
Qed.

Lemma init_wt user password : bytes_ok user -> bytes_ok password -> wt (INIT user password).
Proof.
  intros Bu Bp. unfold INIT, init_message. constructor; [repeat constructor; unfold is_byte; lia|].
  destruct (str_eqb user []); constructor; cbn [map fst snd];
    repeat match goal with
      | |- NoDup _ => constructor | |- ~ In _ _ => cbn; intuition discriminate | |- Forall _ _ => constructor
      | |- wt (VStr user) => constructor; assumption | |- wt (VStr password) => constructor; assumption | |- wt _ => constructor
      | |- bytes_ok _ => unfold bytes_ok | |- is_byte _ => unfold is_byte; cbn; lia end; assumption.
Qed.

Lemma init_writes_bytes user password : short_bytes user -> short_bytes password ->
  Forall (Forall is_byte) (fst (encode 65535 (INIT user password))).
Proof.
  intros Hu Hp. destruct (init_crosses user password Hu Hp) as (_ & HE).
  pose proof (init_wt user password (proj1 Hu) (proj1 Hp)) as W. pose proof (enc_is_bytes _ W) as HB.
  assert (C : Forall is_byte (concat (fst (encode 65535 (INIT user password))))).
  { pose proof (framed_bytes 65535 _ HB) as F. unfold framed, backlog in F. unfold encode in *.
    destruct (enc (INIT user password)) as [ws e]. cbn [fst snd] in *.
    destruct (chunk 65535 [] ws) as [out buf]. cbn [fst snd] in *. destruct e; [discriminate|]. cbn [fst]. now rewrite concat_app. }
  revert C. generalize (fst (encode 65535 (INIT user password))). induction l as [|w l IH]; intros C; constructor;
    cbn in C; apply Forall_app in C; tauto.
Qed.

(** Which calls of Write were made can be read off the lines. *)
Lemma writes_then a b x y s t : map (fun w => write_line w (zlen w)) a ++ (LInfo, x) :: s =
  map (fun w => write_line w (zlen w)) b ++ (LInfo, y) :: t ->
  Forall (Forall is_byte) a -> Forall (Forall is_byte) b -> a = b.
Proof.
  revert b. induction a as [|w a IH]; intros [|v b] E HA HB; cbn [map app] in E.
  - reflexivity.
  - unfold write_line in E. discriminate.
  - unfold write_line in E. discriminate.
  - inversion HA; inversion HB; subst.
    assert (E1 : write_line w (zlen w) = write_line v (zlen v)) by congruence.
    assert (E2 : map (fun w => write_line w (zlen w)) a ++ (LInfo, x) :: s = map (fun w => write_line w (zlen w)) b ++ (LInfo, y) :: t) by congruence.
    f_equal; [|now apply IH].
    pose proof (proj2 C77_partial w ltac:(assumption)) as R1. pose proof (proj2 C77_partial v ltac:(assumption)) as R2.
    rewrite E1 in R1. now destruct (proj1 (R1 (zlen v) (zlen v) v) (proj2 (R2 _ _ _) (conj eq_refl (conj eq_refl eq_refl)))) as (_ & _ & ->).
Qed.

(** At the trace level it determines the password: whatever the server answers, two passwords never give the same log.
    (The passwords and user names that fit one chunk.) *)
Theorem C78_refuted : forall u name pw1 pw2 c1 c2 version1 version2 reads1 reads2 resp1 resp2,
  name <> [] -> short_bytes name -> short_bytes pw1 -> short_bytes pw2 ->
  parse_url (with_password u name pw1) = POk c1 -> parse_url (with_password u name pw2) = POk c2 ->
  shown TraceLevel (lines (with_password u name pw1) c1 65535 version1 reads1 resp1) =
  shown TraceLevel (lines (with_password u name pw2) c2 65535 version2 reads2 resp2) -> pw1 = pw2.
Proof.
  intros u name pw1 pw2 c1 c2 v1 v2 reads1 reads2 resp1 resp2 HN Hu H1 H2 P1 P2 E.
  destruct (parse_password u name pw1 pw2 c1 P1) as (E1 & E2 & P). rewrite P in P2. injection P2 as <-.
  assert (ID : forall es, shown TraceLevel es = es).
  { intros es. unfold shown. induction es as [|[k t] es IH]; [reflexivity|]. cbn [filter fst]. destruct k; cbn; now rewrite IH. }
  rewrite !ID in E. unfold open_lines in E. cbn [cf_user cf_password] in E. rewrite E1, E2 in E.
  apply app_inv_head in E. cbn [app] in E.
  match type of E with ?a :: ?b :: ?c :: ?x = _ :: _ :: _ :: ?y => assert (X : x = y) by congruence end. clear E.
  apply writes_then in X; [|apply (init_writes_bytes name pw1)|apply (init_writes_bytes name pw2)]; trivial.
  destruct (init_crosses name pw1 Hu H1) as ((b1 & PS1 & F1) & _).
  destruct (init_crosses name pw2 Hu H2) as ((b2 & PS2 & F2) & _).
  change (fst (encode 65535 (INIT name pw1)) = fst (encode 65535 (INIT name pw2))) in X. rewrite <- X in F2.
  destruct F1 as (cs1 & C1 & B1), F2 as (cs2 & C2 & B2).
  destruct (Chunks_unique _ _ C1 _ _ [] [] C2 eq_refl) as (-> & _ & _). rewrite B1 in B2. subst b2.
  destruct (PS_unique _ _ _ _ _ _ [] [] PS1 PS2 eq_refl) as (D & _ & _).
  unfold INIT, init_message in D. destruct name as [|n0 name]; [contradiction|].
  change (str_eqb (n0 :: name) []) with false in D. cbv iota in D. cbn in D. congruence.
Qed.
End Lines.

(** A connection string with user and password that differ in one letter *)
Example C78_example :
  let u := {| u_scheme := s_bolt; u_user := None; u_host := [104]; u_query := [] |} in
  (exists c1 c2, parse_url (with_password u [97] [98]) = POk c1 /\ parse_url (with_password u [97] [99]) = POk c2 /\
    open_lines (fun _ => []) (fun _ => []) (fun _ => []) (with_password u [97] [98]) c1 65535 ([0; 0; 0; 1], 4) [] (VSuccess []) <>
    open_lines (fun _ => []) (fun _ => []) (fun _ => []) (with_password u [97] [99]) c2 65535 ([0; 0; 0; 1], 4) [] (VSuccess [])) /\
  short_bytes [97] /\ short_bytes [98] /\ short_bytes [99].
Proof.
  cbv zeta. split.
  - eexists. eexists. split; [reflexivity|]. split; [reflexivity|]. vm_compute. congruence.
  - repeat split; try (repeat constructor; unfold is_byte; lia); vm_compute; congruence.
Qed.

Print Assumptions C78_partial.
Print Assumptions C78_only_init_partial.
Print Assumptions C78_refuted.
