(** When the handshake passes and when a connection opens, exactly. *)
From Coq Require Import ZArith List Bool Lia ZifyBool.
From Verif Require Import GoPrims Value PackSpec PrimLemmas Encoder EncoderProofs PackProofs Decoder Framing CodecProofs ReadFaults Errors Misc
  Session ServerSpec SessionNet WireSpec WireBytes SessionWire PropsMisc PropsWire.
Import ListNotations.
Open Scope Z_scope.

(** * C20, without conditions
    The handshake passes exactly when the offer was not written completely but without an
    error, or the first read returns data that do not begin with four zeros. *)
Theorem C20_exact_partial : forall w r, fst (handshake w r) = None <->
  (wc_n w <> 20 /\ wc_err w = false) \/ (wc_n w = 20 /\ exists l r', r = RData l :: r' /\ ztake 4 l <> [0; 0; 0; 0]).
Proof.
  intros [n e] r. unfold handshake. cbn [wc_n wc_err]. destruct (n =? 20) eqn:En; cbn [negb].
  - assert (n = 20) as -> by lia.
    assert (X : forall P, (20 <> 20 /\ e = false) \/ (20 = 20 /\ P) <-> P) by (intros P; split; [intros [(H & _)|(_ & H)]; [congruence|exact H]|auto]). rewrite X.
    destruct r as [|[l|] r]; cbn [read_once].
    + split; [discriminate|]. intros (l & r' & E & _). discriminate.
    + assert (Y : (exists l0 r', RData l :: r = RData l0 :: r' /\ ztake 4 l0 <> [0; 0; 0; 0]) <-> ztake 4 l <> [0; 0; 0; 0]).
      { split; [intros (l0 & r' & E & H); injection E as <- <-; exact H|eauto]. }
      rewrite Y. destruct (zlen l <=? 4) eqn:E4.
      * rewrite ztake_all by lia. destruct (zlen l =? 4) eqn:E5; cbn [negb].
        -- destruct (str_eqb l [0; 0; 0; 0]) eqn:E; cbn [fst]; [apply str_eqb_eq in E|apply str_eqb_neq in E]; [split; [intros X0; discriminate X0|congruence]|split; [intros _; exact E|reflexivity]].
        -- cbn [fst]. split; [|reflexivity]. intros _ ->. discriminate.
      * rewrite zlen_ztake by lia. replace (Z.min 4 (zlen l)) with 4 by lia. change (negb (4 =? 4)) with false. cbv iota.
        destruct (str_eqb (ztake 4 l) [0; 0; 0; 0]) eqn:E; cbn [fst]; [apply str_eqb_eq in E|apply str_eqb_neq in E]; [split; [intros X0; discriminate X0|congruence]|split; [intros _; exact E|reflexivity]].
    + split; [discriminate|]. intros (l & r' & E & _). discriminate.
  - cbn [fst]. assert (n <> 20) by lia. destruct e.
    + split; [discriminate|]. intros [(_ & H1)|(H1 & _)]; [discriminate|contradiction].
    + split; [auto|reflexivity].
Qed.
Print Assumptions C20_exact_partial.
(** Part of the offer written: passes without reading.  The refusal of a server, in one piece
    and in two. *)
Example C20_exact_example : fst (handshake {| wc_n := 7; wc_err := false |} []) = None /\
  fst (handshake {| wc_n := 20; wc_err := false |} [RData [0; 0; 0; 0; 9]]) <> None /\
  fst (handshake {| wc_n := 20; wc_err := true |} [RData [0; 0; 0]; RData [0]]) = None.
Proof. repeat split; vm_compute; congruence. Qed.

(** * C60 *)
(** ** A stream that ends in the middle of a message *)
Lemma Took_segs : forall r l r1, Took r l r1 -> forall segs, ~ In [] segs -> r = map RData segs ++ [RFail] ->
  exists segs1, r1 = map RData segs1 ++ [RFail] /\ ~ In [] segs1.
Proof.
  induction 1 as [r|r l r' H IH|b r l r' H IH|b c d r l r' H IH]; intros segs HN E.
  - eauto.
  - destruct segs as [|s segs]; [discriminate|]. cbn in E. injection E as E1 E2. subst s. now contradiction HN; left.
  - destruct segs as [|s segs]; [discriminate|]. cbn in E. injection E as E1 E2. apply (IH segs); [intros Hi; apply HN; now right|exact E2].
  - destruct segs as [|s segs]; [discriminate|]. cbn in E. injection E as E1 E2. apply (IH ((c :: d) :: segs)); [|cbn; now rewrite E2].
    intros [Hi|Hi]; [discriminate|]. apply HN. now right.
Qed.
Lemma starved : forall segs, ~ In [] segs -> Forall is_byte (concat segs) -> first_message (concat segs) = None ->
  read_msg (map RData segs ++ [RFail]) = FErr (DEStream RBad) [].
Proof.
  intros segs HN HB HF. assert (HR : rbytes (map RData segs ++ [RFail]) = concat segs) by (rewrite rbytes_app, rbytes_data; cbn; now rewrite app_nil_r).
  pose proof (read_msg_took (map RData segs ++ [RFail]) ltac:(now rewrite HR)) as H. destruct (read_msg (map RData segs ++ [RFail])) as [m r'|e r'|].
  - destruct H as (w & F & T). apply Took_bytes in T. rewrite HR in T. rewrite T, (first_message_frame m w (rbytes r') F) in HF. discriminate.
  - destruct H as (b & l & r1 & T & _ & F). destruct (Took_segs _ _ _ T segs HN eq_refl) as (s1 & -> & N1). destruct s1 as [|s s1]; cbn in F.
    + inversion F. reflexivity.
    + inversion F. subst. now contradiction N1; left.
  - contradiction.
Qed.

(** ** How long the answer to INIT can be *)
Lemma Header_len half t m8 m16 m32 n h : Header half t m8 m16 m32 n h -> zlen h <= 5 /\ (m32 = None -> zlen h <= 3).
Proof. intros H. destruct H as [H|bs H (L & _)|bs H (L & _)|m bs E H (L & _)]; unfold zlen in *; cbn [length]; split; intros; try lia. congruence. Qed.
Lemma success_len b : PS_half (denote (VSuccess [])) b -> zlen b <= 9.
Proof.
  intros H. cbn in H. inversion H as [| | | | | | | | | | | | |sig l h bs Hs Hh Hl]; subst. inversion Hl as [|p l' b0 bs0 Hp Hl']; subst. inversion Hl'; subst.
  inversion Hp as [| | | | | | | | | | | |m h0 bs0 Hh0 Hm|]; subst. inversion Hm; subst. apply Header_len in Hh. apply Header_len in Hh0.
  destruct Hh as (_ & Hh). specialize (Hh eq_refl). destruct Hh0 as (Hh0 & _). rewrite !app_nil_r, zlen_app. unfold zlen in *. cbn [length]. lia.
Qed.
Lemma frame_len : forall b w, Frame b w -> zlen w <= 3 * zlen b + 2.
Proof.
  intros b w (chs & H & <-). destruct (Chunks_len _ _ H) as (E & F). assert (zlen chs <= zlen (concat chs)); [|lia].
  clear - F. induction F as [|c chs Hc F IH]; cbn [concat]; [reflexivity|]. rewrite zlen_app. unfold zlen in *. cbn [length]. lia.
Qed.
(** It begins with the length of its first chunk, which is not zero and small. *)
Lemma frame_head b w : Frame b w -> b <> [] -> Forall is_byte w -> zlen b < 256 -> exists k c t, w = 0 :: k :: c :: t /\ 1 <= k.
Proof.
  intros (chs & H & <-) N B L. destruct H as [|c h cs w Hc Hh H]; [now contradiction N|]. destruct Hh as (Lh & Bh & Vh).
  destruct h as [|x [|k [|? ?]]]; unfold zlen in Lh; cbn in Lh; try lia. cbn in Vh. destruct c as [|c0 c]; [unfold zlen in Hc; cbn in Hc; lia|].
  exists k, c0, (c ++ w). inversion Bh as [|? ? Bx B1]; subst. inversion B1 as [|? ? Bk _]; subst. unfold is_byte in *.
  cbn [concat] in L. rewrite zlen_app in L. pose proof (zlen_nonneg (concat cs)). unfold zlen in *. cbn [length] in *.
  assert (x = 0) as -> by lia. split; [reflexivity|]. lia.
Qed.
Lemma late_two w : zlen w <= 29 -> (exists k c t, w = 0 :: k :: c :: t /\ 1 <= k) -> Forall is_byte w -> first_message ([0; 1] ++ w) = None.
Proof.
  intros L (k & c & t & -> & Hk) B. inversion B as [|? ? _ B1]; subst. inversion B1 as [|? ? Bk B2]; subst. inversion B2 as [|? ? Bc _]; subst. unfold is_byte in *.
  unfold zlen in L. cbn [length] in L. unfold first_message. cbn [app length unframe].
  assert (P2 : forall x y r, prd 2 (x :: y :: r) = Some ([x; y], r)).
  { intros x y r. apply (prd_app 2 [x; y]). reflexivity. }
  assert (P1 : forall x r, prd 1 (x :: r) = Some ([x], r)) by (intros x r; apply (prd_app 1 [x]); reflexivity).
  rewrite P2. cbn [be_value]. change (be_value [0; 1]) with 1. change (1 =? 0) with false. cbv iota. rewrite P1, P2.
  assert (V : be_value [k; c] = k * 256 + c) by (cbn; lia). rewrite V. replace (k * 256 + c =? 0) with false by lia.
  unfold prd. unfold zlen. replace (Z.of_nat (length t) <? k * 256 + c) with true by lia. reflexivity.
Qed.
Lemma late_three w : zlen w <= 29 -> (exists k c t, w = 0 :: k :: c :: t /\ 1 <= k) -> first_message ([1] ++ w) = None.
Proof.
  intros L (k & c & t & -> & Hk). unfold zlen in L. cbn [length] in L. unfold first_message. cbn [app length unframe].
  pose proof (prd_app 2 [1; 0] (k :: c :: t) eq_refl) as P. cbn [app] in P. rewrite P. change (be_value [1; 0]) with 256. change (256 =? 0) with false. cbv iota.
  unfold prd, zlen. cbn [length]. replace (Z.of_nat (S (S (length t))) <? 256) with true by lia. reflexivity.
Qed.

Section Opening.
Context {DB : Type}.
Variable pexec : DB -> str -> list (str * pval) -> DB * outcome.
Variable ser : nat -> goval -> bytes.
Variable cut : nat -> bytes -> list bytes.
Variable mk : bool.
Hypothesis Hser : ser_ok ser.
Hypothesis Hcut : cut_ok cut.
Notation io := (stream pexec ser cut).
Notation bytenet_ := (bytenet io mk).

(** Two or three of the four bytes first: the rest is taken for the length of a chunk that
    never comes. *)
Lemma open_starved : forall pooled db n f cls user password a late rest,
  cut n [0; 0; 0; 1] = a :: rest -> (a = [0; 0] /\ late = [0; 1] \/ a = [0; 0; 0] /\ late = [1]) ->
  (exists b, PS (denote (INIT user password)) b /\ Frame b (concat (fst (encode 65535 (INIT user password))))) ->
  snd (encode 65535 (INIT user password)) = None ->
  initialize bytenet_ f cls user password (fresh pooled (listening db n)) =
    (modc c_set_err ;; cls ;; ret (Some (ewrap FDec 45 EBadConn))) (fresh pooled (Build_srv Up db Ready [] [] (S n))).
Proof.
  intros pooled db n f cls user password a late rest Hc Ha (b & HP & HF) He. unfold initialize, bind at 1, getn. cbn [n_shake bytenet w_net fresh]. rewrite shaken.
  assert (E2 : t_in io (greeted db n [0; 0; 0; 1]) = RData a :: map RData rest ++ [RFail]) by (cbn [t_in stream greeted y_n y_out]; rewrite Hc; reflexivity).
  rewrite E2. assert (Er : concat rest = late).
  { destruct (Hcut n [0; 0; 0; 1]) as (C1 & _). rewrite Hc in C1. cbn in C1. destruct Ha as [(-> & ->)|(-> & ->)]; cbn in C1; now injection C1. }
  assert (Eh : handshake {| wc_n := 20; wc_err := false |} (RData a :: map RData rest ++ [RFail]) = (@None gerr, map RData rest ++ [RFail])).
  { destruct Ha as [(-> & _)|(-> & _)]; reflexivity. }
  rewrite Eh. cbn [wc_n wc_err Z.eqb Pos.eqb orb].
  assert (E1 : t_left io (greeted db n [0; 0; 0; 1]) (map RData rest ++ [RFail]) = greeted db n late).
  { cbn [t_left stream]. rewrite rbytes_app, rbytes_data, Er. cbn [rbytes]. rewrite app_nil_r. reflexivity. }
  rewrite E1. cbn [read_once]. assert (Ea : zlen a <=? 4 = true) by (destruct Ha as [(-> & _)|(-> & _)]; reflexivity). rewrite Ea. cbn [snd fst].
  fold (INIT user password). pose proof (init_sent pexec ser cut mk db n late user password b HP HF He) as E3.
  set (s3 := Build_srv Up db Ready [] (late ++ ser n (VSuccess [])) (S n)) in *. set (s4 := Build_srv Up db Ready [] [] (S n)).
  assert (E4 : n_recv bytenet_ s3 = (s4, RNet)).
  { cbn [n_recv bytenet t_in stream s3 y_out y_n]. set (o := late ++ ser n (VSuccess [])). destruct (Hcut (S n) o) as (C1 & C2). destruct ok_success as (HD & HW & _).
    destruct (Hser n (VSuccess []) ok_success) as (b' & HP' & HF'). pose proof (answer_bytes _ _ _ HW HP' HF') as HB.
    assert (HBo : Forall is_byte o) by (apply Forall_app; split; [destruct Ha as [(_ & ->)|(_ & ->)]; repeat constructor; unfold is_byte; lia|exact HB]).
    pose proof (success_len _ HP') as Lb. pose proof (frame_len _ _ HF') as Lw.
    assert (Nb : b' <> []) by (intros ->; cbn in HP'; inversion HP'; match goal with E : ?h ++ _ = [] |- _ => destruct h; discriminate end).
    pose proof (frame_head _ _ HF' Nb HB ltac:(lia)) as Hh.
    assert (HN : first_message o = None).
    { unfold o. destruct Ha as [(_ & ->)|(_ & ->)]; [apply late_two|apply late_three]; try assumption; lia. }
    unfold recv. rewrite starved; [reflexivity|exact C2|now rewrite C1|now rewrite C1]. }
  assert (E6 : forall w, w_net w = s3 -> decode_msg bytenet_ w = (Ok (None, Some (ewrap FDec 45 EBadConn)), Build_world (c_set_err (w_conn w)) (w_stmts w) (w_rows w) (w_txs w) s4)).
  { intros w Hn. unfold decode_msg, bind, getn, setn, ret. rewrite Hn, E4. reflexivity. }
  unfold bind, setn, ret. erewrite encode_iv by (try eassumption; reflexivity). unfold consume, bind. rewrite E6 by reflexivity. reflexivity.
Qed.

(** Against a server that accepts, opening succeeds exactly when its choice of version comes
    with the first read; otherwise it returns an error. *)
Theorem C60_exact_partial : forall db n f user password, short_bytes user -> short_bytes password ->
  let r := fst (initialize bytenet_ (S f) (close bytenet_ (S f)) user password (fresh false (listening db n))) in
  (r = Ok None <-> cut n [0; 0; 0; 1] = [[0; 0; 0; 1]]) /\ (cut n [0; 0; 0; 1] <> [[0; 0; 0; 1]] -> exists e, r = Ok (Some e)).
Proof.
  intros db n f user password Hu Hp r. destruct (init_crosses user password Hu Hp) as (HI & He).
  assert (H : cut n [0; 0; 0; 1] = [[0; 0; 0; 1]] /\ r = Ok None \/ cut n [0; 0; 0; 1] <> [[0; 0; 0; 1]] /\ exists e, r = Ok (Some e)).
  { destruct (cut n [0; 0; 0; 1]) as [|a rest] eqn:Hc; [destruct (Hcut n [0; 0; 0; 1]) as (C1 & _); rewrite Hc in C1; discriminate|].
    pose proof (Hcut n [0; 0; 0; 1]) as (C1 & C2). rewrite Hc in C1, C2. cbn [concat] in C1.
    destruct a as [|a0 [|a1 [|a2 [|a3 a]]]]; cbn [app] in C1.
    - now contradiction C2; left.
    - right. split; [discriminate|]. injection C1 as -> C1.
      destruct (C60_refuted pexec ser cut mk Hser Hcut db n f user password rest Hu Hp Hc) as (w & E & _). exists (gerr_of DEMarkerEOF). unfold r. now rewrite E.
    - right. split; [discriminate|]. injection C1 as -> -> C1. exists (ewrap FDec 45 EBadConn). unfold r.
      rewrite (open_starved false db n (S f) _ user password [0; 0] [0; 1] rest Hc ltac:(auto) HI He). reflexivity.
    - right. split; [discriminate|]. injection C1 as -> -> -> C1. exists (ewrap FDec 45 EBadConn). unfold r.
      rewrite (open_starved false db n (S f) _ user password [0; 0; 0] [1] rest Hc ltac:(auto) HI He). reflexivity.
    - left. injection C1 as -> -> -> -> C1. apply app_eq_nil in C1. destruct C1 as (-> & C1).
      destruct rest as [|x rest]; [|cbn in C1; apply app_eq_nil in C1; destruct C1 as (-> & _); contradiction C2; right; now left].
      split; [reflexivity|]. unfold r. rewrite (C60_opens_partial pexec ser cut mk Hser Hcut false db n (S f) user password Hu Hp Hc). reflexivity. }
  destruct H as [(H1 & H2)|(H1 & e & H2)].
  - split; [tauto|]. intros X. contradiction.
  - split; [split; [rewrite H2; discriminate|contradiction]|]. eauto.
Qed.
End Opening.
Print Assumptions C60_exact_partial.
(** The first two bytes alone, then the rest. *)
Example C60_exact_example : let halves (n : nat) (b : bytes) := match b with [0; 0; 0; 1] => [[0; 0]; [0; 1]] | _ => bytewise n b end in
  cut_ok halves /\
  let net := bytenet (stream ptoy plain halves) false in
  fst (initialize net 5 (close net 5) [117] [112] (fresh false (listening 7 0))) = Ok (Some (ewrap FDec 45 EBadConn)).
Proof.
  cbv zeta. split; [|vm_compute; reflexivity]. intros n b.
  set (h := match b with [0; 0; 0; 1] => _ | _ => _ end). assert (H : h = [[0; 0]; [0; 1]] /\ b = [0; 0; 0; 1] \/ h = bytewise n b).
  { unfold h. repeat match goal with |- context [match ?x with _ => _ end] => destruct x end; auto. }
  destruct H as [(-> & ->)| ->]; [|apply bytewise_ok]. split; [reflexivity|]. intros [E|[E|[]]]; discriminate.
Qed.
