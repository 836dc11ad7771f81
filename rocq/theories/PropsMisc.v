(** Properties C20-C24 and C48-C52: handshake, errors, results, connection
    strings, TLS, database/sql glue, recorder and logging. *)
From Coq Require Import ZArith List Bool Lia.
From Coq Require Import ZifyBool.
From Verif Require Import GoPrims Value PackSpec PrimLemmas Encoder EncoderProofs Decoder
  PackProofs DecoderProofs RoundTrip CodecProofs CodecRefute CodecOrder PropsCodec Errors Misc Recorder.
Import ListNotations.
Open Scope Z_scope.

(** * C20 (false when the answer is split) *)
(** [r] delivers the server's answer; the connection survives if the answer is
    four bytes, not all zero. *)
Definition picked (b : bytes) : Prop := zlen b = 4 /\ b <> [0; 0; 0; 0].
(** True when the four bytes arrive in one piece (with or without more behind them)
    or the stream ends or breaks before any byte. *)
Theorem C20_handshake_partial : forall r,
  (forall l r', r = RData l :: r' -> 4 <= zlen l) ->
  ((fst (handshake {| wc_n := 20; wc_err := false |} r) = None <-> exists l r', r = RData l :: r' /\ picked (ztake 4 l)) /\
   (fst (handshake {| wc_n := 20; wc_err := false |} r) = None ->
    exists b, zlen b = 4 /\ rbytes r = b ++ rbytes (snd (handshake {| wc_n := 20; wc_err := false |} r)))).
Proof.
  intros r H. unfold handshake. cbn [wc_n]. change (negb (20 =? 20)) with false. cbv iota.
  destruct r as [|[l|] r]; cbn [read_once].
  - split; [|discriminate]. split; [discriminate|]. intros (l & r' & E & _). discriminate.
  - specialize (H l r eq_refl).
    assert (T : zlen (ztake 4 l) = 4) by (rewrite zlen_ztake; lia).
    assert (P : forall b (r' : reader), zlen b = 4 ->
      fst (if negb (zlen b =? 4) then (@None gerr, r') else if str_eqb b [0; 0; 0; 0] then (Some (enew FConn 257), r') else (None, r'))
      = None <-> picked b).
    { intros b r' Hb. rewrite Hb. cbn [Z.eqb negb]. change (negb (4 =? 4)) with false. cbv iota. unfold picked.
      destruct (str_eqb b [0; 0; 0; 0]) eqn:E; cbn [fst].
      - apply str_eqb_eq in E. split; [discriminate|]. tauto.
      - apply str_eqb_neq in E. tauto. }
    destruct (zlen l <=? 4) eqn:E4.
    + assert (E : ztake 4 l = l) by (apply ztake_all; lia).
      split.
      * rewrite P by lia. rewrite <- E at 1. split; [intros K; now exists l, r|].
        intros (l' & r' & X & K). injection X as -> ->. now rewrite E in K |- *.
      * intros _. exists l. split; [lia|]. replace (zlen l) with 4 by lia. change (negb (4 =? 4)) with false. cbv iota.
        destruct (str_eqb l [0; 0; 0; 0]); reflexivity.
    + split.
      * rewrite P by lia. split; [intros K; now exists l, r|]. intros (l' & r' & X & K). injection X as -> ->. exact K.
      * intros _. exists (ztake 4 l). split; [lia|]. rewrite T. change (negb (4 =? 4)) with false. cbv iota.
        destruct (str_eqb (ztake 4 l) [0; 0; 0; 0]); cbn [rbytes snd map concat flat_map]; 
        rewrite app_assoc, ztake_zdrop; reflexivity.
  - split; [|discriminate]. split; [discriminate|]. intros (l & r' & E & _). discriminate.
Qed.
Print Assumptions C20_handshake_partial.
(** Whatever the answer, a first piece of one to three bytes is accepted: also when
    the server refused (four zero bytes), and the rest stays in the stream. *)
Theorem C20_refuted : forall (b rest : bytes), 1 <= zlen b <= 3 ->
  handshake {| wc_n := 20; wc_err := false |} [RData b; RData rest] = (None, [RData rest]).
Proof.
  intros b rest H. unfold handshake. cbn [wc_n]. change (negb (20 =? 20)) with false. cbv iota. cbn [read_once].
  replace (zlen b <=? 4) with true by lia. now replace (negb (zlen b =? 4)) with true by lia.
Qed.
Print Assumptions C20_refuted.
(** The client offers version 1 and nothing else, after the four bytes of the protocol. *)
Theorem C20_offer : exists v1 v2 v3 v4, handshake_bytes = [0x60; 0x60; 0xB0; 0x17] ++ v1 ++ v2 ++ v3 ++ v4 /\
  BE 4 1 v1 /\ BE 4 0 v2 /\ BE 4 0 v3 /\ BE 4 0 v4.
Proof. exists [0; 0; 0; 1], [0; 0; 0; 0], [0; 0; 0; 0], [0; 0; 0; 0]. repeat split; repeat constructor; unfold is_byte; lia. Qed.
Print Assumptions C20_offer.
Example C20_example : picked [0; 0; 0; 1] /\ ~ picked [0; 0; 0; 0] /\
  handshake {| wc_n := 20; wc_err := false |} [RData [0; 0; 0; 1; 9]] = (None, [RData [9]]) /\
  handshake {| wc_n := 20; wc_err := false |} [RData [0; 0; 0; 0]] = (Some (enew FConn 257), []) /\
  handshake {| wc_n := 20; wc_err := false |} [RData [0]; RData [0; 0; 0]] = (None, [RData [0; 0; 0]]).
Proof. unfold picked. split; [split; [reflexivity|discriminate]|]. split; [tauto|]. repeat split; reflexivity. Qed.

(** * C22 *)
(** The value of a counter: absent counters count 0. *)
Definition counter (k : str) (stats : list (str * goval)) (n : Z) : Prop :=
  (mget k stats = None /\ n = 0) \/ mget k stats = Some (VInt KInt64 n).
Theorem C22_rows_affected : forall md,
  (mget s_stats md = None -> rows_affected md = RAOk 0) /\
  (forall stats a b c d, mget s_stats md = Some (VMap stats) ->
     counter s_nodes_created stats a -> counter s_rels_created stats b ->
     counter s_nodes_deleted stats c -> counter s_rels_deleted stats d ->
     rows_affected md = RAOk (wraps 64 (a + b + c + d))) /\
  (forall v, mget s_stats md = Some v -> (forall stats, v <> VMap stats) -> rows_affected md = RAErr).
Proof.
  assert (W0 : wraps 64 0 = 0) by reflexivity.
  assert (A : forall stats k n acc, counter k stats n -> ra_add stats k (Some (wraps 64 acc)) = Some (wraps 64 (acc + n))).
  { intros stats k n acc [[E ->]|E]; unfold ra_add; rewrite E; [now rewrite Z.add_0_r|].
    f_equal. rewrite <- (wraps_of_mod 64 (wraps 64 acc + n)), <- (wraps_of_mod 64 (acc + n)) by lia. f_equal.
    rewrite <- Zplus_mod_idemp_l, wraps_mod by lia. now rewrite Zplus_mod_idemp_l. }
  intros md. split; [|split].
  - intros E. unfold rows_affected. now rewrite E.
  - intros stats a b c d E Ha Hb Hc Hd. unfold rows_affected. rewrite E.
    rewrite <- W0 at 1. rewrite (A _ _ _ 0 Ha), (A _ _ _ _ Hb), (A _ _ _ _ Hc), (A _ _ _ _ Hd). reflexivity.
  - intros v E N. unfold rows_affected. rewrite E. destruct v; try reflexivity. now destruct (N m).
Qed.
Print Assumptions C22_rows_affected.
(** On what the server can send (C11: integers are int64) no counter that is an
    integer makes it panic, and only these four counters matter. *)
Theorem C22_only_counters : forall md md' stats stats',
  mget s_stats md = Some (VMap stats) -> mget s_stats md' = Some (VMap stats') ->
  (forall k, In k [s_nodes_created; s_rels_created; s_nodes_deleted; s_rels_deleted] -> mget k stats = mget k stats') ->
  rows_affected md = rows_affected md'.
Proof.
  intros md md' stats stats' E E' H. unfold rows_affected. rewrite E, E'.
  unfold ra_add. rewrite !H by (cbn; tauto). reflexivity.
Qed.
Print Assumptions C22_only_counters.
(** A counter that is not an integer is a panic, not an error. *)
Theorem C22_panics : forall md stats v, mget s_stats md = Some (VMap stats) ->
  mget s_nodes_created stats = Some v -> (forall z, v <> VInt KInt64 z) -> rows_affected md = RAPanic.
Proof.
  intros md stats v E E1 N. unfold rows_affected. rewrite E.
  assert (K : ra_add stats s_nodes_created (Some 0) = None).
  { unfold ra_add. rewrite E1. destruct v; try reflexivity. destruct k; try reflexivity. now destruct (N z). }
  rewrite K. reflexivity.
Qed.
Print Assumptions C22_panics.
(** Neo4j has no insert ids. *)
Theorem C22_last_insert_id : forall md, last_insert_id md = -1.
Proof. reflexivity. Qed.
Print Assumptions C22_last_insert_id.
Example C22_example : let stats := [(s_nodes_created, VInt KInt64 3); (s_fields, VInt KInt64 9); (s_rels_deleted, VInt KInt64 4)] in
  rows_affected [(s_fields, VSlice []); (s_stats, VMap stats)] = RAOk 7 /\
  counter s_nodes_created stats 3 /\ counter s_rels_created stats 0.
Proof. cbv zeta. split; [reflexivity|]. split; [right; reflexivity|left; split; reflexivity]. Qed.

(** * C50 *)
Theorem C50_columns : forall md,
  (forall names, mget s_fields md = Some (VSlice (map VStr names)) -> columns md = names) /\
  ((forall names, mget s_fields md <> Some (VSlice (map VStr names))) -> columns md = []).
Proof.
  assert (A : forall l, match all_strings l with Some names => l = map VStr names | None => forall names, l <> map VStr names end).
  { induction l as [|v l IH]; cbn; [reflexivity|].
    destruct v; try (intros [|n names]; discriminate).
    destruct (all_strings l); [now subst|]. intros [|n names]; [discriminate|]. intros E. injection E as _ E. now apply IH in E. }
  assert (I : forall a b, map VStr a = map VStr b -> a = b).
  { induction a as [|x a IH]; intros [|y b] E; try discriminate; [reflexivity|]. injection E as -> E. f_equal. now apply IH. }
  intros md. unfold columns. split.
  - intros names ->. specialize (A (map VStr names)). destruct (all_strings (map VStr names)); [now apply I|].
    now destruct (A names).
  - intros H. destruct (mget s_fields md) as [v|]; [|reflexivity]. destruct v; try reflexivity.
    specialize (A l). destruct (all_strings l) as [names|]; [|reflexivity]. subst. now destruct (H names).
Qed.
Print Assumptions C50_columns.
Example C50_example : columns [(s_stats, VNil); (s_fields, VSlice [VStr [97]; VStr [98]])] = [[97]; [98]] /\
  columns [(s_fields, VSlice [VStr [97]; VNil])] = [].
Proof. split; reflexivity. Qed.

(** * C52 *)
(** A message prints when it is at least as severe as the level. *)
Definition severity (k : logkind) : Z := match k with LError => 1 | LInfo => 2 | LTrace => 3 end.
Theorem C52_levels : forall s k, log_prints (set_level s) k = true <->
  exists k', to_lower s = match k' with LError => s_error | LInfo => s_info | LTrace => s_trace end /\ severity k <= severity k'.
Proof.
  intros s k. unfold set_level. split.
  - destruct (str_eqb (to_lower s) s_trace) eqn:E1; [apply str_eqb_eq in E1; exists LTrace; destruct k; cbn; split; trivial; lia|].
    destruct (str_eqb (to_lower s) s_info) eqn:E2; [apply str_eqb_eq in E2; exists LInfo; destruct k; cbn in *; split; trivial; try lia; discriminate|].
    destruct (str_eqb (to_lower s) s_error) eqn:E3; [apply str_eqb_eq in E3; exists LError; destruct k; cbn in *; split; trivial; try lia; discriminate|].
    destruct k; discriminate.
  - intros (k' & -> & L). destruct k, k'; cbn in L; try lia; reflexivity.
Qed.
Print Assumptions C52_levels.
(** Monotone: what prints at a level prints at every higher level. *)
Theorem C52_monotone : forall s s' k, level_num (set_level s) <= level_num (set_level s') -> log_prints (set_level s) k = true -> log_prints (set_level s') k = true.
Proof. intros s s' k. unfold log_prints. destruct k; lia. Qed.
Print Assumptions C52_monotone.
Theorem C52_unknown : forall s, ~ In (to_lower s) [s_trace; s_info; s_error] -> forall k, log_prints (set_level s) k = false.
Proof.
  intros s H k. destruct (log_prints (set_level s) k) eqn:E; [|reflexivity]. apply C52_levels in E.
  destruct E as (k' & E & _). destruct H. rewrite E. destruct k'; cbn; tauto.
Qed.
Print Assumptions C52_unknown.
Example C52_example : set_level [73; 110; 70; 111] = InfoLevel /\ log_prints InfoLevel LError = true /\
  log_prints InfoLevel LTrace = false /\ set_level [] = NoneLevel.
Proof. repeat split. Qed.

(** * C21, first half: the root cause of a wrapped error *)
(** [e] wrapped at the given places, outermost first. *)
Definition wrapped_at (ps : list (gfile * Z)) (e : gerr) : gerr :=
  fold_right (fun p e => EDrv (fst p) (snd p) (Some e)) e ps.
Definition is_root (e : gerr) : Prop := match e with EDrv _ _ (Some _) => False | _ => True end.
Theorem C21_innermost : forall ps e, is_root e -> innermost (wrapped_at ps e) = e.
Proof.
  intros ps e H. induction ps as [|p ps IH]; [destruct e as [f l [w|]| | | |]; try reflexivity; destruct H|].
  cbn [wrapped_at fold_right] in *. change (fold_right _ e ps) with (wrapped_at ps e).
  cbn [innermost]. destruct ps as [|p' ps]; [|exact IH].
  cbn [wrapped_at fold_right]. destruct e as [f l [w|]| | | |]; try reflexivity. destruct H.
Qed.
Print Assumptions C21_innermost.
(** Every error has exactly this form, so InnerMost is always the root. *)
Theorem C21_every_error : forall e, exists ps r, is_root r /\ e = wrapped_at ps r /\ innermost e = r.
Proof.
  fix IH 1. intros e. destruct e as [f l [w|]| |  |md|n].
  - destruct (IH w) as (ps & r & R & E & _). exists ((f, l) :: ps), r. split; [exact R|]. split; [cbn; now f_equal; f_equal|].
    rewrite E. exact (C21_innermost ((f, l) :: ps) r R).
  - exists [], (EDrv f l None). repeat split.
  - exists [], EBadConn. repeat split.
  - exists [], EEOF. repeat split.
  - exists [], (EFailMsg md). repeat split.
  - exists [], (EOther n). repeat split.
Qed.
Print Assumptions C21_every_error.
(** * C63: the text of an error *)
(** One line per wrapping, outermost first, each indented by one more tab than the last. *)
Fixpoint levels (k : Z) (ps : list (gfile * Z)) : list eline :=
  match ps with [] => [] | p :: ps' => LMsg k (fst p) (snd p) :: levels (k + 1) ps' end.
Definition foreign (e : gerr) : Prop := match e with EDrv _ _ _ => False | _ => True end.
(** Then the foreign error at the root if there is one, and the stack trace of the place
    where the innermost driver error was made; there is exactly one stack trace. *)
Theorem C63_error_text : forall ps f l,
  error_string (wrapped_at ps (EDrv f l None)) = levels 0 (ps ++ [(f, l)]) ++ [LStack f l] /\
  (forall r, foreign r -> error_string (wrapped_at ps (EDrv f l (Some r))) = levels 0 (ps ++ [(f, l)]) ++ [LInternal r; LStack f l]).
Proof.
  assert (G : forall e f l x, e = EDrv f l x -> forall ps k, render k (wrapped_at ps e) = levels k ps ++ render (k + zlen ps) e).
  { intros e f l x Ee. induction ps as [|p ps IH]; intros k; [cbn [levels app]; now rewrite Z.add_0_r|].
    cbn [wrapped_at fold_right levels app]. change (fold_right _ e ps) with (wrapped_at ps e). cbn [render].
    assert (D : exists f' l' x', wrapped_at ps e = EDrv f' l' x') by (destruct ps; cbn; eauto).
    destruct D as (f' & l' & x' & D). f_equal. rewrite D. rewrite <- D, IH. f_equal. f_equal. rewrite zlen_cons. lia. }
  assert (L : forall ps k f l, levels k (ps ++ [(f, l)]) = levels k ps ++ [LMsg (k + zlen ps) f l]).
  { induction ps as [|p ps IH]; intros k f l; cbn [app levels]; [cbn [fst snd]; now rewrite Z.add_0_r|]. rewrite IH, zlen_cons. do 3 f_equal. f_equal. lia. }
  intros ps f l. unfold error_string. split.
  - rewrite (G _ f l None eq_refl), L, <- app_assoc. reflexivity.
  - intros r Hr. rewrite (G _ f l (Some r) eq_refl), L, <- app_assoc. destruct r; [destruct Hr|..]; reflexivity.
Qed.
Print Assumptions C63_error_text.
Example C63_example : error_string (EDrv FStmt 147 (Some (EDrv FConn 569 (Some (EFailMsg []))))) =
  [LMsg 0 FStmt 147; LMsg 1 FConn 569; LInternal (EFailMsg []); LStack FConn 569].
Proof. reflexivity. Qed.
Example C21_example : innermost (EDrv FStmt 147 (Some (EDrv FConn 569 (Some (EFailMsg [([99], VNil)]))))) = EFailMsg [([99], VNil)].
Proof. reflexivity. Qed.

(** * C23 (false for timeouts of more than 2^63 nanoseconds) *)
(** Decimal numerals with an optional sign. *)
Definition is_digit (c : Z) : Prop := 48 <= c <= 57.
Fixpoint numeral (s : str) : Z := match s with [] => 0 | c :: r => (c - 48) * 10 ^ zlen r + numeral r end.
Inductive IntText : str -> Z -> Prop :=
| it_plain s : s <> [] -> Forall is_digit s -> IntText s (numeral s)
| it_plus s : s <> [] -> Forall is_digit s -> IntText (43 :: s) (numeral s)
| it_minus s : s <> [] -> Forall is_digit s -> IntText (45 :: s) (- numeral s).
(** Equal up to ASCII case, [b] in lower case. *)
Definition eq_ci (a b : str) : Prop := Forall2 (fun x y => x = y \/ (65 <= x <= 90 /\ x + 32 = y)) a b.
(** A switch of the query part is on if its value starts with t or T or is 1. *)
Definition on (v : str) : Prop := v = [49] \/ exists c r, v = c :: r /\ (c = 116 \/ c = 84).

(** What the accepted connection strings are and what they mean. *)
Record accepted_url (u : urlinfo) (c : connconf) : Prop := {
  au_scheme : eq_ci (u_scheme u) s_bolt;
  au_user : match u_user u with None => cf_user c = [] /\ cf_password c = []
            | Some (n, p) => p = Some (cf_password c) /\ cf_user c = n end;
  au_timeout : match mget s_timeout (u_query u) with
               | None | Some [] => cf_timeout c = 60 * 10 ^ 9
               | Some t => exists n, IntText t n /\ - 2 ^ 63 <= n < 2 ^ 63 /\ cf_timeout c = wraps 64 (n * 10 ^ 9)
               end;
  au_tls : cf_tls c = true <-> exists v, mget s_tls (u_query u) = Some v /\ on v;
  au_tlsopts : if cf_tls c
    then cf_cert c = qget s_cert u /\ cf_key c = qget s_key u /\ cf_ca c = qget s_ca u
    else cf_cert c = [] /\ cf_key c = [] /\ cf_ca c = [];
  au_noverify : cf_noverify c = true <-> cf_tls c = true /\ exists v, mget s_noverify (u_query u) = Some v /\ on v }.

Lemma digits_numeral s : forall acc, match digits acc s with
  | Some n => Forall is_digit s /\ n = acc * 10 ^ zlen s + numeral s | None => ~ Forall is_digit s end.
Proof.
  induction s as [|c s IH]; intros acc; cbn [digits numeral].
  - split; [constructor|]. rewrite zlen_nil. lia.
  - destruct ((48 <=? c) && (c <=? 57)) eqn:E.
    + specialize (IH (acc * 10 + (c - 48))). destruct (digits (acc * 10 + (c - 48)) s).
      * destruct IH as [F ->]. split; [constructor; [unfold is_digit; lia|exact F]|].
        rewrite zlen_cons, Z.pow_add_r by (pose proof (zlen_nonneg s); lia). change (10 ^ 1) with 10. ring.
      * intros F. inversion F; subst. now apply IH.
    + intros F. inversion F; subst. unfold is_digit in *. lia.
Qed.
Ltac it_contra := match goal with H : IntText _ _ |- _ => inversion H; subst; clear H end;
  try congruence; try (match goal with H : Forall is_digit (_ :: _) |- _ => inversion H; subst; unfold is_digit in *; lia end).
Lemma atoi_spec s : match atoi s with
  | Some n => IntText s n /\ - 2 ^ 63 <= n < 2 ^ 63 | None => forall n, IntText s n -> ~ (- 2 ^ 63 <= n < 2 ^ 63) end.
Proof.
  assert (D : forall d, match digits 0 d with Some n => Forall is_digit d /\ n = numeral d | None => ~ Forall is_digit d end).
  { intros d. pose proof (digits_numeral d 0) as H. destruct (digits 0 d); [|exact H]. destruct H as [F ->]. split; [exact F|lia]. }
  assert (X : forall d (neg : bool), d <> [] ->
    match (match digits 0 d with Some n => let z := if neg then - n else n in if in_int z then Some z else None | None => None end) with
    | Some z => Forall is_digit d /\ z = (if neg then - numeral d else numeral d) /\ - 2 ^ 63 <= z < 2 ^ 63
    | None => Forall is_digit d -> ~ (- 2 ^ 63 <= (if neg then - numeral d else numeral d) < 2 ^ 63) end).
  { intros d neg N. specialize (D d). destruct (digits 0 d); [|tauto]. destruct D as [F ->]. cbv zeta.
    destruct (in_int _) eqn:E; unfold in_int in E; [|intros _; lia]. repeat split; trivial; lia. }
  unfold atoi. destruct s as [|c s]; [intros n H; inversion H; congruence|].
  destruct (Z.eq_dec c 45) as [->|N1].
  { destruct s as [|c s]; [intros n H; it_contra|].
    specialize (X (c :: s) true ltac:(discriminate)). cbv zeta iota in *.
    match goal with |- match ?x with _ => _ end => destruct x end; [destruct X as (F & -> & R); split; [constructor; trivial; discriminate|exact R]|].
    intros n H. it_contra. now apply X. }
  destruct (Z.eq_dec c 43) as [->|N2].
  { destruct s as [|c s]; [intros n H; it_contra|].
    specialize (X (c :: s) false ltac:(discriminate)). cbv zeta iota in *.
    match goal with |- match ?x with _ => _ end => destruct x end; [destruct X as (F & -> & R); split; [constructor; trivial; discriminate|exact R]|].
    intros n H. it_contra. now apply X. }
  specialize (X (c :: s) false ltac:(discriminate)).
  assert (E : atoi (c :: s) = match digits 0 (c :: s) with Some n => if in_int n then Some n else None | None => None end).
  { unfold atoi. destruct c as [|p|p]; try reflexivity. do 6 (destruct p as [p|p|]; try reflexivity); congruence. }
  change (match atoi (c :: s) with Some n => IntText (c :: s) n /\ - 2 ^ 63 <= n < 2 ^ 63
          | None => forall n, IntText (c :: s) n -> ~ (- 2 ^ 63 <= n < 2 ^ 63) end).
  rewrite E. cbv zeta iota in *.
  match goal with |- match ?x with _ => _ end => destruct x end; [destruct X as (F & -> & R); split; [constructor; trivial; discriminate|exact R]|].
  intros n H. it_contra. now apply X.
Qed.

Lemma lower_head : (forall s, to_lower s = [] -> s = []) /\
  forall c r y t, ~ In y [0xC4; 105; 0xE2; 107] -> 97 <= y <= 122 ->
    (to_lower (c :: r) = y :: t <-> (c = y \/ (65 <= c <= 90 /\ c + 32 = y)) /\ to_lower r = t).
Proof.
  assert (L : forall c r, c <> 0xC4 -> c <> 0xE2 -> to_lower (c :: r) = (if (65 <=? c) && (c <=? 90) then c + 32 else c) :: to_lower r).
  { intros c r N1 N2. destruct c as [|p|p]; try reflexivity. do 8 (destruct p as [p|p|]; try reflexivity); congruence. }
  assert (H1 : forall r, exists x t, to_lower (0xC4 :: r) = x :: t /\ (x = 0xC4 \/ x = 105)).
  { intros r. destruct r as [|d r]; [eexists _, _; split; [reflexivity|]; now left|].
    destruct (Z.eq_dec d 0xB0) as [->|N]; [eexists _, _; split; [reflexivity|]; now right|].
    exists 0xC4, (to_lower (d :: r)). split; [|now left].
    destruct d as [|p|p]; try reflexivity. do 8 (destruct p as [p|p|]; try reflexivity); congruence. }
  assert (H2 : forall r, exists x t, to_lower (0xE2 :: r) = x :: t /\ (x = 0xE2 \/ x = 107)).
  { intros r. destruct r as [|d r]; [eexists _, _; split; [reflexivity|]; now left|].
    destruct (Z.eq_dec d 0x84) as [->|N].
    - destruct r as [|e r]; [eexists _, _; split; [reflexivity|]; now left|].
      destruct (Z.eq_dec e 0xAA) as [->|N]; [eexists _, _; split; [reflexivity|]; now right|].
      exists 0xE2, (to_lower (0x84 :: e :: r)). split; [|now left].
      destruct e as [|p|p]; try reflexivity. do 8 (destruct p as [p|p|]; try reflexivity); congruence.
    - exists 0xE2, (to_lower (d :: r)). split; [|now left].
      destruct d as [|p|p]; try reflexivity. do 8 (destruct p as [p|p|]; try reflexivity); congruence. }
  assert (Z1 : forall s, to_lower s = [] -> s = []).
  { intros [|c s] E; [reflexivity|].
    destruct (Z.eq_dec c 0xC4) as [->|N1]; [destruct (H1 s) as (x & t & E' & _); congruence|].
    destruct (Z.eq_dec c 0xE2) as [->|N2]; [destruct (H2 s) as (x & t & E' & _); congruence|].
    rewrite L in E by assumption. discriminate. }
  split; [exact Z1|].
  intros c r y t N R. destruct (Z.eq_dec c 0xC4) as [->|N1].
    - destruct (H1 r) as (x & t' & E & D). rewrite E. split; [intros X; injection X as -> ->; cbn in N; intuition congruence|]. lia.
    - destruct (Z.eq_dec c 0xE2) as [->|N2].
      + destruct (H2 r) as (x & t' & E & D). rewrite E. split; [intros X; injection X as -> ->; cbn in N; intuition congruence|]. lia.
      + rewrite L by assumption. split.
        * intros X. injection X as X1 X2. split; [|exact X2]. destruct ((65 <=? c) && (c <=? 90)) eqn:E; lia.
        * intros [X ->]. f_equal. destruct ((65 <=? c) && (c <=? 90)) eqn:E; lia.
Qed.
Lemma to_lower_bolt s : str_eqb (to_lower s) s_bolt = true <-> eq_ci s s_bolt.
Proof.
  destruct lower_head as [Z1 K]. rewrite str_eqb_eq. unfold eq_ci, s_bolt.
  split.
  - intros E. destruct s as [|c1 s]; [discriminate|]. apply K in E; [|cbn; lia|lia]. destruct E as [E1 E].
    destruct s as [|c2 s]; [discriminate|]. apply K in E; [|cbn; lia|lia]. destruct E as [E2 E].
    destruct s as [|c3 s]; [discriminate|]. apply K in E; [|cbn; lia|lia]. destruct E as [E3 E].
    destruct s as [|c4 s]; [discriminate|]. apply K in E; [|cbn; lia|lia]. destruct E as [E4 E].
    apply Z1 in E. subst. do 4 (apply Forall2_cons; [assumption|]). apply Forall2_nil.
  - intros F. repeat match goal with F : Forall2 _ _ _ |- _ => inversion F; subst; clear F end.
    repeat (apply K; [cbn; lia|lia|]; split; [assumption|]). reflexivity.
Qed.
Lemma truthy_on v : truthy v = true <-> on v.
Proof.
  unfold truthy, on. destruct v as [|c r]; [cbn; split; [discriminate|]; intros [E|(c & r & E & _)]; discriminate|].
  assert (H : (exists t, to_lower (c :: r) = 116 :: t) <-> c = 116 \/ c = 84).
  { split.
    - intros [t E]. apply lower_head in E; [|cbn; lia|lia]. lia.
    - intros [->| ->]; eexists; reflexivity. }
  split.
  - intros E. destruct (to_lower (c :: r)) as [|x t] eqn:EL; [left; now apply str_eqb_eq in E|].
    destruct (Z.eq_dec x 116) as [->|N]; [right; exists c, r; split; [reflexivity|]; apply H; now exists t|].
    left. apply str_eqb_eq. destruct x as [|p|p]; try exact E. do 7 (destruct p as [p|p|]; try exact E); congruence.
  - intros [E|(c' & r' & E & D)].
    + rewrite E. reflexivity.
    + injection E as <- <-. apply H in D. destruct D as [t ->]. reflexivity.
Qed.

Theorem C23_conn_string : forall u c, parse_url u = POk c <-> accepted_url u c.
Proof.
  assert (Q : forall k u (P : str -> Prop), ~ P [] -> (P (qget k u) <-> exists v, mget k (u_query u) = Some v /\ P v)).
  { intros k u P N. unfold qget. destruct (mget k (u_query u)) as [v|].
    - split; [intros H; now exists v|]. intros (v' & E & H). now injection E as ->.
    - split; [tauto|]. intros (v' & E & _). discriminate. }
  assert (O : ~ on []) by (intros [E|(c & r & E & _)]; discriminate).
  assert (TL : forall u, truthy (qget s_tls u) = true <-> exists v, mget s_tls (u_query u) = Some v /\ on v).
  { intros u. rewrite truthy_on. now apply Q. }
  assert (TN : forall u, truthy (qget s_noverify u) = true <-> exists v, mget s_noverify (u_query u) = Some v /\ on v).
  { intros u. rewrite truthy_on. now apply Q. }
  assert (TM : forall u t, (if str_eqb (qget s_timeout u) [] then Some (cf_timeout conf0)
               else match atoi (qget s_timeout u) with None => None | Some n => Some (wraps 64 (n * 10 ^ 9)) end) = Some t <->
     match mget s_timeout (u_query u) with
               | None | Some [] => t = 60 * 10 ^ 9
               | Some s => exists n, IntText s n /\ - 2 ^ 63 <= n < 2 ^ 63 /\ t = wraps 64 (n * 10 ^ 9)
               end).
  { intros u t. unfold qget. destruct (mget s_timeout (u_query u)) as [[|c s]|]; try (cbn [str_eqb]; split; [intros E; now injection E as <-|intros ->; reflexivity]).
    destruct (str_eqb (c :: s) []) eqn:E; [discriminate|]. pose proof (atoi_spec (c :: s)) as A.
    destruct (atoi (c :: s)) as [n|].
    - destruct A as [A R]. split; [intros X; injection X as <-; now exists n|]. intros (n' & A' & R' & ->). f_equal. f_equal. f_equal.
      clear - A A'. inversion A; subst; inversion A'; subst; try reflexivity;
      match goal with H : Forall is_digit (_ :: _) |- _ => inversion H; subst; unfold is_digit in *; lia end.
    - split; [discriminate|]. intros (n & I & R & _). now destruct (A n I R). }
  intros u c. unfold parse_url.
  destruct (str_eqb (to_lower (u_scheme u)) s_bolt) eqn:ES; cbn [negb].
  2: { split; [discriminate|]. intros A. pose proof (au_scheme _ _ A) as K. apply to_lower_bolt in K. congruence. }
  apply to_lower_bolt in ES.
  set (U := match u_user u with None => _ | Some _ => _ end).
  assert (EU : forall n p, U = Some (n, p) <-> match u_user u with None => n = [] /\ p = [] | Some (n', p') => p' = Some p /\ n = n' end).
  { intros n p. unfold U. destruct (u_user u) as [[n' [p'|]]|].
    - split; [intros E; injection E as -> ->; now split|intros [E ->]; now injection E as ->].
    - split; [discriminate|]. intros [E _]. discriminate.
    - split; [intros E; injection E as <- <-; now split|intros [-> ->]; reflexivity]. }
  clearbody U. destruct U as [[n p]|].
  2: { split; [discriminate|]. intros A. pose proof (au_user _ _ A) as K.
       assert (X : None = Some (cf_user c, cf_password c)) by (apply EU; destruct (u_user u) as [[? ?]|]; tauto). discriminate. }
  specialize (TM u). set (T := if str_eqb (qget s_timeout u) [] then _ else _) in *. clearbody T.
  destruct T as [t|].
  2: { split; [discriminate|]. intros A. pose proof (au_timeout _ _ A) as K. apply TM in K. discriminate. }
  pose proof (proj1 (TM t) eq_refl) as HT. pose proof (proj1 (EU n p) eq_refl) as HU.
  specialize (TL u). specialize (TN u).
  assert (EQ : forall c', accepted_url u c' -> cf_user c' = n /\ cf_password c' = p /\ cf_timeout c' = t /\ cf_tls c' = truthy (qget s_tls u)).
  { intros c' A. pose proof (au_user _ _ A) as K1. pose proof (au_timeout _ _ A) as K2. pose proof (au_tls _ _ A) as K3.
    apply TM in K2. injection K2 as ->.
    assert (X : Some (n, p) = Some (cf_user c', cf_password c')) by (apply EU; destruct (u_user u) as [[? ?]|]; tauto).
    injection X as -> ->. repeat split. destruct (cf_tls c'), (truthy (qget s_tls u)); try reflexivity; intuition congruence. }
  destruct (truthy (qget s_tls u)) eqn:ET.
  - split.
    + intros E. injection E as <-. constructor; cbn; try assumption; try tauto.
    + intros A. destruct (EQ c A) as (E1 & E2 & E3 & E4). f_equal. pose proof (au_tlsopts _ _ A) as K. rewrite E4 in K.
      pose proof (au_noverify _ _ A) as K2. destruct K as (K3 & K4 & K5).
      destruct c as [a1 a2 a3 a4 a5 a6 a7 a8]; cbn in *; subst. f_equal. destruct a8, (truthy (qget s_noverify u)); intuition congruence.
  - split.
    + intros E. injection E as <-. constructor; cbn; try assumption; try tauto.
      all: intuition congruence.
    + intros A. destruct (EQ c A) as (E1 & E2 & E3 & E4). f_equal. pose proof (au_tlsopts _ _ A) as K. rewrite E4 in K.
      pose proof (au_noverify _ _ A) as K2. destruct K as (K3 & K4 & K5).
      destruct c as [a1 a2 a3 a4 a5 a6 a7 a8]; cbn in *; subst. f_equal. destruct a8; intuition congruence.
Qed.
Print Assumptions C23_conn_string.
(** The timeout is the one in the string when it is below 2^63 nanoseconds... *)
Theorem C23_timeout_partial : forall u c n t, parse_url u = POk c -> mget s_timeout (u_query u) = Some t -> t <> [] -> IntText t n ->
  - 9223372036 <= n <= 9223372036 -> cf_timeout c = n * 10 ^ 9.
Proof.
  intros u c n t P E N I R. apply C23_conn_string in P. pose proof (au_timeout _ _ P) as K. rewrite E in K.
  destruct t as [|a t]; [congruence|]. destruct K as (n' & I' & R' & ->).
  assert (n' = n) as ->.
  { clear - I I'. inversion I; subst; inversion I'; subst; try reflexivity;
      match goal with H : Forall is_digit (_ :: _) |- _ => inversion H; subst; unfold is_digit in *; lia end. }
  apply wraps_id; lia.
Qed.
Print Assumptions C23_timeout_partial.
(** ... and for larger ones it is not: the product wraps, so no such timeout is
    kept, and half of them become negative. *)
Theorem C23_refuted : forall u c n t, parse_url u = POk c -> mget s_timeout (u_query u) = Some t -> t <> [] -> IntText t n ->
  9223372037 <= n -> cf_timeout c <> n * 10 ^ 9.
Proof.
  intros u c n t P E N I R. apply C23_conn_string in P. pose proof (au_timeout _ _ P) as K. rewrite E in K.
  destruct t as [|a t]; [congruence|]. destruct K as (n' & I' & R' & ->).
  pose proof (wraps_range 64 (n' * 10 ^ 9) ltac:(lia)). lia.
Qed.
Print Assumptions C23_refuted.
Definition ex_url (q : list (str * str)) : urlinfo :=
  {| u_scheme := [66; 111; 108; 84]; u_user := Some ([110], Some [112]); u_host := [104]; u_query := q |}.
Example C23_example :
  parse_url (ex_url [(s_timeout, [45; 55]); (s_tls, [84; 114]); (s_ca, [99])]) =
    POk {| cf_user := [110]; cf_password := [112]; cf_timeout := -7000000000; cf_tls := true;
           cf_cert := []; cf_key := []; cf_ca := [99]; cf_noverify := false |} /\
  parse_url (ex_url [(s_timeout, [55; 120])]) = PErr /\
  exists c, parse_url (ex_url [(s_timeout, [49; 48; 48; 48; 48; 48; 48; 48; 48; 48; 48])]) = POk c /\ cf_timeout c < 0 /\
    IntText [49; 48; 48; 48; 48; 48; 48; 48; 48; 48; 48] (10 ^ 10).
Proof.
  split; [reflexivity|]. split; [reflexivity|]. eexists. split; [reflexivity|]. split; [reflexivity|].
  apply (it_plain [49; 48; 48; 48; 48; 48; 48; 48; 48; 48; 48]); [discriminate|].
  repeat (apply Forall_cons; [unfold is_digit; lia|]). apply Forall_nil.
Qed.

(** * C24 *)
(** The settings a connection string asks for. *)
Definition asks (k : str) (u : urlinfo) : Prop := exists v, mget k (u_query u) = Some v /\ on v.
Theorem C24_verification : forall fs u h t, create_conn fs u = DialTLS h t ->
  asks s_tls u /\ h = u_host u /\ (tc_skip t = true <-> asks s_noverify u).
Proof.
  intros fs u h t. unfold create_conn. destruct (parse_url u) as [c|] eqn:P; [|discriminate].
  apply C23_conn_string in P. destruct (cf_tls c) eqn:T; [|discriminate].
  unfold tls_config. destruct (if str_eqb (cf_ca c) [] then _ else _) as [roots|]; [|discriminate].
  destruct (if str_eqb (cf_cert c) [] then _ else _) as [cert|]; [|discriminate].
  intros E. injection E as <- <-. cbn. split; [now apply (au_tls _ _ P)|]. split; [reflexivity|].
  rewrite (au_noverify _ _ P). rewrite T. unfold asks. tauto.
Qed.
Print Assumptions C24_verification.
(** Without tls nothing is encrypted, with tls nothing is sent in the clear. *)
Theorem C24_tls_iff : forall fs u,
  (asks s_tls u -> forall h t, create_conn fs u <> DialPlain h t) /\
  (~ asks s_tls u -> forall h t, create_conn fs u <> DialTLS h t).
Proof.
  intros fs u. split.
  - intros A h t. unfold create_conn. destruct (parse_url u) as [c|] eqn:P; [|discriminate]. apply C23_conn_string in P.
    apply (au_tls _ _ P) in A. rewrite A. destruct (tls_config fs c); discriminate.
  - intros A h t E. apply C24_verification in E. tauto.
Qed.
Print Assumptions C24_tls_iff.
(** A certificate without a key, or one that cannot be loaded, or an unreadable
    CA file: nothing is dialled. *)
Theorem C24_cert_needs_key : forall fs u, asks s_tls u ->
  (qget s_cert u <> [] /\ (qget s_key u = [] \/ fs_pair fs (qget s_cert u) (qget s_key u) = false)) \/
  (qget s_ca u <> [] /\ fs_read fs (qget s_ca u) = false) -> create_conn fs u = DialNothing.
Proof.
  intros fs u A H. unfold create_conn. destruct (parse_url u) as [c|] eqn:P; [|reflexivity]. apply C23_conn_string in P.
  apply (au_tls _ _ P) in A. pose proof (au_tlsopts _ _ P) as K. rewrite A in *. destruct K as (K1 & K2 & K3).
  unfold tls_config. rewrite K1, K2, K3.
  destruct H as [[N H]|[N H]].
  - destruct (str_eqb (qget s_ca u) []), (fs_read fs (qget s_ca u)); try reflexivity;
    apply str_eqb_neq in N; rewrite N; destruct H as [->|H]; try reflexivity; rewrite H;
    destruct (str_eqb (qget s_key u) []); reflexivity.
  - apply str_eqb_neq in N. now rewrite N, H.
Qed.
Print Assumptions C24_cert_needs_key.
(** The credentials of the string are in the INIT message if and only if a
    (non-empty) user name was given. *)
Theorem C24_credentials : forall u c, parse_url u = POk c ->
  match u_user u with
  | Some (n, p) => n <> [] -> exists pw, p = Some pw /\ init_message client_id (cf_user c) (cf_password c) =
        VInit client_id [(s_scheme, VStr s_basic); (s_principal, VStr n); (s_credentials, VStr pw)]
  | None => True
  end /\
  (u_user u = None \/ (exists p, u_user u = Some ([], p)) ->
   init_message client_id (cf_user c) (cf_password c) = VInit client_id [(s_scheme, VStr s_none)]).
Proof.
  intros u c P. apply C23_conn_string in P. pose proof (au_user _ _ P) as K. unfold init_message. split.
  - destruct (u_user u) as [[n p]|]; [|exact I]. destruct K as [-> ->]. intros N. exists (cf_password c).
    apply str_eqb_neq in N. now rewrite N.
  - intros [E|[p E]]; rewrite E in K; destruct K as [E1 E2]; [now rewrite E1|now rewrite E2].
Qed.
Print Assumptions C24_credentials.
Example C24_example : let fs := {| fs_read := fun _ => true; fs_pair := fun _ _ => true |} in
  create_conn fs (ex_url [(s_tls, [49]); (s_noverify, [116])]) = DialTLS [104] {| tc_roots := None; tc_cert := None; tc_skip := true |} /\
  create_conn fs (ex_url [(s_noverify, [116])]) = DialPlain [104] 60000000000 /\
  create_conn fs (ex_url [(s_tls, [49]); (s_cert, [99])]) = DialNothing.
Proof. cbv zeta. repeat split; reflexivity. Qed.

(** * C48 *)
(** The value of [k] in the rightmost map that has it. *)
Fixpoint last_value (k : str) (ms : list (list (str * goval))) : option goval :=
  match ms with
  | [] => None
  | m :: ms' => match last_value k ms' with Some v => Some v | None => mget k m end
  end.
Definition sendable_map (m : list (str * goval)) : Prop :=
  wt (VMap m) /\ Transmissible (VMap m) /\ strings_le 65535 (VMap m).
Definition marshalled (v : goval) : darg := ABytes (fst (marshal v)).

Lemma mmerge_get {A} k (m : list (str * A)) : NoDup (map fst m) -> forall out,
  mget k (mmerge out m) = match mget k m with Some v => Some v | None => mget k out end.
Proof.
  induction m as [|[k0 v0] m IH]; intros N out; [reflexivity|]. inversion N as [|? ? N1 N2]; subst.
  unfold mmerge in *. cbn [fold_left fst snd mget]. rewrite IH by assumption. rewrite mget_mput.
  destruct (str_eqb k k0) eqn:E; [|reflexivity]. apply str_eqb_eq in E. subst.
  destruct (mget k0 m) eqn:G; [|reflexivity]. exfalso. apply N1. clear - G.
  induction m as [|[k1 v1] m IH]; [discriminate|]. cbn in *. destruct (str_eqb k0 k1) eqn:E; [apply str_eqb_eq in E; now left|].
  right. now apply IH.
Qed.
Lemma mget_map {A B} (f : A -> B) k (m : list (str * A)) :
  mget k (map (fun kv => (fst kv, f (snd kv))) m) = option_map f (mget k m).
Proof. induction m as [|[k0 v0] m IH]; [reflexivity|]. cbn. destruct (str_eqb k k0); [reflexivity|exact IH]. Qed.

Lemma args_maps mk ms : forall out rest, Forall sendable_map ms -> exists out',
  args_to_map mk out (map (fun m => marshalled (VMap m)) ms ++ rest) = args_to_map mk out' rest /\
  forall k, mget k out' = match option_map canon (last_value k ms) with Some v => Some v | None => mget k out end.
Proof.
  induction ms as [|m ms IH]; intros out rest F; [exists out; split; reflexivity|].
  inversion F as [|? ? (W & T & S) F']; subst. cbn [map app args_to_map marshalled].
  destruct (C06_round_trip mk _ W T S) as [_ R]. rewrite R. cbn [canon].
  set (m' := map (fun kv : str * goval => (fst kv, canon (snd kv))) m).
  destruct (IH (mmerge out m') rest F') as (out' & E & G). exists out'. split; [exact E|].
  intros k. rewrite G. cbn [last_value]. destruct (last_value k ms) as [v|]; [reflexivity|]. cbn [option_map].
  rewrite mmerge_get.
  - unfold m'. rewrite mget_map. destruct (mget k m); reflexivity.
  - unfold m'. rewrite map_map. cbn. inversion W as [| | | | | | | | ? WM| | | | | | | | | | | | | | | |]; subst. now destruct WM.
Qed.
Theorem C48_args : forall mk ms, Forall sendable_map ms ->
  exists out, driver_args mk (map (fun m => marshalled (VMap m)) ms) = AOk out /\
    forall k, mget k out = option_map canon (last_value k ms).
Proof.
  intros mk ms F. destruct (args_maps mk ms [] [] F) as (out & E & G). exists out.
  rewrite app_nil_r in E. split; [exact E|]. intros k. rewrite G. cbn. now destruct (last_value k ms).
Qed.
Print Assumptions C48_args.
Theorem C48_not_bytes : forall mk ms rest, Forall sendable_map ms ->
  driver_args mk (map (fun m => marshalled (VMap m)) ms ++ AOther :: rest) = AErr.
Proof. intros mk ms rest F. destruct (args_maps mk ms [] (AOther :: rest) F) as (out & E & _). exact E. Qed.
Print Assumptions C48_not_bytes.
(** An argument that is the marshalling of anything but a map is a panic. *)
Theorem C48_panics : forall mk ms v rest, Forall sendable_map ms ->
  wt v -> Transmissible v -> strings_le 65535 v -> (forall m, v <> VMap m) ->
  driver_args mk (map (fun m => marshalled (VMap m)) ms ++ marshalled v :: rest) = APanic.
Proof.
  intros mk ms v rest F W T S N. destruct (args_maps mk ms [] (marshalled v :: rest) F) as (out & E & _).
  unfold driver_args. rewrite E. cbn [args_to_map marshalled]. destruct (C06_round_trip mk _ W T S) as [_ R]. rewrite R.
  destruct v; try reflexivity. now destruct (N m).
Qed.
Print Assumptions C48_panics.
Example C48_example : sendable_map [([107], ex_v); ([97], VInt KInt 1)] /\
  driver_args true [marshalled (VMap [([107], VInt KInt 1); ([97], VNil)]); marshalled (VMap [([107], VInt KInt 2)])]
  = AOk [([107], VInt KInt64 2); ([97], VNil)].
Proof.
  assert (I : forall w, Sub w (VMap [([107], ex_v); ([97], VInt KInt 1)]) ->
    w = VMap [([107], ex_v); ([97], VInt KInt 1)] \/ Sub w ex_v \/ w = VInt KInt 1).
  { intros w H. apply Sub_map_inv in H. destruct H as [->|(k & x & [HI|[HI|[]]] & H)]; [now left| |]; injection HI as <- <-; right; [now left|right].
    inversion H; subst; try discriminate. reflexivity. }
  split; [|vm_compute; reflexivity]. split; [|split].
  - constructor. apply wtm_intro.
    + repeat constructor; cbn; intuition discriminate.
    + repeat constructor; lia.
    + constructor; [exact ex_wt|]. constructor; [constructor; reflexivity|constructor].
  - intros w H. apply I in H. destruct H as [->|[H| ->]]; [|now apply ex_trans|cbn; tauto].
    split; [exact Logic.I|]. split; [unfold signed_size, zlen; cbn; lia|].
    intros k x [E|[E|[]]]; injection E as <- <-; unfold signed_size, zlen; cbn; lia.
  - intros w H. apply I in H. destruct H as [->|[H| ->]]; [|apply (ex_strings 65535 ltac:(lia) _ H)|exact Logic.I].
    intros k x [E|[E|[]]]; injection E as <- <-; unfold zlen; cbn; lia.
Qed.

(** * C49 (false for collections whose size the decoder misreads) *)
Lemma canon_decodable v : decodable v -> canon v = v.
Proof.
  induction v as [|b|k z|b|b|s|l IH|l IH|m IH|v sig fs Hs IH|] using goval_view_ind; intros D; try reflexivity.
  - inversion D; subst. reflexivity.
  - inversion D.
  - inversion D as [| | | | |? F| | | | | | | | | | | | |]; subst. cbn [canon]. f_equal. clear D.
    induction l as [|x l IHl]; [reflexivity|]. inversion IH; inversion F; subst. cbn. f_equal; auto.
  - inversion D.
  - inversion D as [| | | | | |? F| | | | | | | | | | | |]; subst. cbn [canon]. f_equal. clear D.
    induction m as [|[k x] m IHm]; [reflexivity|]. inversion IH; inversion F; subst. cbn in *. f_equal; [f_equal|]; auto.
  - destruct v; cbn [structure_of] in Hs; inversion Hs; subst; clear Hs; try reflexivity; cbn [canon] in *.
    all: inversion D; subst.
    all: repeat match goal with H : Forall _ (_ :: _) |- _ => inversion H; subst; clear H end.
    all: repeat match goal with
      | H : decodable (VMap ?m) -> _, F : Forall _ ?m |- _ => specialize (H (dc_map _ F)); injection H as H
      | H : decodable (VSlice ?m) -> _, F : Forall _ ?m |- _ => specialize (H (dc_slice _ F)); injection H as H end.
    all: congruence.
Qed.

Definition is_collection (v : goval) : Prop :=
  match v with VSlice _ | VMap _ | VNode _ _ _ | VPath _ _ _ | VRel _ _ _ _ _ | VURel _ _ _ => True | _ => False end.
(** What a cell should hold for a received value. *)
Definition cell_of (mk : bool) (v : goval) (d : dval) : Prop :=
  match v with
  | VNil => d = DVNil
  | VBool b => d = DVBool b
  | VInt KInt64 z => d = DVInt z
  | VF64 b => d = DVFloat b
  | VStr s => d = DVStr s
  | _ => is_collection v /\ exists b, d = DVBytes b /\ unmarshal mk b = DVal v
  end.
(** Values of a result row as documented (doc.go): no protocol messages. *)
Definition row_value (v : goval) : Prop :=
  decodable v /\ wt v /\ (is_collection v \/ match v with VNil | VBool _ | VInt _ _ | VF64 _ | VStr _ => True | _ => False end).
Theorem C49_next_partial : forall mk row n,
  Forall (fun v => row_value v /\ (is_collection v -> Transmissible v /\ strings_le 65535 v)) row -> zlen row <= n ->
  exists ds, fill n row = (ds, NDone) /\ Forall2 (cell_of mk) row ds.
Proof.
  intros mk row. induction row as [|v row IH]; intros n F L; [exists []; split; [reflexivity|constructor]|].
  inversion F as [|? ? [(D & W & K) T] F']; subst. zl. pose proof (zlen_nonneg row).
  destruct (IH (n - 1) F' ltac:(lia)) as (ds & E & G).
  assert (C : exists d, convert v = COk d /\ cell_of mk v d).
  { assert (B : is_collection v -> exists b, (match marshal v with (b, None) => COk (DVBytes b) | (_, Some _) => CErr end) = COk (DVBytes b)
       /\ unmarshal mk b = DVal v).
    { intros KC. destruct (T KC) as [TR S]. destruct (C06_round_trip mk v W TR S) as [M R].
      destruct (marshal v) as [b e]. cbn in M, R. subst e. exists b. split; [reflexivity|]. now rewrite canon_decodable in R. }
    destruct v; cbn [is_collection] in *; try tauto; cbn [convert cell_of]; try (eexists; split; reflexivity);
      try (destruct (B I) as (b & -> & R); eexists; split; [reflexivity|]; split; [exact I|]; now exists b).
    inversion D; subst. eexists; split; reflexivity. }
  destruct C as (d & C1 & C2). exists (d :: ds). cbn [fill]. rewrite C1. replace (n <=? 0) with false by lia. rewrite E.
  split; [reflexivity|]. now constructor.
Qed.
Print Assumptions C49_next_partial.
(** Lists of 128 to 255 (or 32768 to 65535) elements can be received but are
    stored as bytes on which Unmarshal panics. *)
Theorem C49_refuted : forall mk l n, row_value (VSlice l) -> Accepted (VSlice l) -> strings_le 65535 (VSlice l) ->
  uints_fit (VSlice l) -> bad_size (zlen l) -> 1 <= n ->
  exists b, fill n [VSlice l] = ([DVBytes b], NDone) /\ unmarshal mk b = DCrash.
Proof.
  intros mk l n (D & W & _) A S U B L. destruct (C07_refuted_lists mk l W U A B S) as [M R].
  cbn [fill convert]. destruct (marshal (VSlice l)) as [b e]. cbn in M, R. subst e.
  replace (n <=? 0) with false by lia. exists b. now split.
Qed.
Print Assumptions C49_refuted.
(** A row longer than the destination is an index panic. *)
Theorem C49_panics : forall row n, 0 <= n < zlen row -> snd (fill n row) = NPanic \/ snd (fill n row) = NErr.
Proof.
  induction row as [|v row IH]; intros n L; [unfold zlen in L; cbn in L; lia|]. rewrite zlen_cons in L. cbn [fill]. destruct (convert v).
  - destruct (n <=? 0) eqn:E; [now left|]. specialize (IH (n - 1) ltac:(lia)). destruct (fill (n - 1) row). exact IH.
  - destruct (n <=? 0); [now left|now right].
Qed.
Print Assumptions C49_panics.
Example C49_example :
  row_value (VSlice (repeat VNil 200)) /\ row_value (VStr [104]) /\
  fill 3 [VStr [104]; VInt KInt64 5; VSlice [VNil]] = ([DVStr [104]; DVInt 5; DVBytes [0; 2; 0x91; 0xC0; 0; 0]], NDone) /\
  unmarshal true [0; 2; 0x91; 0xC0; 0; 0] = DVal (VSlice [VNil]).
Proof.
  split; [|split; [|split; reflexivity]].
  - split; [|split; [|left; exact I]]; constructor; apply Forall_forall; intros x H; apply repeat_spec in H; subst; constructor.
  - split; [constructor|]. split; [constructor; constructor; [unfold is_byte; lia|constructor]|right; exact I].
Qed.

(** * C51 (false for short reads and one byte transfers) *)
(** A call that moved all its bytes, at least two, without an error. *)
Definition clean_call (o : rop) : Prop :=
  match o with
  | ORead n got fail => zlen got = n /\ 2 <= n /\ fail = false
  | OWrite b n fail => zlen b = n /\ 2 <= n /\ fail = false
  end.
(** The same call during replay, and what it returned while recording. *)
Definition again (o : rop) : pop := match o with ORead n _ _ => PRead n | OWrite b _ _ => PWrite b end.
Definition original (o : rop) : pout :=
  match o with
  | ORead n got _ => {| po_data := got; po_n := n; po_fail := false |}
  | OWrite b n _ => {| po_data := []; po_n := n; po_fail := false |}
  end.

Definition call_data (o : rop) : bytes := match o with ORead _ got _ => got | OWrite b _ _ => b end.
Definition call_write (o : rop) : bool := match o with ORead _ _ _ => false | OWrite _ _ _ => true end.
Definition ends0 (b : bytes) : bool := match last_two b with Some (x, y) => (x =? 0) && (y =? 0) | None => false end.
(** The recording of a list of calls as a list of groups: one event per group. *)
Definition ev_of (w : bool) (d : bytes) (done : bool) : event := {| ev_data := d; ev_write := w; ev_done := done; ev_err := false |}.
Fixpoint groups (cur : option event) (os : list rop) : list event :=
  match os with
  | [] => match cur with Some e => [e] | None => [] end
  | o :: os' =>
      match cur with
      | Some e =>
          if ev_done e || negb (Bool.eqb (ev_write e) (call_write o))
          then e :: groups (Some (ev_of (call_write o) (call_data o) (ends0 (call_data o)))) os'
          else groups (Some {| ev_data := ev_data e ++ call_data o; ev_write := ev_write e;
                               ev_done := ends0 (call_data o); ev_err := ev_err e |}) os'
      | None => groups (Some (ev_of (call_write o) (call_data o) (ends0 (call_data o)))) os'
      end
  end.
Lemma last_two_some b : 2 <= zlen b -> exists x y, last_two b = Some (x, y).
Proof.
  intros H. unfold last_two. destruct (List.rev b) as [|y [|x r]] eqn:E; [| |eauto];
  apply (f_equal (@length Z)) in E; rewrite rev_length in E; unfold zlen in H; cbn in E; lia.
Qed.
Lemma rec_call_clean o evs e : clean_call o -> rec_call (evs ++ [e]) o = Some
  (if ev_done e || negb (Bool.eqb (ev_write e) (call_write o))
   then (evs ++ [e]) ++ [ev_of (call_write o) (call_data o) (ends0 (call_data o))]
   else evs ++ [{| ev_data := ev_data e ++ call_data o; ev_write := ev_write e;
                   ev_done := ev_done e || ends0 (call_data o); ev_err := ev_err e |}]).
Proof.
  intros C.
  assert (X : rec_call (evs ++ [e]) o = match record (call_data o) (call_write o) (evs ++ [e]) with Some x => Some x | None => None end
     /\ 2 <= zlen (call_data o)).
  { unfold rec_call. destruct o as [n got fail|b n fail]; destruct C as (C1 & C2 & ->); cbn [call_data call_write].
    - replace (0 <? zlen got) with true by lia. split; [reflexivity|lia].
    - rewrite ztake_all by lia. replace (0 <? zlen b) with true by lia. split; [reflexivity|lia]. }
  destruct X as [-> L]. unfold record, open_event. rewrite rev_app_distr. cbn [List.rev app]. rewrite rev_involutive.
  destruct (last_two_some _ L) as (x & y & E). unfold add_data, ends0, ev_of. rewrite E.
  destruct (ev_done e || negb (Bool.eqb (ev_write e) (call_write o))) eqn:D; cbn [new_event ev_data ev_write ev_done ev_err orb app]; reflexivity.
Qed.
Lemma rec_call_first o : clean_call o -> rec_call [] o = Some [ev_of (call_write o) (call_data o) (ends0 (call_data o))].
Proof.
  intros C.
  assert (X : rec_call [] o = match record (call_data o) (call_write o) [] with Some x => Some x | None => None end
     /\ 2 <= zlen (call_data o)).
  { unfold rec_call. destruct o as [n got fail|b n fail]; destruct C as (C1 & C2 & ->); cbn [call_data call_write].
    - replace (0 <? zlen got) with true by lia. split; [reflexivity|lia].
    - rewrite ztake_all by lia. replace (0 <? zlen b) with true by lia. split; [reflexivity|lia]. }
  destruct X as [-> L]. unfold record, open_event. cbn [List.rev].
  destruct (last_two_some _ L) as (x & y & E). unfold add_data, ends0, ev_of. rewrite E. reflexivity.
Qed.
Lemma rec_groups os : forall evs e, Forall clean_call os ->
  rec_session (evs ++ [e]) os = Some (evs ++ groups (Some e) os).
Proof.
  induction os as [|o os IH]; intros evs e F; [reflexivity|]. inversion F; subst. cbn [rec_session groups].
  rewrite rec_call_clean by assumption.
  destruct (ev_done e || negb (Bool.eqb (ev_write e) (call_write o))) eqn:D.
  - rewrite IH by assumption. now rewrite <- app_assoc.
  - apply orb_false_elim in D. destruct D as [D _]. rewrite D. cbn [orb]. now rewrite IH.
Qed.

Lemma set_nth_app a x b y : set_nth (length a) y (a ++ x :: b) = a ++ y :: b.
Proof. induction a as [|z a IH]; [reflexivity|]. cbn. now rewrite IH. Qed.
Lemma nth_error_here {A} (a : list A) x b : nth_error (a ++ x :: b) (length a) = Some x.
Proof. induction a as [|z a IH]; [reflexivity|exact IH]. Qed.
Lemma play_clean used e d more o : clean_call o -> ev_write e = call_write o -> ev_data e = call_data o ++ d ->
  play_call {| pl_events := used ++ e :: more; pl_cur := length used |} (again o) =
  (original o,
   let e' := {| ev_data := d; ev_write := ev_write e; ev_done := ev_done e; ev_err := ev_err e |} in
   {| pl_events := used ++ e' :: more; pl_cur := if zlen d =? 0 then S (length used) else length used |}).
Proof.
  intros C W D. unfold play_call. cbn [pl_events pl_cur]. rewrite nth_error_here.
  destruct o as [n got fail|b n fail]; destruct C as (<- & C2 & ->); cbn [again call_write call_data original] in *;
  cbv zeta; rewrite set_nth_app, W, D, zdrop_app, ztake_app, Z.ltb_irrefl; reflexivity.
Qed.
(** The last event of the recording is empty at the end. *)
Lemma play_groups os : forall used e pend, Forall clean_call os ->
  (* [pend]: what is still to be read of the data recorded so far in the open event *)
  forall o0, clean_call o0 -> ev_write e = call_write o0 -> pend = call_data o0 ->
  let evs := match groups (Some e) os with [] => [] | g :: gs =>
     {| ev_data := pend ++ skipn (length (ev_data e)) (ev_data g); ev_write := ev_write g; ev_done := ev_done g; ev_err := ev_err g |} :: gs end in
  exists used' , fst (play {| pl_events := used ++ evs; pl_cur := length used |} (map again (o0 :: os))) = map original (o0 :: os) /\
    snd (play {| pl_events := used ++ evs; pl_cur := length used |} (map again (o0 :: os))) =
      {| pl_events := used'; pl_cur := length used' |} /\ ev_data (last used' (new_event false)) = [].
Proof.
  induction os as [|o os IH]; intros used e pend F o0 C0 W0 ->; cbv zeta.
  - cbn [groups map play]. rewrite skipn_all, app_nil_r.
    rewrite (play_clean used {| ev_data := call_data o0; ev_write := ev_write e; ev_done := ev_done e; ev_err := ev_err e |} [] [] o0 C0 W0) by (cbn; now rewrite app_nil_r). cbv zeta. cbn [zlen length Z.of_nat Z.eqb fst snd].
    eexists (used ++ [_]). split; [reflexivity|]. split.
    + rewrite app_length. cbn [length]. rewrite Nat.add_1_r. reflexivity.
    + now rewrite last_last.
  - inversion F as [|? ? C F']; subst.
    assert (HG : forall e, exists g gs, groups (Some e) os = g :: gs /\ (exists t, ev_data g = ev_data e ++ t) /\ ev_write g = ev_write e).
    { clear. induction os as [|o os IH]; intros e; cbn [groups]; [exists e, []; repeat split; exists []; now rewrite app_nil_r|].
      destruct (ev_done e || negb (Bool.eqb (ev_write e) (call_write o))).
      - eexists _, _. split; [reflexivity|]. split; [exists []; now rewrite app_nil_r|reflexivity].
      - destruct (IH {| ev_data := ev_data e ++ call_data o; ev_write := ev_write e; ev_done := ends0 (call_data o); ev_err := ev_err e |})
          as (g & gs & E & (t & T) & W). exists g, gs. split; [exact E|]. split; [|exact W].
        exists (call_data o ++ t). rewrite T. cbn [ev_data]. now rewrite app_assoc. }
    cbn [groups]. destruct (ev_done e || negb (Bool.eqb (ev_write e) (call_write o))) eqn:D.
    + cbn [map play]. rewrite skipn_all, app_nil_r.
      rewrite (play_clean used {| ev_data := call_data o0; ev_write := ev_write e; ev_done := ev_done e; ev_err := ev_err e |} [] _ o0 C0 W0) by (cbn; now rewrite app_nil_r). cbv zeta. cbn [zlen length Z.of_nat Z.eqb].
      set (e1 := ev_of (call_write o) (call_data o) (ends0 (call_data o))).
      set (u1 := {| ev_data := []; ev_write := _ |}).
      destruct (IH (used ++ [u1]) e1 (call_data o) F' o C eq_refl eq_refl) as (used' & P1 & P2 & P3). exists used'.
      destruct (HG e1) as (g & gs & E & (t & T) & W). rewrite E in *. cbn [ev_data e1 ev_of] in *.
      assert (X : {| ev_data := call_data o ++ skipn (length (call_data o)) (ev_data g); ev_write := ev_write g;
                     ev_done := ev_done g; ev_err := ev_err g |} = g).
      { rewrite T. unfold e1, ev_of. cbn [ev_data]. rewrite skipn_app, skipn_all, Nat.sub_diag. cbn [app skipn]. rewrite <- T. now destruct g. }
      cbv zeta in P1, P2. unfold e1, ev_of in P1, P2. cbn [ev_data] in P1, P2. rewrite X in P1, P2. rewrite <- app_assoc in P1, P2. cbn [app] in P1, P2.
      rewrite app_length in P1, P2. cbn [length] in P1, P2. replace (length used + 1)%nat with (S (length used)) in P1, P2 by lia.
      cbn [map play] in P1, P2.
      destruct (play_call {| pl_events := used ++ u1 :: g :: gs; pl_cur := S (length used) |} (again o)) as [r p1].
      destruct (play p1 (map again os)) as [rs p2]. cbn [fst snd] in *. split; [now f_equal|]. split; assumption.
    + set (e1 := {| ev_data := ev_data e ++ call_data o; ev_write := ev_write e; ev_done := ends0 (call_data o); ev_err := ev_err e |}).
      apply orb_false_elim in D. destruct D as [D1 D2]. apply negb_false_iff, Bool.eqb_prop in D2.
      destruct (HG e1) as (g & gs & E & (t & T) & W). rewrite E.
      destruct (IH used e1 (call_data o) F' o C D2 eq_refl) as (used' & P1 & P2 & P3). exists used'.
      rewrite E in P1, P2. cbv zeta in P1, P2.
      assert (X : skipn (length (ev_data e)) (ev_data g) = call_data o ++ t).
      { rewrite T. unfold e1. cbn [ev_data]. rewrite <- app_assoc, skipn_app, skipn_all, Nat.sub_diag. reflexivity. }
      assert (Y : skipn (length (ev_data e1)) (ev_data g) = t).
      { rewrite T. rewrite skipn_app, skipn_all, Nat.sub_diag. reflexivity. }
      rewrite X. rewrite Y in P1, P2. cbn [map play].
      assert (W' : ev_write g = call_write o0) by (rewrite W; exact W0).
      rewrite (play_clean used {| ev_data := call_data o0 ++ call_data o ++ t; ev_write := ev_write g; ev_done := ev_done g; ev_err := ev_err g |} (call_data o ++ t) gs o0 C0 W' eq_refl). cbv zeta. cbn [ev_write ev_done ev_err].
      assert (L : zlen (call_data o ++ t) =? 0 = false).
      { rewrite zlen_app. pose proof (zlen_nonneg t). destruct o as [n got fl|b n fl]; destruct C as (<- & ? & _); cbn [call_data]; lia. }
      rewrite L. cbn [map play] in P1, P2.
      destruct (play_call {| pl_events := used ++ _ :: gs; pl_cur := length used |} (again o)) as [r p1].
      destruct (play p1 (map again os)) as [rs p2]. cbn [fst snd] in *. split; [now f_equal|]. split; assumption.
Qed.
Theorem C51_replay_partial : forall os, Forall clean_call os ->
  exists evs, rec_session [] os = Some evs /\
    fst (play {| pl_events := evs; pl_cur := 0 |} (map again os)) = map original os /\
    play_close (snd (play {| pl_events := evs; pl_cur := 0 |} (map again os))) = true.
Proof.
  intros [|o os] F; [exists []; repeat split|]. inversion F as [|? ? C F']; subst.
  set (e := ev_of (call_write o) (call_data o) (ends0 (call_data o))).
  exists (groups (Some e) os). cbn [rec_session]. rewrite rec_call_first by assumption.
  pose proof (rec_groups os [] e F') as R. cbn [app] in R. split; [exact R|].
  destruct (play_groups os [] e (call_data o) F' o C eq_refl eq_refl) as (used' & P1 & P2 & P3).
  cbn [app length] in P1, P2.
  assert (X : match groups (Some e) os with [] => [] | g :: gs =>
     {| ev_data := call_data o ++ skipn (length (ev_data e)) (ev_data g); ev_write := ev_write g; ev_done := ev_done g; ev_err := ev_err g |} :: gs end
     = groups (Some e) os).
  { assert (HG : forall os e, exists g gs, groups (Some e) os = g :: gs /\ (exists t, ev_data g = ev_data e ++ t) /\ ev_write g = ev_write e).
    { clear. induction os as [|o os IH]; intros e; cbn [groups]; [exists e, []; repeat split; exists []; now rewrite app_nil_r|].
      destruct (ev_done e || negb (Bool.eqb (ev_write e) (call_write o))).
      - eexists _, _. split; [reflexivity|]. split; [exists []; now rewrite app_nil_r|reflexivity].
      - destruct (IH {| ev_data := ev_data e ++ call_data o; ev_write := ev_write e; ev_done := ends0 (call_data o); ev_err := ev_err e |})
          as (g & gs & E & (t & T) & W). exists g, gs. split; [exact E|]. split; [|exact W].
        exists (call_data o ++ t). rewrite T. cbn [ev_data]. now rewrite app_assoc. }
    destruct (HG os e) as (g & gs & -> & (t & T) & _). f_equal. rewrite T.
    rewrite skipn_app, skipn_all, Nat.sub_diag. cbn [app skipn e ev_of ev_data]. 
    unfold e, ev_of in T. cbn [ev_data] in T. rewrite <- T. now destruct g. }
  rewrite X in P1, P2. split; [exact P1|]. rewrite P2. unfold play_close. cbn [pl_events pl_cur].
  destruct used' as [|u us]; [reflexivity|]. rewrite Nat.eqb_refl, P3. reflexivity.
Qed.
Print Assumptions C51_replay_partial.
(** A read that got fewer bytes than it asked for fails when replayed. *)
Theorem C51_refuted_short_read : forall n got, 2 <= zlen got < n ->
  exists evs, rec_session [] [ORead n got false] = Some evs /\
    fst (play {| pl_events := evs; pl_cur := 0 |} [PRead n]) = [{| po_data := got; po_n := zlen got; po_fail := true |}].
Proof.
  intros n got H. destruct (last_two_some got ltac:(lia)) as (x & y & E).
  cbn [rec_session rec_call]. replace (0 <? zlen got) with true by lia. unfold record, open_event, add_data. cbn [List.rev]. rewrite E.
  eexists. split; [reflexivity|]. cbn [app]. unfold play, play_call. cbn [pl_events pl_cur nth_error ev_write new_event ev_data ev_done ev_err orb Bool.eqb negb].
  cbn [app]. rewrite ztake_all by lia. replace (zlen got <? n) with true by lia. reflexivity.
Qed.
Print Assumptions C51_refuted_short_read.
(** Recording a transfer of a single byte panics. *)
Theorem C51_refuted_one_byte : forall evs b n, rec_session evs [ORead n [b] false] = None /\ rec_session evs [OWrite [b] 1 false] = None.
Proof.
  intros evs b n. cbn [rec_session rec_call]. change (0 <? zlen [b]) with true. change (ztake 1 [b]) with [b]. change (0 <? zlen [b]) with true. cbv iota.
  unfold record. split; destruct (open_event _ evs) as [before e]; reflexivity.
Qed.
Print Assumptions C51_refuted_one_byte.
Example C51_example : let os := [OWrite [1; 2; 3] 3 false; OWrite [0; 0] 2 false; ORead 2 [0; 4] false; ORead 4 [5; 6; 0; 0] false; OWrite [7; 8] 2 false] in
  Forall clean_call os /\ exists evs, rec_session [] os = Some evs /\ length evs = 3%nat.
Proof. cbv zeta. split; [repeat constructor; cbn; lia|]. eexists. split; [reflexivity|reflexivity]. Qed.
