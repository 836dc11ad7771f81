(** Encoder, framing and decoder together. *)
From Coq Require Import ZArith List Bool Lia Permutation.
From Coq Require Import ZifyBool.
From Verif Require Import GoPrims Value PackSpec PrimLemmas Encoder EncoderProofs PackProofs
  Decoder DecoderProofs RoundTrip Framing.
Import ListNotations.
Open Scope Z_scope.

(** ** The encoder only writes bytes, in pieces no longer than its strings *)
Lemma concat_bytes (l : list bytes) : Forall (Forall is_byte) l -> Forall is_byte (concat l).
Proof. induction 1; cbn; [constructor|]. apply Forall_app; now split. Qed.

Lemma wseq_Forall (P : bytes -> Prop) a b : Forall P (fst a) -> Forall P (fst b) -> Forall P (fst (wseq a b)).
Proof. destruct a as [x [e|]]; cbn; intros; [assumption|]. apply Forall_app; now split. Qed.
Lemma wseqs_Forall (P : bytes -> Prop) l : Forall (fun a => Forall P (fst a)) l -> Forall P (fst (wseqs l)).
Proof. induction 1; cbn [wseqs]; [constructor|]. now apply wseq_Forall. Qed.

Section Writes.
  Variable P : bytes -> Prop.
  Hypothesis Pone : forall b, is_byte b -> P [b].
  Hypothesis Pbe : forall n z, (n <= 8)%nat -> P (be n z).

  Ltac wr := repeat first
    [ apply Forall_nil
    | apply Forall_cons; [first [apply Pbe; lia | apply Pone; unfold is_byte, wrapu; first [apply Z.mod_pos_bound; lia | lia] | assumption] | ]
    | apply wseq_Forall | assumption ].
  Ltac difs := repeat match goal with |- context [if ?c then _ else _] => destruct c end.

  Lemma W_int z : Forall P (fst (enc_int z)).
  Proof. unfold enc_int. difs; cbn [fst wok werr]; wr. Qed.
  Lemma W_kint k z : Forall P (fst (enc_kint k z)).
  Proof. unfold enc_kint. destruct k; try apply W_int. destruct (maxInt64 <? z); [constructor|apply W_int]. Qed.
  Lemma W_str s : P s -> Forall P (fst (enc_str s)).
  Proof. intros. unfold enc_str. difs; cbn [fst wok werr]; wr. Qed.
  Lemma W_slice l : Forall (fun a => Forall P (fst a)) l -> Forall P (fst (enc_slice l)).
  Proof. intros H. apply wseqs_Forall in H. unfold enc_slice. difs; try (apply Forall_nil); apply wseq_Forall; trivial; cbn [fst wok]; wr. Qed.
  Lemma W_map m : Forall (fun a => Forall P (fst (fst a)) /\ Forall P (fst (snd a))) m -> Forall P (fst (enc_map m)).
  Proof.
    intros H. assert (H' : Forall P (fst (wseqs (map (fun kv => wseq (fst kv) (snd kv)) m)))).
    { apply wseqs_Forall. rewrite Forall_map. revert H. apply Forall_impl. intros a []. now apply wseq_Forall. }
    unfold enc_map. difs; try (apply Forall_nil); apply wseq_Forall; trivial; cbn [fst wok]; wr.
  Qed.
  Lemma W_structure sig l : Forall (fun a => Forall P (fst a)) l -> Forall P (fst (enc_structure sig l)).
  Proof.
    intros H. apply wseqs_Forall in H. unfold enc_structure.
    difs; try (apply Forall_nil); repeat apply wseq_Forall; trivial; cbn [fst wok]; wr.
  Qed.

  (** Every string occurring in the value satisfies [P]. *)
  Definition strs_sat (v : goval) : Prop :=
    forall w, Sub w v -> match w with VStr s => P s | VMap m => forall k x, In (k, x) m -> P k | _ => True end.

  Lemma enc_writes v : strs_sat v -> Forall P (fst (enc v)).
  Proof.
    induction v as [|b|k z|b|b|s|l IH|l IH|m IH|v sig fs Hs IH|] using goval_view_ind; intros W.
    - cbn [enc enc_nil enc_float fst wok]; wr.
    - cbn [enc enc_bool fst wok]. destruct b; wr.
    - apply W_kint.
    - cbn [enc enc_nil enc_float fst wok]; wr.
    - cbn [enc enc_nil enc_float fst wok]; wr.
    - cbn [enc]. apply W_str. exact (W _ (Sub_refl _)).
    - cbn [enc]. apply W_slice. rewrite Forall_map. rewrite Forall_forall in *. intros x Hx. apply IH; trivial.
      intros w Hw. apply W. eapply Sub_slice; eassumption.
    - cbn [enc]. apply W_slice. rewrite Forall_map. rewrite Forall_forall in *. intros x Hx. apply IH; trivial.
      intros w Hw. apply W. eapply Sub_tslice; eassumption.
    - cbn [enc]. apply W_map. rewrite Forall_map. rewrite Forall_forall in *. intros [k x] Hx. cbn [fst snd]. split.
      + apply W_str. exact (W _ (Sub_refl _) k x Hx).
      + apply (IH (k, x) Hx). intros w Hw. apply W. eapply Sub_map; eassumption.
    - rewrite (enc_structure_of _ _ _ Hs). apply W_structure. rewrite Forall_map. rewrite Forall_forall in *.
      intros x Hx. apply IH; trivial. intros w Hw. apply W. eapply Sub_field; eassumption.
    - constructor.
  Qed.
End Writes.

Lemma Sub_wt w v : Sub w v -> wt v -> wt w.
Proof.
  induction 1 as [|w x l Hx _ IH|w x l Hx _ IH|w k x m Hx _ IH|w x v sig fs Hs Hx _ IH]; intros W.
  - assumption.
  - apply IH. inversion W; subst. rewrite Forall_forall in *. auto.
  - apply IH. inversion W; subst. rewrite Forall_forall in *. auto.
  - apply IH. inversion W as [| | | | | | | |? HW| | | | | | | | | | | | | | | |]; subst. destruct HW as [? ? ? HV].
    rewrite Forall_forall in *. exact (HV _ Hx).
  - apply IH. pose proof (wt_fields _ _ _ Hs W) as F. rewrite Forall_forall in F. auto.
Qed.

Lemma Sub_trans a b c : Sub a b -> Sub b c -> Sub a c.
Proof.
  intros H1 H2. revert a H1. induction H2; intros a H1; trivial.
  - eapply Sub_slice; eauto.
  - eapply Sub_tslice; eauto.
  - eapply Sub_map; eauto.
  - eapply Sub_field; eauto.
Qed.

Lemma enc_is_bytes v : wt v -> Forall (Forall is_byte) (fst (enc v)).
Proof.
  intros W. apply enc_writes.
  - intros b Hb. apply Forall_cons; [assumption|apply Forall_nil].
  - intros n z _. apply be_bytes.
  - intros w Hw. pose proof (Sub_wt _ _ Hw W) as Ww. destruct w; trivial.
    + now inversion Ww.
    + intros k x Hx. inversion Ww as [| | | | | | | |? HW| | | | | | | | | | | | | | | |]; subst. destruct HW as [? ? HK ?].
      rewrite Forall_forall in HK. exact (HK _ Hx).
Qed.

Lemma enc_short_writes n v : 8 <= n -> strings_le n v -> Forall (fun p => zlen p <= n) (fst (enc v)).
Proof.
  intros Hn W. apply enc_writes.
  - intros b _. cbn. lia.
  - intros k z Hk. rewrite zlen_be. lia.
  - exact W.
Qed.

(** ** Canonical form *)
Lemma denote_canon v : denote (canon v) = denote v.
Proof.
  assert (ML : forall l, Forall (fun v => denote (canon v) = denote v) l -> map denote (map canon l) = map denote l).
  { intros l H. rewrite map_map. apply map_ext_in. now apply Forall_forall. }
  assert (MM : forall m, Forall (fun kv : str * goval => denote (canon (snd kv)) = denote (snd kv)) m ->
     map (fun kv => (fst kv, denote (snd kv))) (map (fun kv => (fst kv, canon (snd kv))) m) =
     map (fun kv => (fst kv, denote (snd kv))) m).
  { intros m H. rewrite map_map. apply map_ext_in. rewrite Forall_forall in H. intros a Ha. cbn. f_equal. now apply H. }
  induction v as [|b|k z|b|b|s|l IH|l IH|m IH|v sig fs Hs IH|] using goval_view_ind; try reflexivity.
  - cbn. now rewrite ML.
  - cbn. now rewrite ML.
  - cbn. now rewrite MM.
  - destruct v; cbn [structure_of] in Hs; inversion Hs; subst; try reflexivity; clear Hs;
      repeat match goal with H : Forall _ (_ :: _) |- _ => inversion H; subst; clear H end;
      repeat match goal with H : denote (canon (VMap _)) = _ |- _ => cbn [canon denote] in H; injection H as H
                           | H : denote (canon (VSlice _)) = _ |- _ => cbn [canon denote] in H; injection H as H end;
      cbn [canon denote]; congruence.
Qed.

Lemma canon_map_keys m : map fst (map (fun kv : str * goval => (fst kv, canon (snd kv))) m) = map fst m.
Proof. rewrite map_map. reflexivity. Qed.

Lemma f32_range b : 0 <= b < 2 ^ 32 -> 0 <= f32_to_f64 b < 2 ^ 64.
Proof.
  intros Hb. pose proof (accepted_pok (VF32 b)) as H. apply H; [now constructor| |reflexivity].
  intros z Hz. inversion Hz; subst; discriminate.
Qed.

Lemma wt_canon v : wt v -> (forall k z, Sub (VInt k z) v -> z < 2 ^ 63) -> wt (canon v).
Proof.
  induction v as [|b|k z|b|b|s|l IH|l IH|m IH|v sig fs Hs IH|] using goval_view_ind; intros W N; try assumption.
  - cbn [canon]. constructor. inversion W; subst. specialize (N k z (Sub_refl _)). destruct k; cbn in *; lia.
  - cbn [canon]. constructor. inversion W; subst. now apply f32_range.
  - cbn [canon]. constructor. rewrite Forall_map. inversion W; subst. rewrite Forall_forall in *. intros x Hx.
    apply IH; auto. intros k z Hz. eapply N. eapply Sub_slice; eassumption.
  - cbn [canon]. constructor. rewrite Forall_map. inversion W; subst. rewrite Forall_forall in *. intros x Hx.
    apply IH; auto. intros k z Hz. eapply N. eapply Sub_tslice; eassumption.
  - cbn [canon]. constructor. inversion W as [| | | | | | | |? HW| | | | | | | | | | | | | | | |]; subst. destruct HW as [m HD HK HV].
    constructor.
    + now rewrite canon_map_keys.
    + rewrite Forall_map. assumption.
    + rewrite Forall_map. rewrite Forall_forall in *. intros [k x] Hx. cbn. apply (IH _ Hx); [exact (HV _ Hx)|].
      intros k' z Hz. eapply N. eapply Sub_map; eassumption.
  - assert (IH' : Forall (fun x => wt (canon x)) fs).
    { pose proof (wt_fields _ _ _ Hs W) as FW. rewrite Forall_forall in *. intros x Hx. apply IH; auto.
      intros k z Hz. eapply N. eapply Sub_field; eassumption. }
    clear IH. destruct v; cbn [structure_of] in Hs; inversion Hs; subst; try assumption; clear Hs;
      inversion W; subst; cbn [canon];
      repeat match goal with H : Forall _ (_ :: _) |- _ => inversion H; subst; clear H end;
      repeat match goal with H : wt (canon (VMap _)) |- _ => cbn [canon] in H; inversion H; subst; clear H
                           | H : wt (canon (VSlice _)) |- _ => cbn [canon] in H; inversion H; subst; clear H end;
      constructor; try assumption.
    + rewrite Forall_map. revert H4. apply Forall_impl. intros a (i & l & p & ->). cbn. eauto.
    + rewrite Forall_map. revert H5. apply Forall_impl. intros a (i & l & p & ->). cbn. eauto.
Qed.

Lemma decodable_canon v : (forall w, Sub w v -> kind_ok w) -> decodable (canon v).
Proof.
  induction v as [|b|k z|b|b|s|l IH|l IH|m IH|v sig fs Hs IH|] using goval_view_ind; intros N; try (constructor; fail).
  - cbn [canon]. constructor. rewrite Forall_map. rewrite Forall_forall in *. intros x Hx.
    apply IH; auto. intros w Hw. eapply N. eapply Sub_slice; eassumption.
  - cbn [canon]. constructor. rewrite Forall_map. rewrite Forall_forall in *. intros x Hx.
    apply IH; auto. intros w Hw. eapply N. eapply Sub_tslice; eassumption.
  - cbn [canon]. constructor. rewrite Forall_map. rewrite Forall_forall in *. intros [k x] Hx. cbn. apply (IH _ Hx).
    intros w Hw. eapply N. eapply Sub_map; eassumption.
  - assert (IH' : Forall (fun x => decodable (canon x)) fs).
    { rewrite Forall_forall in *. intros x Hx. apply IH; auto. intros w Hw. eapply N. eapply Sub_field; eassumption. }
    clear IH. pose proof (N _ (Sub_refl _)) as K.
    destruct v; cbn [structure_of] in Hs; inversion Hs; subst; clear Hs; try contradiction; cbn [canon];
      repeat match goal with H : Forall _ (_ :: _) |- _ => inversion H; subst; clear H end;
      repeat match goal with H : decodable (canon (VMap _)) |- _ => cbn [canon] in H; inversion H; subst; clear H
                           | H : decodable (canon (VSlice _)) |- _ => cbn [canon] in H; inversion H; subst; clear H end;
      constructor; assumption.
  - destruct (N _ (Sub_refl _)).
Qed.

Lemma trans_ints v : wt v -> Transmissible v -> forall k z, Sub (VInt k z) v -> z < 2 ^ 63.
Proof.
  intros W T k z Hz. destruct (T _ Hz) as [K _]. pose proof (Sub_wt _ _ Hz W) as Wz. inversion Wz; subst.
  destruct k; cbn in *; lia.
Qed.

Lemma trans_accepted v : wt v -> Transmissible v -> accepted (enc v).
Proof.
  intros W T. destruct (accepted_dec v) as [A|A]; [exact A|exfalso].
  apply (enc_rejects_iff v W) in A. destruct A as (w & Sw & U). destruct (T w Sw) as [K S].
  unfold too_long, signed_size in *.
  destruct w; cbn in *; unfold too_long, signed_size in *; try contradiction; try lia.
  - destruct k; try contradiction. lia.
  - destruct S as [S1 S2]. destruct U as [U|(k & x & Hx & U)]; [lia|]. specialize (S2 _ _ Hx). lia.
Qed.

Lemma trans_pok v : wt v -> Transmissible v -> pok true (denote v).
Proof.
  induction v as [|b|k z|b|b|s|l IH|l IH|m IH|v sig fs Hs IH|] using goval_view_ind; intros W T.
  - exact I.
  - exact I.
  - pose proof (trans_ints _ W T k z (Sub_refl _)). inversion W; subst. cbn. destruct k; cbn in *; lia.
  - cbn [denote pok]. inversion W; subst. now apply f32_range.
  - cbn [denote pok]. now inversion W.
  - cbn [denote pok]. exact (proj2 (T _ (Sub_refl _))).
  - cbn [denote pok]. zl. split; [exact (proj2 (T _ (Sub_refl _)))|]. rewrite allP_Forall, Forall_map.
    inversion W; subst. rewrite Forall_forall in *. intros x Hx. apply IH; auto.
    intros w Hw. apply T. eapply Sub_slice; eassumption.
  - cbn [denote pok]. zl. split; [exact (proj2 (T _ (Sub_refl _)))|]. rewrite allP_Forall, Forall_map.
    inversion W; subst. rewrite Forall_forall in *. intros x Hx. apply IH; auto.
    intros w Hw. apply T. eapply Sub_tslice; eassumption.
  - cbn [denote pok]. zl. destruct (proj2 (T _ (Sub_refl _))) as [S1 S2]. split; [exact S1|]. rewrite allP_Forall, Forall_map.
    inversion W as [| | | | | | | |? HW| | | | | | | | | | | | | | | |]; subst. destruct HW as [m HD HK HV].
    rewrite Forall_forall in *. intros [k x] Hx. cbn. split; [exact (S2 k x Hx)|].
    apply (IH _ Hx); [exact (HV _ Hx)|]. intros w Hw. apply T. eapply Sub_map; eassumption.
  - rewrite (denote_structure_of _ _ _ Hs). cbn [pok]. zl. split; [apply Z.mod_pos_bound; lia|].
    pose proof (proj1 (T _ (Sub_refl _))) as K. split.
    + destruct v; cbn [structure_of] in Hs; inversion Hs; subst; try contradiction; cbn; lia.
    + rewrite allP_Forall, Forall_map. pose proof (wt_fields _ _ _ Hs W) as FW. rewrite Forall_forall in *.
      intros x Hx. apply IH; auto. intros w Hw. apply T. eapply Sub_field; eassumption.
  - destruct (proj1 (T _ (Sub_refl _))).
Qed.

(** ** Message-level round trip *)
Lemma enc_dec mk v r : wt v -> Transmissible v -> decode mk (wbytes (enc v) ++ r) = DOk (canon v) r.
Proof.
  intros W T. pose proof (trans_ints v W T) as N.
  rewrite enc_penc; trivial.
  - apply decode_accepts.
    + apply decodable_canon. intros w Hw. exact (proj1 (T w Hw)).
    + now apply wt_canon.
    + rewrite denote_canon. apply penc_PS. now apply trans_pok.
  - intros z Hz. eapply N; eassumption.
  - now apply trans_accepted.
Qed.

(** ** Through the framing *)
Lemma encode_framed cs v : accepted (enc v) -> encode cs v = (fst (chunk cs [] (fst (enc v))) ++ flush (backlog cs (fst (enc v))), None).
Proof.
  intros A. unfold encode, backlog. unfold accepted in A. destruct (enc v) as [ws e]. cbn in *. subst e.
  destruct (chunk cs [] ws). reflexivity.
Qed.
Lemma marshal_framed v : accepted (enc v) -> marshal v = (framed 65535 (fst (enc v)), None).
Proof.
  intros A. unfold marshal. rewrite encode_framed by assumption. unfold framed. now rewrite concat_app.
Qed.

Lemma chunk_bytes cs ws : Forall (Forall is_byte) ws -> forall buf, Forall is_byte buf ->
  Forall is_byte (concat (fst (chunk cs buf ws))) /\ Forall is_byte (snd (chunk cs buf ws)).
Proof.
  induction 1 as [|p ws Hp HF IH]; intros buf Hb; cbn [chunk]; [split; [constructor|assumption]|].
  assert (Hbp : Forall is_byte (buf ++ p)) by (apply Forall_app; now split).
  unfold ewrite. destruct (cs <=? zlen (buf ++ p)).
  - specialize (IH (zdrop cs (buf ++ p)) (bytes_zdrop _ _ Hbp)).
    destruct (chunk cs (zdrop cs (buf ++ p)) ws) as [o b]. cbn [fst snd] in *. split; [|tauto].
    cbn [app concat]. repeat (apply Forall_app; split); [apply be_bytes|now apply bytes_ztake|tauto].
  - specialize (IH (buf ++ p) Hbp). destruct (chunk cs (buf ++ p) ws) as [o b]. cbn [fst snd app] in *. exact IH.
Qed.
Lemma framed_bytes cs ws : Forall (Forall is_byte) ws -> Forall is_byte (framed cs ws).
Proof.
  intros H. destruct (chunk_bytes cs ws H [] ltac:(constructor)) as [H1 H2]. unfold framed, backlog.
  apply Forall_app. split; [assumption|]. apply concat_bytes. unfold flush. apply Forall_app. split.
  - destruct (0 <? zlen (snd (chunk cs [] ws))); [|apply Forall_nil].
    apply Forall_cons; [apply be_bytes|]. apply Forall_cons; [assumption|apply Forall_nil].
  - apply Forall_cons; [|apply Forall_nil]. repeat apply Forall_cons; try apply Forall_nil; unfold is_byte; lia.
Qed.
Lemma framed_nonempty cs ws : framed cs ws <> [].
Proof.
  unfold framed, flush. destruct (0 <? zlen (backlog cs ws)); intros E; apply (f_equal zlen) in E;
    rewrite ?concat_app in E; cbn [concat app] in E; zl; rewrite ?zlen_be in E;
    pose proof (zlen_nonneg (concat (fst (chunk cs [] ws)))); pose proof (zlen_nonneg (backlog cs ws)); lia.
Qed.

Lemma Decode_ok mk r msg v : read_msg r = FOk msg [] -> forall x, decode mk msg = DOk v x -> Decode mk r = (DVal v, []).
Proof. intros E x D. unfold Decode. now rewrite E, D. Qed.

(** Receiving a framed message over any segmentation of the stream, followed by
    anything: the value, and the reader positioned after the message. *)
Lemma receive_framed mk cs v r rest : wt v -> Transmissible v -> 1 <= cs <= 65535 ->
  zlen (backlog cs (fst (enc v))) < 65536 ->
  segs_ok r -> Forall is_byte rest -> rbytes r = framed cs (fst (enc v)) ++ rest ->
  exists r', Decode mk r = (DVal (canon v), r') /\ segs_ok r' /\ rbytes r' = rest.
Proof.
  intros W T Hcs HB HS HR E.
  destruct (framed_ok cs _ Hcs HB) as (chs & _ & HC & EC).
  assert (HBy : Forall is_byte (rbytes r)).
  { rewrite E. apply Forall_app. split; [|assumption]. apply framed_bytes. now apply enc_is_bytes. }
  destruct (read_msg_receives r (concat (fst (enc v))) rest HS HBy) as (r' & ER & S & B).
  { exists (framed cs (fst (enc v))). split; [assumption|]. eexists; split; eassumption. }
  exists r'. repeat split; trivial. unfold Decode. rewrite ER.
  pose proof (enc_dec mk v [] W T) as D. rewrite app_nil_r in D. unfold wbytes in D. now rewrite D.
Qed.

(** C06 *)
Lemma roundtrip_backlog mk v : wt v -> Transmissible v -> zlen (backlog 65535 (fst (enc v))) < 65536 ->
  snd (marshal v) = None /\ unmarshal mk (fst (marshal v)) = DVal (canon v).
Proof.
  intros W T HB. rewrite marshal_framed by now apply trans_accepted. split; [reflexivity|]. cbn [fst].
  unfold unmarshal.
  destruct (receive_framed mk 65535 v [RData (framed 65535 (fst (enc v)))] [] W T) as (r' & E & _); trivial.
  - lia.
  - repeat constructor. eexists; split; [reflexivity|]. apply framed_nonempty.
  - now rewrite E.
Qed.

Lemma roundtrip mk v : wt v -> Transmissible v -> strings_le 65535 v ->
  snd (marshal v) = None /\ unmarshal mk (fst (marshal v)) = DVal (canon v).
Proof.
  intros W T S. apply roundtrip_backlog; trivial.
  pose proof (backlog_small 65535 (fst (enc v)) ltac:(lia) (enc_short_writes 65535 v ltac:(lia) S)). lia.
Qed.
