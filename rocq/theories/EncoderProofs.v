(** Proofs about the encoder: conformance to PackStream, minimality, exact
    characterisation of rejection. *)
From Coq Require Import ZArith List Bool Lia.
From Coq Require Import ZifyBool.
From Verif Require Import GoPrims Value PackSpec PrimLemmas Encoder.
Import ListNotations.
Open Scope Z_scope.

(** ** Induction over Go values, all structures treated alike *)
Section GovalInd.
  Variable P : goval -> Prop.
  Hypothesis Hnil : P VNil.
  Hypothesis Hbool : forall b, P (VBool b).
  Hypothesis Hint : forall k z, P (VInt k z).
  Hypothesis Hf32 : forall b, P (VF32 b).
  Hypothesis Hf64 : forall b, P (VF64 b).
  Hypothesis Hstr : forall s, P (VStr s).
  Hypothesis Hslice : forall l, Forall P l -> P (VSlice l).
  Hypothesis Htslice : forall l, Forall P l -> P (VTSlice l).
  Hypothesis Hmap : forall m, Forall (fun kv => P (snd kv)) m -> P (VMap m).
  Hypothesis Hstruct : forall v sig fs, structure_of v = Some (sig, fs) -> Forall P fs -> P v.
  Hypothesis Hother : P VOther.

  Lemma strs_P ls : Forall P (map vstr ls).
  Proof. induction ls; cbn; constructor; [apply Hstr|assumption]. Qed.
  Lemma ints_P ls : Forall P (map vint ls).
  Proof. induction ls; cbn; constructor; [apply Hint|assumption]. Qed.

  Definition F1 a : P a -> Forall P [a].  Proof. repeat constructor; assumption. Qed.
  Definition F2 a b : P a -> P b -> Forall P [a; b].  Proof. repeat constructor; assumption. Qed.
  Definition F3 a b c : P a -> P b -> P c -> Forall P [a; b; c].  Proof. repeat constructor; assumption. Qed.
  Definition F5 a b c d e : P a -> P b -> P c -> P d -> P e -> Forall P [a; b; c; d; e].
  Proof. repeat constructor; assumption. Qed.

  Fixpoint goval_view_ind (v : goval) : P v :=
    let L := (fix L (l : list goval) : Forall P l :=
      match l with [] => Forall_nil P | x :: l' => Forall_cons x (goval_view_ind x) (L l') end) in
    let M := (fix M (m : list (str * goval)) : Forall (fun kv => P (snd kv)) m :=
      match m with [] => Forall_nil (fun kv : str * goval => P (snd kv))
      | (k, x) :: m' => Forall_cons (P := fun kv : str * goval => P (snd kv)) (k, x) (goval_view_ind x) (M m') end) in
    match v with
    | VNil => Hnil
    | VBool b => Hbool b
    | VInt k z => Hint k z
    | VF32 b => Hf32 b
    | VF64 b => Hf64 b
    | VStr s => Hstr s
    | VSlice l => Hslice l (L l)
    | VTSlice l => Htslice l (L l)
    | VMap m => Hmap m (M m)
    | VNode id ls ps => Hstruct (VNode id ls ps) _ _ eq_refl
        (F3 _ _ _ (Hint _ _) (Hslice _ (strs_P ls)) (Hmap _ (M ps)))
    | VRel id s e ty ps => Hstruct (VRel id s e ty ps) _ _ eq_refl
        (F5 _ _ _ _ _ (Hint _ _) (Hint _ _) (Hint _ _) (Hstr _) (Hmap _ (M ps)))
    | VURel id ty ps => Hstruct (VURel id ty ps) _ _ eq_refl (F3 _ _ _ (Hint _ _) (Hstr _) (Hmap _ (M ps)))
    | VPath ns rs seq => Hstruct (VPath ns rs seq) _ _ eq_refl
        (F3 _ _ _ (Hslice _ (L ns)) (Hslice _ (L rs)) (Hslice _ (ints_P seq)))
    | VRecord fs => Hstruct (VRecord fs) _ _ eq_refl (F1 _ (Hslice _ (L fs)))
    | VSuccess md => Hstruct (VSuccess md) _ _ eq_refl (F1 _ (Hmap _ (M md)))
    | VFailure md => Hstruct (VFailure md) _ _ eq_refl (F1 _ (Hmap _ (M md)))
    | VIgnored => Hstruct VIgnored _ _ eq_refl (Forall_nil P)
    | VInit c tok => Hstruct (VInit c tok) _ _ eq_refl (F2 _ _ (Hstr _) (Hmap _ (M tok)))
    | VRun s ps => Hstruct (VRun s ps) _ _ eq_refl (F2 _ _ (Hstr _) (Hmap _ (M ps)))
    | VPullAll => Hstruct VPullAll _ _ eq_refl (Forall_nil P)
    | VDiscardAll => Hstruct VDiscardAll _ _ eq_refl (Forall_nil P)
    | VAckFailure => Hstruct VAckFailure _ _ eq_refl (Forall_nil P)
    | VReset => Hstruct VReset _ _ eq_refl (Forall_nil P)
    | VUser sig fs => Hstruct (VUser sig fs) _ _ eq_refl (L fs)
    | VOther => Hother
    end.
End GovalInd.

(** ** Structures are encoded generically, as encodeStructure(AllFields()) does *)
Lemma enc_structure_of v sig fs :
  structure_of v = Some (sig, fs) -> enc v = enc_structure sig (map enc fs).
Proof.
  destruct v; cbn [structure_of]; intros H; inversion H; subst; cbn [map enc vint64];
    rewrite ?map_map; try reflexivity.
Qed.

Lemma denote_structure_of v sig fs :
  structure_of v = Some (sig, fs) -> denote v = PStruct (sig mod 256) (map denote fs).
Proof.
  destruct v; cbn [structure_of]; intros H; inversion H; subst; cbn [map denote vint64];
    rewrite ?map_map; try reflexivity.
Qed.

Lemma wt_fields v sig fs : structure_of v = Some (sig, fs) -> wt v -> Forall wt fs.
Proof.
  assert (S : forall ls, Forall bytes_ok ls -> Forall wt (map vstr ls)).
  { induction 1; cbn; constructor; trivial. now constructor. }
  assert (I : forall seq, Forall (fun z => krange KInt z = true) seq -> Forall wt (map vint seq)).
  { induction 1; cbn; constructor; trivial. now constructor. }
  intros H W. destruct W; cbn [structure_of] in H; inversion H; subst; clear H;
    repeat (first [assumption | apply S; assumption | apply I; assumption | constructor]).
Qed.

(** ** Sequencing of writes *)
Definition accepted (a : wres) : Prop := snd a = None.
Definition wbytes (a : wres) : bytes := concat (fst a).

Lemma wseq_accepted a b : accepted (wseq a b) <-> accepted a /\ accepted b.
Proof.
  unfold accepted, wseq. destruct a as [x [e|]]; cbn; split; intros; try tauto; try discriminate;
    intuition discriminate.
Qed.
Lemma wok_accepted ws : accepted (wok ws).  Proof. reflexivity. Qed.
Lemma werr_accepted e : accepted (werr e) <-> False.
Proof. split; [discriminate|tauto]. Qed.
Lemma wseq_bytes a b : accepted a -> wbytes (wseq a b) = wbytes a ++ wbytes b.
Proof.
  unfold accepted, wbytes, wseq. destruct a as [x [e|]]; cbn; intros; [discriminate|].
  apply concat_app.
Qed.
Lemma wseqs_accepted l : accepted (wseqs l) <-> Forall accepted l.
Proof.
  induction l as [|a l IH]; cbn [wseqs].
  - split; [constructor|reflexivity].
  - rewrite wseq_accepted, IH. split; [intros []; now constructor|inversion 1; tauto].
Qed.
Lemma wseqs_bytes l : Forall accepted l -> wbytes (wseqs l) = concat (map wbytes l).
Proof.
  induction 1 as [|a l Ha Hl IH]; [reflexivity|]. cbn [wseqs map concat].
  rewrite wseq_bytes by assumption. now rewrite IH.
Qed.

(** ** The minimal PackStream encoding (a proof device) *)
Definition phdr (tiny m8 m16 m32 : Z) (n : Z) : bytes :=
  if n <=? 15 then [tiny + n]
  else if n <=? 255 then m8 :: be 1 n
  else if n <=? 65535 then m16 :: be 2 n
  else m32 :: be 4 n.

Definition pint (z : Z) : bytes :=
  if (-16 <=? z) && (z <=? 127) then be 1 z
  else if (- 2 ^ 7 <=? z) && (z <? 2 ^ 7) then 0xC8 :: be 1 z
  else if (- 2 ^ 15 <=? z) && (z <? 2 ^ 15) then 0xC9 :: be 2 z
  else if (- 2 ^ 31 <=? z) && (z <? 2 ^ 31) then 0xCA :: be 4 z
  else 0xCB :: be 8 z.

Definition pstr (s : str) : bytes := phdr 0x80 0xD0 0xD1 0xD2 (zlen s) ++ s.

Fixpoint penc (p : pval) : bytes :=
  match p with
  | PNull => [0xC0]
  | PBool b => [if b then 0xC3 else 0xC2]
  | PInt z => pint z
  | PFloat b => 0xC1 :: be 8 b
  | PStr s => pstr s
  | PList l => phdr 0x90 0xD4 0xD5 0xD6 (zlen l) ++ concat (map penc l)
  | PMap m => phdr 0xA0 0xD8 0xD9 0xDA (zlen m) ++
              concat (map (fun kv => pstr (fst kv) ++ penc (snd kv)) m)
  | PStruct sig l => phdr 0xB0 0xDC 0xDD 0xDD (zlen l) ++ sig :: concat (map penc l)
  end.

(** ** Pieces of the encoder *)
Lemma be_wraps n w z : w = 8 * Z.of_nat n -> (0 < n)%nat -> be n (wraps w z) = be n z.
Proof.
  intros -> Hn. rewrite <- be_mod. rewrite pow256 by lia. rewrite wraps_mod by lia.
  rewrite <- pow256 by lia. apply be_mod.
Qed.
Lemma be1_wraps z : be 1 (wraps 8 z) = be 1 z.  Proof. apply be_wraps; lia. Qed.
Lemma be2_wraps z : be 2 (wraps 16 z) = be 2 z.  Proof. apply be_wraps; lia. Qed.
Lemma be4_wraps z : be 4 (wraps 32 z) = be 4 z.  Proof. apply be_wraps; lia. Qed.
Lemma be1_tiny z : 0 <= z < 256 -> be 1 z = [z].
Proof. intros H. cbn [be]. rewrite Z.pow_0_r, Z.div_1_r, Z.mod_small by lia. reflexivity. Qed.

Ltac consts := unfold minInt64, maxInt64, minInt32, maxInt32, minInt16, maxInt16, minInt8, maxInt8,
                 maxUint8, maxUint16, maxUint32 in *.

Lemma enc_int_ok z : - 2 ^ 63 <= z < 2 ^ 63 -> accepted (enc_int z) /\ wbytes (enc_int z) = pint z.
Proof.
  intros Hz. unfold enc_int, pint. consts.
  repeat match goal with |- context [if ?c then _ else _] => destruct c eqn:?; try lia end;
    (split; [reflexivity|]); unfold wbytes, wok; cbn [fst concat app];
    rewrite ?app_nil_r, ?be1_wraps, ?be2_wraps, ?be4_wraps; reflexivity.
Qed.

Lemma kint_cases k z : krange k z = true ->
  (enc_kint k z = enc_int z /\ - 2 ^ 63 <= z < 2 ^ 63) \/
  (k = KUint64 /\ 2 ^ 63 <= z /\ enc_kint k z = werr EIntTooBig) \/
  (k = KUint /\ 2 ^ 63 <= z < 2 ^ 64 /\ enc_kint k z = enc_int (z - 2 ^ 64)).
Proof.
  intros H.
  assert (I : - 2 ^ 63 <= z < 2 ^ 63 -> wraps 64 z = z) by (intros; apply wraps_id; lia).
  destruct k; cbn [krange] in H; cbn [enc_kint]; try (left; rewrite I by lia; split; [reflexivity|lia]).
  - destruct (Z.ltb_spec z (2 ^ 63)).
    + left. rewrite I by lia. split; [reflexivity|lia].
    + right; right. rewrite wraps_high by lia. repeat split; lia.
  - unfold maxInt64. destruct (Z.ltb_spec (2 ^ 63 - 1) z).
    + right; left. repeat split; lia.
    + left. rewrite I by lia. split; [reflexivity|lia].
Qed.

(** Common shape of the size headers *)
Lemma enc_str_accepted s : accepted (enc_str s) <-> zlen s < 2 ^ 32.
Proof.
  unfold enc_str. consts. pose proof (zlen_nonneg s).
  repeat match goal with |- context [if ?c then _ else _] => destruct c eqn:? end;
    rewrite ?werr_accepted; (split; [|]); intros; try reflexivity; lia.
Qed.
Lemma enc_str_bytes s : zlen s < 2 ^ 32 -> wbytes (enc_str s) = pstr s.
Proof.
  intros Hs. unfold enc_str, pstr, phdr. consts. pose proof (zlen_nonneg s).
  repeat match goal with |- context [if ?c then _ else _] => destruct c eqn:?; try lia end;
    unfold wbytes, wok; cbn [fst concat app];
    rewrite ?app_nil_r, ?be1_wraps, ?be2_wraps, ?be4_wraps; try reflexivity.
  unfold wrapu. rewrite Z.mod_small by lia. reflexivity.
Qed.

Lemma enc_slice_accepted l : accepted (enc_slice l) <-> zlen l < 2 ^ 32 /\ Forall accepted l.
Proof.
  unfold enc_slice. consts. pose proof (zlen_nonneg l).
  repeat match goal with |- context [if ?c then _ else _] => destruct c eqn:? end;
    rewrite ?werr_accepted, ?wseq_accepted, ?wseqs_accepted;
    (split; [intros; split; try tauto; try lia | intros; try (split; [reflexivity|tauto]); try lia]).
Qed.
Lemma enc_slice_bytes l : zlen l < 2 ^ 32 -> Forall accepted l ->
  wbytes (enc_slice l) = phdr 0x90 0xD4 0xD5 0xD6 (zlen l) ++ concat (map wbytes l).
Proof.
  intros Hl HF. unfold enc_slice, phdr. consts. pose proof (zlen_nonneg l).
  repeat match goal with |- context [if ?c then _ else _] => destruct c eqn:?; try lia end;
    rewrite wseq_bytes by reflexivity; rewrite wseqs_bytes by assumption;
    unfold wbytes at 1, wok; cbn [fst concat app];
    rewrite ?app_nil_r, ?be1_wraps, ?be2_wraps, ?be4_wraps; try reflexivity.
  unfold wrapu. rewrite Z.mod_small by lia. reflexivity.
Qed.

Definition pair_accepted (kv : wres * wres) : Prop := accepted (fst kv) /\ accepted (snd kv).

Lemma map_wseq_accepted m :
  Forall accepted (map (fun kv : wres * wres => wseq (fst kv) (snd kv)) m) <-> Forall pair_accepted m.
Proof.
  rewrite Forall_map. split; apply Forall_impl; intros a; now rewrite wseq_accepted.
Qed.
Lemma enc_map_accepted m : accepted (enc_map m) <-> zlen m < 2 ^ 32 /\ Forall pair_accepted m.
Proof.
  unfold enc_map. consts. pose proof (zlen_nonneg m).
  repeat match goal with |- context [if ?c then _ else _] => destruct c eqn:? end;
    rewrite ?werr_accepted, ?wseq_accepted, ?wseqs_accepted, ?map_wseq_accepted;
    (split; [intros; split; try tauto; try lia | intros; try (split; [reflexivity|tauto]); try lia]).
Qed.
Lemma enc_map_bytes m : zlen m < 2 ^ 32 -> Forall pair_accepted m ->
  wbytes (enc_map m) = phdr 0xA0 0xD8 0xD9 0xDA (zlen m) ++
                       concat (map (fun kv => wbytes (fst kv) ++ wbytes (snd kv)) m).
Proof.
  intros Hl HF. unfold enc_map, phdr. consts. pose proof (zlen_nonneg m).
  assert (E : wbytes (wseqs (map (fun kv => wseq (fst kv) (snd kv)) m)) =
              concat (map (fun kv => wbytes (fst kv) ++ wbytes (snd kv)) m)).
  { rewrite wseqs_bytes by now apply map_wseq_accepted. rewrite map_map. f_equal.
    apply map_ext_in. intros kv Hin. apply wseq_bytes.
    rewrite Forall_forall in HF. now apply HF. }
  repeat match goal with |- context [if ?c then _ else _] => destruct c eqn:?; try lia end;
    rewrite wseq_bytes by reflexivity; rewrite E;
    unfold wbytes at 1, wok; cbn [fst concat app];
    rewrite ?app_nil_r, ?be1_wraps, ?be2_wraps, ?be4_wraps; try reflexivity.
  unfold wrapu. rewrite Z.mod_small by lia. reflexivity.
Qed.

Lemma enc_structure_accepted sig l :
  accepted (enc_structure sig l) <-> zlen l < 2 ^ 16 /\ Forall accepted l.
Proof.
  unfold enc_structure. consts. pose proof (zlen_nonneg l).
  repeat match goal with |- context [if ?c then _ else _] => destruct c eqn:? end;
    rewrite ?werr_accepted, ?wseq_accepted, ?wseqs_accepted;
    (split; [intros; split; try tauto; try lia | intros; try (split; [reflexivity|split; [reflexivity|tauto]]); try lia]).
Qed.
Lemma enc_structure_bytes sig l : zlen l < 2 ^ 16 -> Forall accepted l ->
  wbytes (enc_structure sig l) = phdr 0xB0 0xDC 0xDD 0xDD (zlen l) ++ sig mod 256 :: concat (map wbytes l).
Proof.
  intros Hl HF. unfold enc_structure, phdr. consts. pose proof (zlen_nonneg l).
  repeat match goal with |- context [if ?c then _ else _] => destruct c eqn:?; try lia end;
    rewrite wseq_bytes by reflexivity; rewrite wseq_bytes by reflexivity; rewrite wseqs_bytes by assumption;
    unfold wbytes at 1 2, wok; cbn [fst concat app];
    rewrite ?app_nil_r, ?be1_wraps, ?be2_wraps, ?be4_wraps; try reflexivity.
  unfold wrapu. rewrite Z.mod_small by lia. reflexivity.
Qed.

(** ** The encoder writes the minimal encoding of what the value denotes *)
Definition no_big_uint (v : goval) : Prop := forall z, Sub (VInt KUint z) v -> z < 2 ^ 63.

Lemma enc_penc v : wt v -> no_big_uint v -> accepted (enc v) -> wbytes (enc v) = penc (denote v).
Proof.
  induction v as [|b|k z|b|b|s|l IH|l IH|m IH|v sig fs Hs IH|] using goval_view_ind; intros W N A.
  - reflexivity.
  - cbn. now destruct b.
  - cbn [enc denote penc]. inversion W as [| |? ? Hk | | | | | | | | | | | | | | | | | | | | | |]; subst.
    destruct (kint_cases k z Hk) as [[E R]|[(-> & R & E)|(-> & R & E)]]; cbn [enc] in A.
    + rewrite E. now apply enc_int_ok.
    + rewrite E in A. discriminate.
    + specialize (N z (Sub_refl _)). lia.
  - cbn [enc denote penc]. unfold enc_float, wbytes, wok. cbn [fst concat app]. now rewrite app_nil_r.
  - cbn [enc denote penc]. unfold enc_float, wbytes, wok. cbn [fst concat app]. now rewrite app_nil_r.
  - cbn [enc denote penc] in *. apply enc_str_bytes. now apply enc_str_accepted.
  - cbn [enc denote penc] in *. apply enc_slice_accepted in A. destruct A as [AL AF].
    rewrite enc_slice_bytes by assumption. zl. f_equal. f_equal. rewrite !map_map.
    apply map_ext_in. intros x Hx. rewrite Forall_forall in IH. rewrite Forall_map, Forall_forall in AF.
    inversion W as [| | | | | |? HW| | | | | | | | | | | | | | | | | |]; subst. rewrite Forall_forall in HW.
    apply IH; auto. intros z Hz. apply N. eapply Sub_slice; eassumption.
  - cbn [enc denote penc] in *. apply enc_slice_accepted in A. destruct A as [AL AF].
    rewrite enc_slice_bytes by assumption. zl. f_equal. f_equal. rewrite !map_map.
    apply map_ext_in. intros x Hx. rewrite Forall_forall in IH. rewrite Forall_map, Forall_forall in AF.
    inversion W as [| | | | | | |? HW| | | | | | | | | | | | | | | | |]; subst. rewrite Forall_forall in HW.
    apply IH; auto. intros z Hz. apply N. eapply Sub_tslice; eassumption.
  - cbn [enc denote penc] in *. apply enc_map_accepted in A. destruct A as [AL AF].
    rewrite enc_map_bytes by assumption. zl. f_equal. f_equal. rewrite !map_map. cbn [fst snd].
    apply map_ext_in. intros [k x] Hx. cbn [fst snd]. rewrite Forall_forall in IH.
    rewrite Forall_map, Forall_forall in AF. specialize (AF _ Hx). destruct AF as [AK AV]. cbn [fst snd] in *.
    inversion W as [| | | | | | | |? HW| | | | | | | | | | | | | | | |]; subst.
    inversion HW as [? HD HK HV]; subst. rewrite Forall_forall in HV.
    f_equal.
    + apply enc_str_bytes. now apply enc_str_accepted.
    + apply (IH _ Hx); auto.
      * intros z Hz. apply N. eapply Sub_map; eassumption.
  - rewrite (enc_structure_of _ _ _ Hs) in *. rewrite (denote_structure_of _ _ _ Hs).
    apply enc_structure_accepted in A. destruct A as [AL AF].
    rewrite enc_structure_bytes by assumption. cbn [penc]. zl. f_equal. f_equal. f_equal.
    rewrite !map_map. apply map_ext_in. intros x Hx.
    rewrite Forall_forall in IH. rewrite Forall_map, Forall_forall in AF.
    pose proof (wt_fields _ _ _ Hs W) as HW. rewrite Forall_forall in HW.
    apply IH; auto. intros z Hz. apply N. eapply Sub_field; eassumption.
  - discriminate.
Qed.

(** ** Rejection (C03) *)
Lemma Unrep_struct v sig fs : structure_of v = Some (sig, fs) ->
  (Unrepresentable v <-> 2 ^ 16 <= zlen fs).
Proof. destruct v; cbn [structure_of]; intros H; inversion H; subst; reflexivity. Qed.

Lemma accepted_dec v : {accepted (enc v)} + {~ accepted (enc v)}.
Proof. unfold accepted. destruct (snd (enc v)); [right|left]; congruence. Qed.

Lemma not_Forall_ex {A} (P : A -> Prop) l : (forall x, {P x} + {~ P x}) -> ~ Forall P l -> exists x, In x l /\ ~ P x.
Proof.
  intros D H. apply Exists_Forall_neg in H; [|intros x; destruct (D x); tauto].
  apply Exists_exists in H. exact H.
Qed.

Lemma enc_rejects_iff v : wt v ->
  (~ accepted (enc v) <-> exists w, Sub w v /\ Unrepresentable w).
Proof.
  assert (leaf : forall v, (forall w, Sub w v -> w = v) -> (~ accepted (enc v) <-> Unrepresentable v) ->
                 (~ accepted (enc v) <-> exists w, Sub w v /\ Unrepresentable w)).
  { intros u HS HU. rewrite HU. split; [intros; exists u; split; [constructor|assumption]|].
    intros (w & Hw & Hu). apply HS in Hw. now subst. }
  induction v as [|b|k z|b|b|s|l IH|l IH|m IH|v sig fs Hs IH|] using goval_view_ind; intros W.
  - apply leaf; [inversion 1; subst; trivial; discriminate|]. cbn. split; [intros H; now destruct H|tauto].
  - apply leaf; [inversion 1; subst; trivial; discriminate|]. cbn. split; [intros H; now destruct H|tauto].
  - apply leaf; [inversion 1; subst; trivial; discriminate|].
    inversion W as [| |? ? Hk | | | | | | | | | | | | | | | | | | | | | |]; subst. cbn [enc].
    destruct (kint_cases k z Hk) as [[E R]|[(-> & R & E)|(-> & R & E)]]; rewrite E.
    + pose proof (proj1 (enc_int_ok z R)). split; [tauto|]. destruct k; cbn; try tauto. lia.
    + rewrite werr_accepted. cbn. tauto.
    + assert (R' : - 2 ^ 63 <= z - 2 ^ 64 < 2 ^ 63) by lia.
      pose proof (proj1 (enc_int_ok _ R')). cbn. tauto.
  - apply leaf; [inversion 1; subst; trivial; discriminate|]. cbn. split; [intros H; now destruct H|tauto].
  - apply leaf; [inversion 1; subst; trivial; discriminate|]. cbn. split; [intros H; now destruct H|tauto].
  - apply leaf; [inversion 1; subst; trivial; discriminate|]. cbn [enc Unrepresentable]. rewrite enc_str_accepted.
    unfold too_long. lia.
  - cbn [enc]. rewrite enc_slice_accepted. zl. inversion W as [| | | | | |? HW| | | | | | | | | | | | | | | | | |]; subst.
    rewrite Forall_forall in IH, HW. split.
    + intros H. destruct (Z_lt_le_dec (zlen l) (2 ^ 32)) as [L|L].
      * destruct (not_Forall_ex (fun x => accepted (enc x)) l accepted_dec) as (x & Hx & Nx).
        { intros F. apply H. split; [exact L|]. now rewrite Forall_map. }
        apply IH in Nx; auto. destruct Nx as (w & Sw & Uw). exists w. split; [|exact Uw]. eapply Sub_slice; eassumption.
      * exists (VSlice l). split; [constructor|exact L].
    + intros (w & Sw & Uw) [L F]. rewrite Forall_map, Forall_forall in F.
      inversion Sw as [|? x ? Hx Sx| | |]; subst; try discriminate.
      * cbn in Uw. unfold too_long in Uw. lia.
      * apply (IH x Hx (HW x Hx)); [exists w; tauto|]. now apply F.
  - cbn [enc]. rewrite enc_slice_accepted. zl. inversion W as [| | | | | | |? HW| | | | | | | | | | | | | | | | |]; subst.
    rewrite Forall_forall in IH, HW. split.
    + intros H. destruct (Z_lt_le_dec (zlen l) (2 ^ 32)) as [L|L].
      * destruct (not_Forall_ex (fun x => accepted (enc x)) l accepted_dec) as (x & Hx & Nx).
        { intros F. apply H. split; [exact L|]. now rewrite Forall_map. }
        apply IH in Nx; auto. destruct Nx as (w & Sw & Uw). exists w. split; [|exact Uw]. eapply Sub_tslice; eassumption.
      * exists (VTSlice l). split; [constructor|exact L].
    + intros (w & Sw & Uw) [L F]. rewrite Forall_map, Forall_forall in F.
      inversion Sw as [| |? x ? Hx Sx| |]; subst; try discriminate.
      * cbn in Uw. unfold too_long in Uw. lia.
      * apply (IH x Hx (HW x Hx)); [exists w; tauto|]. now apply F.
  - cbn [enc]. rewrite enc_map_accepted. zl. inversion W as [| | | | | | | |? HW| | | | | | | | | | | | | | | |]; subst.
    inversion HW as [? HD HK HV]; subst. rewrite Forall_forall in IH, HV. split.
    + intros H. destruct (Z_lt_le_dec (zlen m) (2 ^ 32)) as [L|L].
      * destruct (not_Forall_ex (fun kv : str * goval => zlen (fst kv) < 2 ^ 32 /\ accepted (enc (snd kv))) m) as (x & Hx & Nx).
        { intros [k x]. cbn. destruct (Z_lt_le_dec (zlen k) (2 ^ 32)), (accepted_dec x); try (left; tauto); right; lia || tauto. }
        { intros F. apply H. split; [exact L|]. rewrite Forall_map. revert F. apply Forall_impl.
          intros [k x]. unfold pair_accepted. cbn. now rewrite enc_str_accepted. }
        destruct x as [k x]. cbn in Nx. destruct (Z_lt_le_dec (zlen k) (2 ^ 32)) as [Lk|Lk].
        -- assert (Nx' : ~ accepted (enc x)) by tauto. apply (IH (k, x)) in Nx'; [|assumption|apply (HV (k, x)); assumption].
           destruct Nx' as (w & Sw & Uw). exists w. split; [|exact Uw]. eapply Sub_map; eassumption.
        -- exists (VMap m). split; [constructor|]. cbn. right. exists k, x. split; assumption.
      * exists (VMap m). split; [constructor|]. left. exact L.
    + intros (w & Sw & Uw) [L F]. rewrite Forall_map, Forall_forall in F.
      inversion Sw as [| | |? k x ? Hx Sx|]; subst; try discriminate.
      * cbn in Uw. unfold too_long in Uw. destruct Uw as [|(k & x & Hx & Lk)]; [lia|].
        apply F in Hx. destruct Hx as [Hx _]. cbn in Hx. apply enc_str_accepted in Hx. lia.
      * apply (IH (k, x) Hx (HV (k, x) Hx)); [exists w; tauto|]. now apply (F (k, x)).
  - rewrite (enc_structure_of _ _ _ Hs), enc_structure_accepted. zl.
    pose proof (wt_fields _ _ _ Hs W) as HW. rewrite Forall_forall in IH, HW. split.
    + intros H. destruct (Z_lt_le_dec (zlen fs) (2 ^ 16)) as [L|L].
      * destruct (not_Forall_ex (fun x => accepted (enc x)) fs accepted_dec) as (x & Hx & Nx).
        { intros F. apply H. split; [exact L|]. now rewrite Forall_map. }
        apply IH in Nx; auto. destruct Nx as (w & Sw & Uw). exists w. split; [|exact Uw]. eapply Sub_field; eassumption.
      * exists v. split; [constructor|]. now apply (Unrep_struct _ _ _ Hs).
    + intros (w & Sw & Uw) [L F]. rewrite Forall_map, Forall_forall in F.
      inversion Sw as [|? x ? Hx Sx|? x ? Hx Sx|? k x ? Hx Sx|? x ? sig' fs' Hs' Hx Sx]; subst; try discriminate.
      * apply (Unrep_struct _ _ _ Hs) in Uw. lia.
      * rewrite Hs in Hs'. inversion Hs'; subst. apply (IH x Hx (HW x Hx)); [exists w; tauto|]. now apply F.
  - apply leaf; [inversion 1; subst; trivial; discriminate|]. cbn [enc Unrepresentable]. rewrite werr_accepted. tauto.
Qed.
