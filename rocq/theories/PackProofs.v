(** Facts about the PackStream specification: minimal encodings, unique
    readability. *)
From Coq Require Import ZArith List Bool Lia.
From Coq Require Import ZifyBool.
From Verif Require Import GoPrims Value PackSpec PrimLemmas Encoder EncoderProofs.
Import ListNotations.
Open Scope Z_scope.

Scheme PSg_mind := Induction for PSg Sort Prop
  with PSs_mind := Induction for PSs Sort Prop
  with PSm_mind := Induction for PSm Sort Prop.
Combined Scheme PS_mutind from PSg_mind, PSs_mind, PSm_mind.

(** ** Induction on PackStream values *)
Section PvalInd.
  Variable P : pval -> Prop.
  Hypothesis Hnull : P PNull.
  Hypothesis Hbool : forall b, P (PBool b).
  Hypothesis Hint : forall z, P (PInt z).
  Hypothesis Hfloat : forall b, P (PFloat b).
  Hypothesis Hstr : forall s, P (PStr s).
  Hypothesis Hlist : forall l, Forall P l -> P (PList l).
  Hypothesis Hmap : forall m, Forall (fun kv => P (snd kv)) m -> P (PMap m).
  Hypothesis Hstruct : forall sig l, Forall P l -> P (PStruct sig l).
  Fixpoint pval_nind (p : pval) : P p :=
    let L := (fix L (l : list pval) : Forall P l :=
      match l with [] => Forall_nil P | x :: l' => Forall_cons x (pval_nind x) (L l') end) in
    let M := (fix M (m : list (str * pval)) : Forall (fun kv => P (snd kv)) m :=
      match m with [] => Forall_nil (fun kv : str * pval => P (snd kv))
      | (k, x) :: m' => Forall_cons (P := fun kv : str * pval => P (snd kv)) (k, x) (pval_nind x) (M m') end) in
    match p with
    | PNull => Hnull | PBool b => Hbool b | PInt z => Hint z | PFloat b => Hfloat b | PStr s => Hstr s
    | PList l => Hlist l (L l) | PMap m => Hmap m (M m) | PStruct sig l => Hstruct sig l (L l)
    end.
End PvalInd.

(** ** Which values have an encoding *)
Definition sz_ok (half : bool) (n : Z) : Prop :=
  if half then 0 <= n <= 127 \/ 256 <= n <= 32767 \/ 65536 <= n < 2 ^ 31 else 0 <= n < 2 ^ 32.

Definition allP {A} (P : A -> Prop) (l : list A) : Prop := fold_right (fun x acc => P x /\ acc) True l.
Lemma allP_Forall {A} (P : A -> Prop) l : allP P l <-> Forall P l.
Proof.
  induction l as [|x l IH]; cbn; [split; [constructor|trivial]|].
  unfold allP in IH. rewrite IH. split; [intros []; now constructor|inversion 1; tauto].
Qed.

Fixpoint pok (half : bool) (p : pval) : Prop :=
  match p with
  | PNull | PBool _ => True
  | PInt z => - 2 ^ 63 <= z < 2 ^ 63
  | PFloat b => 0 <= b < 2 ^ 64
  | PStr s => sz_ok half (zlen s)
  | PList l => sz_ok half (zlen l) /\ allP (pok half) l
  | PMap m => sz_ok half (zlen m) /\ allP (fun kv => sz_ok half (zlen (fst kv)) /\ pok half (snd kv)) m
  | PStruct sig l => is_byte sig /\ zlen l < 2 ^ 16 /\ allP (pok half) l
  end.

Lemma phdr_header half tiny m8 m16 m32 n : sz_ok half n ->
  Header half tiny m8 m16 (Some m32) n (phdr tiny m8 m16 m32 n).
Proof.
  unfold sz_ok, phdr. intros H.
  assert (0 <= n < 2 ^ 32) by (destruct half; lia).
  destruct (n <=? 15) eqn:E1; [apply H_tiny; lia|].
  destruct (n <=? 255) eqn:E2; [apply H_8; [destruct half; cbn; lia|apply (BE_small 1); lia]|].
  destruct (n <=? 65535) eqn:E3; [apply H_16; [destruct half; cbn; lia|apply (BE_small 2); lia]|].
  apply (H_32 _ _ _ _ _ _ m32); [reflexivity|destruct half; cbn; lia|apply (BE_small 4); lia].
Qed.

Lemma phdr_struct n : 0 <= n < 2 ^ 16 -> StructHeader n (phdr 0xB0 0xDC 0xDD 0xDD n).
Proof.
  unfold phdr. intros H.
  destruct (n <=? 15) eqn:E1; [apply H_tiny; lia|].
  destruct (n <=? 255) eqn:E2; [apply H_8; [cbn; lia|apply (BE_small 1); lia]|].
  destruct (n <=? 65535) eqn:E3; [apply H_16; [cbn; lia|apply (BE_small 2); lia]|]. lia.
Qed.

Lemma pint_PS half z : - 2 ^ 63 <= z < 2 ^ 63 -> PSg half (PInt z) (pint z).
Proof.
  intros H. unfold pint.
  destruct ((-16 <=? z) && (z <=? 127)) eqn:E1.
  { destruct (z <? 0) eqn:E0.
    - replace (be 1 z) with [z + 256]; [apply PS_tiny_neg; lia|].
      rewrite <- be_mod. change (256 ^ Z.of_nat 1) with 256.
      rewrite <- (Z_mod_plus_full z 1 256), Z.mod_small by lia.
      rewrite be1_tiny by lia. f_equal.
    - rewrite be1_tiny by lia. apply PS_tiny_pos; lia. }
  destruct ((- 2 ^ 7 <=? z) && (z <? 2 ^ 7)) eqn:E2; [apply PS_int8; apply (TC_be 1); lia|].
  destruct ((- 2 ^ 15 <=? z) && (z <? 2 ^ 15)) eqn:E3; [apply PS_int16; apply (TC_be 2); lia|].
  destruct ((- 2 ^ 31 <=? z) && (z <? 2 ^ 31)) eqn:E4; [apply PS_int32; apply (TC_be 4); lia|].
  apply PS_int64; apply (TC_be 8); lia.
Qed.

Lemma penc_PS half p : pok half p -> PSg half p (penc p).
Proof.
  induction p as [|b|z|b|s|l IH|m IH|sig l IH] using pval_nind; cbn [pok penc]; intros H.
  - constructor.
  - destruct b; constructor.
  - now apply pint_PS.
  - apply PS_float. apply (BE_small 8); lia.
  - apply PS_str. now apply phdr_header.
  - destruct H as [H1 H2]. apply PS_list; [now apply phdr_header|]. clear H1.
    rewrite allP_Forall in H2. induction IH as [|x l Hx IHl IH]; cbn [map concat]; inversion H2; subst; constructor; auto.
  - destruct H as [H1 H2]. apply PS_map; [now apply phdr_header|]. clear H1.
    rewrite allP_Forall in H2. induction IH as [|[k x] l Hx IHl IH]; cbn [map concat fst snd] in *; inversion H2; subst.
    + constructor.
    + rewrite <- app_assoc. cbn [fst snd] in *. constructor; [|tauto|auto]. apply PS_str. now apply phdr_header.
  - destruct H as (H0 & H1 & H2). apply PS_struct; [assumption|apply phdr_struct; pose proof (zlen_nonneg l); lia|]. clear H1.
    rewrite allP_Forall in H2. induction IH as [|x l Hx IHl IH]; cbn [map concat]; inversion H2; subst; constructor; auto.
Qed.

(** Accepted values denote encodable values. *)
Lemma accepted_pok v : wt v -> no_big_uint v -> accepted (enc v) -> pok false (denote v).
Proof.
  induction v as [|b|k z|b|b|s|l IH|l IH|m IH|v sig fs Hs IH|] using goval_view_ind; intros W N A.
  - exact I.
  - exact I.
  - cbn [enc denote pok] in *. inversion W as [| |? ? Hk | | | | | | | | | | | | | | | | | | | | | |]; subst.
    destruct (kint_cases k z Hk) as [[E R]|[(-> & R & E)|(-> & R & E)]].
    + exact R.
    + rewrite E in A. discriminate.
    + specialize (N z (Sub_refl _)). lia.
  - cbn [denote pok]. inversion W as [| | |? Hb| | | | | | | | | | | | | | | | | | | | |]; subst.
    unfold f32_to_f64.
    set (s := b / 2 ^ 31). set (e := (b / 2 ^ 23) mod 2 ^ 8). set (m := b mod 2 ^ 23).
    assert (Hs : 0 <= s < 2) by (unfold s; split; [apply Z.div_pos; lia|apply Z.div_lt_upper_bound; lia]).
    assert (He : 0 <= e < 2 ^ 8) by (unfold e; apply Z.mod_pos_bound; lia).
    assert (Hm : 0 <= m < 2 ^ 23) by (unfold m; apply Z.mod_pos_bound; lia).
    clearbody s e m.
    destruct (e =? 255) eqn:E1; [destruct (m =? 0) eqn:E2; [lia|]|destruct (e =? 0) eqn:E3; [destruct (m =? 0) eqn:E4; [lia|]|lia]].
    + assert (0 <= Z.lor (2 ^ 51) (m * 2 ^ 29) < 2 ^ 52); [|lia].
      split; [apply Z.lor_nonneg; lia|].
      destruct (Z.eq_dec (Z.lor (2 ^ 51) (m * 2 ^ 29)) 0) as [->|NZ]; [lia|].
      apply Z.log2_lt_pow2; [pose proof (proj2 (Z.lor_nonneg (2 ^ 51) (m * 2 ^ 29))); lia|].
      rewrite Z.log2_lor by lia.
      apply Z.max_lub_lt; [rewrite Z.log2_pow2; lia|]. 
      destruct (Z.eq_dec m 0) as [->|]; [cbn; lia|]. apply Z.log2_lt_pow2; lia.
    + pose proof (Z.log2_spec m ltac:(lia)) as [L1 L2].
      assert (K : 0 <= Z.log2 m < 23).
      { split; [apply Z.log2_nonneg|]. apply Z.log2_lt_pow2; lia. }
      set (k := Z.log2 m) in *. clearbody k.
      replace (2 ^ Z.succ k) with (2 * 2 ^ k) in L2 by (rewrite Z.pow_succ_r; lia).
      assert (0 <= (m - 2 ^ k) * 2 ^ (52 - k) < 2 ^ 52); [|lia].
      assert (Q : 2 ^ 52 = 2 ^ k * 2 ^ (52 - k)) by (rewrite <- Z.pow_add_r by lia; f_equal; lia).
      assert (0 < 2 ^ (52 - k)) by (apply Z.pow_pos_nonneg; lia). nia.
  - cbn [denote pok]. inversion W; subst; assumption.
  - cbn [enc denote pok] in *. apply enc_str_accepted in A. pose proof (zlen_nonneg s). cbn. lia.
  - cbn [enc denote pok] in *. apply enc_slice_accepted in A. destruct A as [AL AF]. zl.
    split; [cbn; pose proof (zlen_nonneg l); lia|]. rewrite allP_Forall, Forall_map. apply Forall_forall. intros x Hx.
    rewrite Forall_forall in IH. rewrite Forall_map, Forall_forall in AF.
    inversion W as [| | | | | |? HW| | | | | | | | | | | | | | | | | |]; subst. rewrite Forall_forall in HW.
    apply IH; auto. intros z Hz. apply N. eapply Sub_slice; eassumption.
  - cbn [enc denote pok] in *. apply enc_slice_accepted in A. destruct A as [AL AF]. zl.
    split; [cbn; pose proof (zlen_nonneg l); lia|]. rewrite allP_Forall, Forall_map. apply Forall_forall. intros x Hx.
    rewrite Forall_forall in IH. rewrite Forall_map, Forall_forall in AF.
    inversion W as [| | | | | | |? HW| | | | | | | | | | | | | | | | |]; subst. rewrite Forall_forall in HW.
    apply IH; auto. intros z Hz. apply N. eapply Sub_tslice; eassumption.
  - cbn [enc denote pok] in *. apply enc_map_accepted in A. destruct A as [AL AF]. zl.
    split; [cbn; pose proof (zlen_nonneg m); lia|]. rewrite allP_Forall, Forall_map. apply Forall_forall. intros [k x] Hx.
    rewrite Forall_forall in IH. rewrite Forall_map, Forall_forall in AF.
    inversion W as [| | | | | | | |? HW| | | | | | | | | | | | | | | |]; subst.
    inversion HW as [? HD HK HV]; subst. rewrite Forall_forall in HV.
    destruct (AF _ Hx) as [AK AV]. cbn [fst snd] in *. apply enc_str_accepted in AK.
    split; [cbn; pose proof (zlen_nonneg k); lia|].
    apply (IH (k, x) Hx (HV _ Hx)); [|exact AV]. intros z Hz. apply N. eapply Sub_map; eassumption.
  - rewrite (enc_structure_of _ _ _ Hs) in A. rewrite (denote_structure_of _ _ _ Hs).
    apply enc_structure_accepted in A. destruct A as [AL AF]. zl. cbn [pok]. zl.
    split; [apply Z.mod_pos_bound; lia|]. split; [exact AL|].
    rewrite allP_Forall, Forall_map. apply Forall_forall. intros x Hx.
    rewrite Forall_forall in IH. rewrite Forall_map, Forall_forall in AF.
    pose proof (wt_fields _ _ _ Hs W) as HW. rewrite Forall_forall in HW.
    apply IH; auto. intros z Hz. apply N. eapply Sub_field; eassumption.
  - discriminate.
Qed.

(** C01 *)
Lemma enc_conforms v : wt v -> no_big_uint v -> accepted (enc v) -> PS (denote v) (wbytes (enc v)).
Proof.
  intros W N A. rewrite enc_penc by assumption. apply penc_PS. now apply accepted_pok.
Qed.

(** ** Minimality (C02) *)
Lemma header_min half tiny m8 m16 m32 m32' n h : Header half tiny m8 m16 m32 n h ->
  zlen (phdr tiny m8 m16 m32' n) <= zlen h.
Proof.
  intros H. unfold phdr. destruct H as [Hn|bs Hn HB|bs Hn HB|m bs Hm Hn HB].
  - replace (n <=? 15) with true by lia. reflexivity.
  - unfold limit in Hn. zl. rewrite (BE_len _ _ _ HB).
    assert (n < 256) by (destruct half; lia).
    destruct (n <=? 15); [reflexivity||(zl; lia)|]. replace (n <=? 255) with true by lia. zl. rewrite zlen_be. lia.
  - unfold limit in Hn. zl. rewrite (BE_len _ _ _ HB).
    assert (n < 65536) by (destruct half; lia).
    destruct (n <=? 15); [zl; lia|]. destruct (n <=? 255); [zl; rewrite zlen_be; lia|].
    replace (n <=? 65535) with true by lia. zl. rewrite zlen_be. lia.
  - zl. rewrite (BE_len _ _ _ HB).
    destruct (n <=? 15); [zl; lia|]. destruct (n <=? 255); [zl; rewrite zlen_be; lia|].
    destruct (n <=? 65535); zl; rewrite zlen_be; lia.
Qed.

Lemma pint_len z : zlen (pint z) <= 9.
Proof.
  unfold pint. repeat match goal with |- context [if ?c then _ else _] => destruct c end;
    zl; rewrite ?zlen_be; lia.
Qed.

Lemma PS_minimal half :
  (forall p b, PSg half p b -> zlen (penc p) <= zlen b) /\
  (forall l b, PSs half l b -> zlen (concat (map penc l)) <= zlen b) /\
  (forall m b, PSm half m b -> zlen (concat (map (fun kv => pstr (fst kv) ++ penc (snd kv)) m)) <= zlen b).
Proof.
  apply PS_mutind; intros; cbn [penc map concat]; try (cbn; lia).
  - unfold pint. replace ((-16 <=? z) && (z <=? 127)) with true by lia. rewrite zlen_be. cbn. lia.
  - unfold pint. replace ((-16 <=? z) && (z <=? 127)) with true by lia. rewrite zlen_be. cbn. lia.
  - zl. rewrite (TC_len _ _ _ t). destruct t as [t _]. unfold pint.
    destruct ((-16 <=? z) && (z <=? 127)); [rewrite zlen_be; lia|].
    replace ((- 2 ^ 7 <=? z) && (z <? 2 ^ 7)) with true by lia. zl. rewrite zlen_be. lia.
  - zl. rewrite (TC_len _ _ _ t). destruct t as [t _]. unfold pint.
    destruct ((-16 <=? z) && (z <=? 127)); [rewrite zlen_be; lia|].
    destruct ((- 2 ^ 7 <=? z) && (z <? 2 ^ 7)); [zl; rewrite zlen_be; lia|].
    replace ((- 2 ^ 15 <=? z) && (z <? 2 ^ 15)) with true by lia. zl. rewrite zlen_be. lia.
  - zl. rewrite (TC_len _ _ _ t). destruct t as [t _]. unfold pint.
    destruct ((-16 <=? z) && (z <=? 127)); [rewrite zlen_be; lia|].
    destruct ((- 2 ^ 7 <=? z) && (z <? 2 ^ 7)); [zl; rewrite zlen_be; lia|].
    destruct ((- 2 ^ 15 <=? z) && (z <? 2 ^ 15)); [zl; rewrite zlen_be; lia|].
    replace ((- 2 ^ 31 <=? z) && (z <? 2 ^ 31)) with true by lia. zl. rewrite zlen_be. lia.
  - pose proof (pint_len z). zl. rewrite (TC_len _ _ _ t). lia.
  - zl. rewrite (BE_len _ _ _ b). rewrite zlen_be. lia.
  - unfold pstr. zl. apply (header_min _ _ _ _ _ 0xD2) in s0. lia.
  - zl. apply (header_min _ _ _ _ _ 0xD6) in l0. lia.
  - zl. apply (header_min _ _ _ _ _ 0xDA) in m0. lia.
  - zl. apply (header_min _ _ _ _ _ 0xDD) in s. lia.
  - zl. lia.
  - cbn [fst snd penc] in *. zl. lia.
Qed.

(** C02 *)
Lemma enc_minimal v b : wt v -> no_big_uint v -> accepted (enc v) ->
  PS (denote v) b -> zlen (wbytes (enc v)) <= zlen b.
Proof. intros W N A H. rewrite enc_penc by assumption. now apply (proj1 (PS_minimal false)). Qed.

(** ** Unique readability (C05): a reference parser for the whole format *)
Definition prd (n : Z) (b : bytes) : option (bytes * bytes) :=
  if zlen b <? n then None else Some (ztake n b, zdrop n b).

Fixpoint pdec (f : nat) (b : bytes) {struct f} : option (pval * bytes) :=
  match f with
  | O => None
  | S f =>
    let str n r := match prd n r with Some (s, r) => Some (PStr s, r) | None => None end in
    let lst n r := match pdec_n f n r with Some (l, r) => Some (PList l, r) | None => None end in
    let mp n r := match pdec_m f n r with Some (l, r) => Some (PMap l, r) | None => None end in
    let st n r := match r with
                  | sig :: r => match pdec_n f n r with Some (l, r) => Some (PStruct sig l, r) | None => None end
                  | [] => None end in
    let sized (k : Z) (g : Z -> bytes -> option (pval * bytes)) r :=
      match prd k r with Some (x, r) => g (ube x) r | None => None end in
    match b with
    | [] => None
    | m :: r =>
      if m <? 0x80 then Some (PInt m, r)
      else if m <? 0x90 then str (m - 0x80) r
      else if m <? 0xA0 then lst (m - 0x90) r
      else if m <? 0xB0 then mp (m - 0xA0) r
      else if m <? 0xC0 then st (m - 0xB0) r
      else if m =? 0xC0 then Some (PNull, r)
      else if m =? 0xC1 then match prd 8 r with Some (x, r) => Some (PFloat (ube x), r) | None => None end
      else if m =? 0xC2 then Some (PBool false, r)
      else if m =? 0xC3 then Some (PBool true, r)
      else if m =? 0xC8 then match prd 1 r with Some (x, r) => Some (PInt (sbe x), r) | None => None end
      else if m =? 0xC9 then match prd 2 r with Some (x, r) => Some (PInt (sbe x), r) | None => None end
      else if m =? 0xCA then match prd 4 r with Some (x, r) => Some (PInt (sbe x), r) | None => None end
      else if m =? 0xCB then match prd 8 r with Some (x, r) => Some (PInt (sbe x), r) | None => None end
      else if m =? 0xD0 then sized 1 str r
      else if m =? 0xD1 then sized 2 str r
      else if m =? 0xD2 then sized 4 str r
      else if m =? 0xD4 then sized 1 lst r
      else if m =? 0xD5 then sized 2 lst r
      else if m =? 0xD6 then sized 4 lst r
      else if m =? 0xD8 then sized 1 mp r
      else if m =? 0xD9 then sized 2 mp r
      else if m =? 0xDA then sized 4 mp r
      else if m =? 0xDC then sized 1 st r
      else if m =? 0xDD then sized 2 st r
      else if m <? 0xF0 then None
      else Some (PInt (m - 256), r)
    end
  end
with pdec_n (f : nat) (n : Z) (b : bytes) {struct f} : option (list pval * bytes) :=
  match f with
  | O => None
  | S f => if n <=? 0 then Some ([], b) else
           match pdec f b with
           | Some (p, r) => match pdec_n f (n - 1) r with Some (l, r) => Some (p :: l, r) | None => None end
           | None => None
           end
  end
with pdec_m (f : nat) (n : Z) (b : bytes) {struct f} : option (list (str * pval) * bytes) :=
  match f with
  | O => None
  | S f => if n <=? 0 then Some ([], b) else
           match pdec f b with
           | Some (PStr k, r) =>
             match pdec f r with
             | Some (p, r) => match pdec_m f (n - 1) r with Some (l, r) => Some ((k, p) :: l, r) | None => None end
             | None => None
             end
           | _ => None
           end
  end.

Lemma prd_app n a r : zlen a = n -> prd n (a ++ r) = Some (a, r).
Proof.
  intros H. unfold prd. zl. pose proof (zlen_nonneg r).
  replace (zlen a + zlen r <? n) with false by lia. now rewrite ztake_app', zdrop_app'.
Qed.

Ltac pick := repeat match goal with
  | |- context [if ?c then _ else _] =>
      first [ replace c with true by lia | replace c with false by lia ]; cbv iota end.

Lemma PSg_nonempty h p b : PSg h p b -> (0 < length b)%nat.
Proof.
  intros p0. destruct p0; cbn; try rewrite app_length; try lia; try (destruct H; cbn; lia).
Qed.

Lemma pdec_complete half :
  (forall p b, PSg half p b -> forall f r, (2 * length b < f)%nat -> pdec f (b ++ r) = Some (p, r)) /\
  (forall l b, PSs half l b -> forall f r, (2 * length b + 1 < f)%nat -> pdec_n f (zlen l) (b ++ r) = Some (l, r)) /\
  (forall m b, PSm half m b -> forall f r, (2 * length b + 1 < f)%nat -> pdec_m f (zlen m) (b ++ r) = Some (m, r)).
Proof.
  apply PS_mutind; intros.
  1-3: destruct f; [cbn in *; lia|reflexivity].
  - destruct f; [cbn in *; lia|]. cbn [app pdec]. pick. reflexivity.
  - destruct f; [cbn in *; lia|]. cbn [app pdec]. pick. do 2 f_equal. f_equal. lia.
  - destruct f; [cbn in *; lia|]. cbn [app pdec]. pick. rewrite prd_app by (eapply TC_len; eassumption).
    rewrite (TC_sbe 1 z) by (trivial; lia). reflexivity.
  - destruct f; [cbn in *; lia|]. cbn [app pdec]. pick. rewrite prd_app by (eapply TC_len; eassumption).
    rewrite (TC_sbe 2 z) by (trivial; lia). reflexivity.
  - destruct f; [cbn in *; lia|]. cbn [app pdec]. pick. rewrite prd_app by (eapply TC_len; eassumption).
    rewrite (TC_sbe 4 z) by (trivial; lia). reflexivity.
  - destruct f; [cbn in *; lia|]. cbn [app pdec]. pick. rewrite prd_app by (eapply TC_len; eassumption).
    rewrite (TC_sbe 8 z) by (trivial; lia). reflexivity.
  - destruct f; [cbn in *; lia|]. cbn [app pdec]. pick. rewrite prd_app by (eapply BE_len; eassumption).
    rewrite (BE_ube 8 bits) by trivial. reflexivity.
  - destruct f; [cbn in *; lia|]. rewrite <- app_assoc.
    destruct s0 as [Hn|bs Hn HB|bs Hn HB|m bs Hm Hn HB]; try (injection Hm as <-);
      cbn [app pdec]; rewrite <- ?app_assoc; pick;
      try (rewrite prd_app by (eapply BE_len; eassumption); erewrite BE_ube by eassumption).
    all: rewrite prd_app by lia; reflexivity.
  - destruct f; [cbn in *; lia|]. rewrite <- app_assoc. rewrite app_length in *.
    destruct l0 as [Hn|x Hn HB|x Hn HB|m x Hm Hn HB]; try (injection Hm as <-);
      cbn [app pdec]; rewrite <- ?app_assoc; pick;
      try (rewrite prd_app by (eapply BE_len; eassumption); erewrite BE_ube by eassumption).
    replace (144 + zlen l - 144) with (zlen l) by lia.
    all: cbn [length] in *; rewrite H by lia; reflexivity.
  - destruct f; [cbn in *; lia|]. rewrite <- app_assoc. rewrite app_length in *.
    destruct m0 as [Hn|x Hn HB|x Hn HB|mm x Hm Hn HB]; try (injection Hm as <-);
      cbn [app pdec]; rewrite <- ?app_assoc; pick;
      try (rewrite prd_app by (eapply BE_len; eassumption); erewrite BE_ube by eassumption).
    replace (160 + zlen m - 160) with (zlen m) by lia.
    all: cbn [length] in *; rewrite H by lia; reflexivity.
  - destruct f; [cbn in *; lia|]. rewrite <- app_assoc. rewrite app_length in *. cbn [length] in *.
    destruct s as [Hn|x Hn HB|x Hn HB|mm x Hm Hn HB]; try discriminate;
      cbn [app pdec]; rewrite <- ?app_assoc; pick;
      try (rewrite prd_app by (eapply BE_len; eassumption); erewrite BE_ube by eassumption);
      cbn [app].
    replace (176 + zlen l - 176) with (zlen l) by lia.
    all: cbn [length] in *; rewrite H by lia; reflexivity.
  - destruct f; [cbn in *; lia|reflexivity].
  - destruct f; [cbn in *; lia|]. cbn [pdec_n]. rewrite app_length in *. zl. pose proof (zlen_nonneg l).
    pick. rewrite <- app_assoc. rewrite H by lia.
    replace (1 + zlen l - 1) with (zlen l) by lia.
    apply PSg_nonempty in p0.
    rewrite H0 by lia. reflexivity.
  - destruct f; [cbn in *; lia|reflexivity].
  - destruct f; [cbn in *; lia|]. cbn [pdec_m]. rewrite !app_length in *. zl. pose proof (zlen_nonneg m).
    pick. rewrite <- !app_assoc. rewrite H by lia. rewrite H0 by lia.
    replace (1 + zlen m - 1) with (zlen m) by lia.
    apply PSg_nonempty in p0.
    rewrite H1 by lia. reflexivity.
Qed.

Lemma PS_unique h h' p p' b b' r r' :
  PSg h p b -> PSg h' p' b' -> b ++ r = b' ++ r' -> p = p' /\ b = b' /\ r = r'.
Proof.
  intros H H' E.
  pose proof (proj1 (pdec_complete h) p b H (S (2 * length b + 2 * length b')) r ltac:(lia)) as D.
  pose proof (proj1 (pdec_complete h') p' b' H' (S (2 * length b + 2 * length b')) r' ltac:(lia)) as D'.
  rewrite E, D' in D. injection D as -> ->. repeat split. eapply app_inv_tail; eassumption.
Qed.

(** C05 *)
Lemma enc_prefix_free v w r r' :
  wt v -> no_big_uint v -> accepted (enc v) -> wt w -> no_big_uint w -> accepted (enc w) ->
  wbytes (enc v) ++ r = wbytes (enc w) ++ r' -> denote v = denote w /\ r = r'.
Proof.
  intros W1 N1 A1 W2 N2 A2 E.
  destruct (PS_unique _ _ _ _ _ _ _ _ (enc_conforms v W1 N1 A1) (enc_conforms w W2 N2 A2) E) as (? & _ & ?).
  tauto.
Qed.
