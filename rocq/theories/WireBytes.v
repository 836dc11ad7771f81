(** Encodings of well-typed values consist of bytes; one way of serialising that works
    for every value that has an encoding. *)
From Coq Require Import ZArith List Bool Lia.
From Coq Require Import ZifyBool.
From Verif Require Import GoPrims Value PackSpec PrimLemmas Encoder EncoderProofs PackProofs WireSpec.
Import ListNotations.
Open Scope Z_scope.

(** All strings in it consist of bytes. *)
Inductive pbytes : pval -> Prop :=
| pb_null : pbytes PNull
| pb_bool b : pbytes (PBool b)
| pb_int z : pbytes (PInt z)
| pb_float b : pbytes (PFloat b)
| pb_str s : bytes_ok s -> pbytes (PStr s)
| pb_list l : Forall pbytes l -> pbytes (PList l)
| pb_map m : Forall (fun kv => bytes_ok (fst kv)) m -> Forall (fun kv => pbytes (snd kv)) m -> pbytes (PMap m)
| pb_struct sig l : Forall pbytes l -> pbytes (PStruct sig l).
Lemma wt_pbytes v : wt v -> pbytes (denote v).
Proof.
  induction v as [|b|k z|b|b|s|l IH|l IH|m IH|v sig fs Hs IH|] using goval_view_ind; intros W; cbn [denote]; try constructor.
  - now inversion W.
  - apply Forall_map. inversion W as [| | | | | |? F| | | | | | | | | | | | | | | | | |]; subst. rewrite Forall_forall in *. auto.
  - apply Forall_map. inversion W as [| | | | | | |? F| | | | | | | | | | | | | | | | |]; subst. rewrite Forall_forall in *. auto.
  - apply Forall_map. inversion W as [| | | | | | | |? HW| | | | | | | | | | | | | | | |]; subst. destruct HW as [? ? HK ?]. exact HK.
  - apply Forall_map. inversion W as [| | | | | | | |? HW| | | | | | | | | | | | | | | |]; subst. destruct HW as [? ? HK HV].
    rewrite Forall_forall in *. intros kv Hi. cbn [snd]. auto.
  - rewrite (denote_structure_of _ _ _ Hs). constructor. apply Forall_map. pose proof (wt_fields _ _ _ Hs W) as F. rewrite Forall_forall in *. auto.
Qed.
Lemma Header_bytes half t m8 m16 m32 n h : Header half t m8 m16 m32 n h -> 0 <= t <= 240 -> is_byte m8 -> is_byte m16 ->
  match m32 with Some m => is_byte m | None => True end -> Forall is_byte h.
Proof.
  intros H Ht H8 H16 H32. destruct H as [Hn|bs _ (_ & B & _)|bs _ (_ & B & _)|m bs E _ (_ & B & _)]; try (constructor; assumption).
  - constructor; [unfold is_byte; lia|constructor].
  - subst m32. now constructor.
Qed.
Ltac byte := unfold is_byte; lia.
Lemma PS_bytes half :
  (forall p b, PSg half p b -> pbytes p -> Forall is_byte b) /\
  (forall l b, PSs half l b -> Forall pbytes l -> Forall is_byte b) /\
  (forall m b, PSm half m b -> Forall (fun kv => bytes_ok (fst kv)) m -> Forall (fun kv => pbytes (snd kv)) m -> Forall is_byte b).
Proof.
  apply PS_mutind; intros.
  1-5: constructor; [byte|constructor].
  1-4: constructor; [byte|]; destruct t as (_ & _ & B & _); exact B.
  - constructor; [byte|]. destruct b as (_ & B & _). exact B.
  - apply Forall_app. inversion H; subst. split; [|assumption]. eapply Header_bytes; [eassumption|lia|byte|byte|byte].
  - apply Forall_app. inversion H0; subst. split; [|auto]. eapply Header_bytes; [eassumption|lia|byte|byte|byte].
  - apply Forall_app. inversion H0; subst. split; [|auto]. eapply Header_bytes; [eassumption|lia|byte|byte|byte].
  - apply Forall_app. inversion H0; subst. split; [|constructor; auto]. eapply Header_bytes; [eassumption|lia|byte|byte|exact I].
  - constructor.
  - inversion H1; subst. apply Forall_app. auto.
  - constructor.
  - inversion H2; inversion H3; subst. cbn [fst snd] in *. apply Forall_app. split; [apply H; now constructor|]. apply Forall_app. auto.
Qed.
Lemma Frame_bytes b w : Frame b w -> Forall is_byte b -> Forall is_byte w.
Proof.
  intros (chs & H & <-). induction H as [|c h cs wire Hc (_ & Hh & _) HC IH]; intros B.
  - repeat constructor; byte.
  - cbn [concat] in B. apply Forall_app in B. destruct B as (B1 & B2). apply Forall_app. split; [exact Hh|]. apply Forall_app. auto.
Qed.
Lemma answer_bytes v b w : wt v -> PS_half (denote v) b -> Frame b w -> Forall is_byte w.
Proof. intros W P F. apply (Frame_bytes b w F). exact (proj1 (PS_bytes true) _ _ P (wt_pbytes v W)). Qed.

(** Every size in four bytes, every number in eight, one chunk for every byte. *)
Fixpoint wide (p : pval) : bytes :=
  match p with
  | PNull => [0xC0]
  | PBool b => [if b then 0xC3 else 0xC2]
  | PInt z => 0xCB :: be 8 z
  | PFloat b => 0xC1 :: be 8 b
  | PStr s => (0xD2 :: be 4 (zlen s)) ++ s
  | PList l => (0xD6 :: be 4 (zlen l)) ++ concat (map wide l)
  | PMap m => (0xDA :: be 4 (zlen m)) ++ concat (map (fun kv => ((0xD2 :: be 4 (zlen (fst kv))) ++ fst kv) ++ wide (snd kv)) m)
  | PStruct sig l => (0xDD :: be 2 (zlen l)) ++ sig :: concat (map wide l)
  end.
Definition byte_chunks (b : bytes) : bytes := concat (map (fun x => [0; 1; x]) b) ++ [0; 0].
Definition plain (n : nat) (v : goval) : bytes := byte_chunks (wide (denote v)).
Lemma Header_limit t m8 m16 m n h : Header true t m8 m16 (Some m) n h -> 0 <= n < 2 ^ 31.
Proof. intros H. destruct H; unfold limit in *; cbn in *; lia. Qed.
Lemma wide_header t m8 m16 m n h : Header true t m8 m16 (Some m) n h -> Header true t m8 m16 (Some m) n (m :: be 4 n).
Proof. intros H. apply Header_limit in H. apply H_32; [reflexivity|unfold limit; cbn; lia|]. apply (BE_small 4); cbn; lia. Qed.
Lemma wide_TC k z bs : 0 < k <= 8 -> TC k z bs -> TC 8 z (be 8 z).
Proof.
  intros Hk (H & _). assert (R : - 2 ^ 63 <= z < 2 ^ 63) by (pose proof (Z.pow_le_mono_r 2 (8 * k - 1) 63 ltac:(lia) ltac:(lia)); lia).
  split; [exact R|]. replace (if z <? 0 then z + 2 ^ (8 * 8) else z) with (z mod 256 ^ 8); [apply (BE_be 8); lia|].
  change (256 ^ 8) with (2 ^ 64). change (8 * 8) with 64. destruct (z <? 0) eqn:C.
  - symmetry. apply Z.mod_unique_pos with (q := -1); lia.
  - apply Z.mod_small. lia.
Qed.
Lemma wide_PS :
  (forall p b, PSg true p b -> PSg true p (wide p)) /\
  (forall l b, PSs true l b -> PSs true l (concat (map wide l))) /\
  (forall m b, PSm true m b -> PSm true m (concat (map (fun kv => ((0xD2 :: be 4 (zlen (fst kv))) ++ fst kv) ++ wide (snd kv)) m))).
Proof.
  apply PS_mutind; intros; cbn [wide map concat]; try (constructor; fail).
  - apply PS_int64. apply (wide_TC 1 z (be 1 z)); [lia|]. split; [lia|]. replace (z <? 0) with false by lia. apply (BE_small 1); cbn; lia.
  - apply PS_int64. apply (wide_TC 1 z (be 1 (z + 256))); [lia|]. split; [lia|]. replace (z <? 0) with true by lia. apply (BE_small 1); cbn; lia.
  - apply PS_int64. eapply (wide_TC 1); [lia|eassumption].
  - apply PS_int64. eapply (wide_TC 2); [lia|eassumption].
  - apply PS_int64. eapply (wide_TC 4); [lia|eassumption].
  - apply PS_int64. eapply (wide_TC 8); [lia|eassumption].
  - apply PS_float. destruct b as (L & B & V). rewrite <- V. apply (BE_small 8); [lia|]. rewrite <- L. now apply be_value_bound.
  - apply PS_str. eapply wide_header. eassumption.
  - apply PS_list; [|assumption]. eapply wide_header. eassumption.
  - apply PS_map; [|assumption]. eapply wide_header. eassumption.
  - apply PS_struct; [assumption| |assumption]. assert (Hn : 0 <= zlen l < 2 ^ 16) by (destruct s; unfold limit in *; cbn in *; try lia; discriminate).
    apply H_16; [unfold limit; cbn; lia|]. apply (BE_small 2); cbn; lia.
  - constructor; assumption.
  - cbn [fst snd]. rewrite <- app_assoc. constructor; assumption.
Qed.
Lemma byte_chunks_frame b : Frame b (byte_chunks b).
Proof.
  exists (map (fun x => [x]) b). split; [|induction b; cbn; congruence]. unfold byte_chunks. induction b as [|x b IH]; [constructor|].
  cbn [map concat]. rewrite <- app_assoc. change ([0; 1; x] ++ ?r) with ([0; 1] ++ [x] ++ r). constructor; [reflexivity| |exact IH].
  split; [reflexivity|]. split; [repeat constructor; byte|reflexivity].
Qed.
Lemma plain_ok : ser_ok plain.
Proof.
  intros n v (_ & _ & b & H). exists (wide (denote v)). split; [exact (proj1 wide_PS _ _ H)|apply byte_chunks_frame].
Qed.
