(** The decoder of Decoder.v once more, with what it asks the allocator for and how deep it recurses. *)
From Coq Require Import ZArith List Bool Lia.
From Coq Require Import ZifyBool.
From Verif Require Import GoPrims Value PrimLemmas Decoder.
Import ListNotations.
Open Scope Z_scope.

(** [slots]: the sum of the lengths given to make() for slices and maps and of the lengths of the strings made.
    A slot of a []interface{} or []string has 16 bytes.  [depth]: calls of Decoder.decode on the stack. *)
Record cost := Cost { slots : Z; depth : Z }.
Definition free : cost := Cost 0 0.
Definition costs (A : Type) : Type := dres A * cost.
Definition at_no_cost {A} (x : dres A) : costs A := (x, free).
Definition make_slots {A} (n : Z) (x : costs A) : costs A := (fst x, Cost (n + slots (snd x)) (depth (snd x))).
(** a call of decode *)
Definition one_deeper {A} (x : costs A) : costs A := (fst x, Cost (slots (snd x)) (1 + depth (snd x))).
Definition cbind {A B} (x : costs A) (g : A -> bytes -> costs B) : costs B :=
  match fst x with
  | DOk a r => let y := g a r in
               (fst y, Cost (slots (snd x) + slots (snd y)) (Z.max (depth (snd x)) (depth (snd y))))
  | DErr e => (DErr e, snd x)
  | DPanic => (DPanic, snd x)
  | DFuel => (DFuel, snd x)
  end.

Definition as_int64_c {A} (v : goval) (k : Z -> costs A) : costs A :=
  match v with VInt KInt64 z => k z | _ => at_no_cost DPanic end.
Definition as_str_c {A} (v : goval) (k : str -> costs A) : costs A :=
  match v with VStr s => k s | _ => at_no_cost (DErr DEType) end.
Definition as_map_c {A} (v : goval) (k : list (str * goval) -> costs A) : costs A :=
  match v with VMap m => k m | _ => at_no_cost (DErr DEType) end.
Definition as_slice_c {A} (v : goval) (k : list goval -> costs A) : costs A :=
  match v with VSlice l => k l | _ => at_no_cost (DErr DEType) end.

(** string(buffer.Next(size)) copies what Next returns (decoder.go:160, 166, 172, 178). *)
Definition next_str_c (size : Z) (b : bytes) : costs goval :=
  if size <? 0 then at_no_cost DPanic else make_slots (zlen (ztake size b)) (at_no_cost (next_str size b)).

Section Decode.
Variable mk_panics : bool.

(** decoder.go:101-529, as [dec] in Decoder.v, with the calls of make: decoder.go:250, 263; util.go:9, 21, 29, 53. *)
Fixpoint cdec (f : nat) (b : bytes) {struct f} : costs goval :=
  one_deeper
  match f with
  | O => at_no_cost DFuel
  | S f =>
    match b with
    | [] => at_no_cost (DErr DEMarkerEOF)
    | m :: r =>
      let markerInt := wraps 8 m in
      if m =? 0xC0 then at_no_cost (DOk VNil r)
      else if m =? 0xC3 then at_no_cost (DOk (VBool true) r)
      else if m =? 0xC2 then at_no_cost (DOk (VBool false) r)
      else if (-16 <=? markerInt) && (markerInt <=? 127) then at_no_cost (DOk (VInt KInt64 (wraps 8 m)) r)
      else if m =? 0xC8 then at_no_cost (dbind (rd_int_scalar 1 r) (fun z r => DOk (VInt KInt64 z) r))
      else if m =? 0xC9 then at_no_cost (dbind (rd_int_scalar 2 r) (fun z r => DOk (VInt KInt64 z) r))
      else if m =? 0xCA then at_no_cost (dbind (rd_int_scalar 4 r) (fun z r => DOk (VInt KInt64 z) r))
      else if m =? 0xCB then at_no_cost (dbind (rd_int_scalar 8 r) (fun z r => DOk (VInt KInt64 z) r))
      else if m =? 0xC1 then at_no_cost (dbind (rd_scalar 8 r) (fun x r => DOk (VF64 (ube x)) r))
      else if (0x80 <=? m) && (m <=? 0x80 + 0x0F) then
        let size := m - 0x80 in
        if size =? 0 then at_no_cost (DOk (VStr []) r) else next_str_c size r
      else if m =? 0xD0 then cbind (at_no_cost (rd_int 1 r)) next_str_c
      else if m =? 0xD1 then cbind (at_no_cost (rd_int 2 r)) next_str_c
      else if m =? 0xD2 then cbind (at_no_cost (rd_int 4 r)) next_str_c
      else if (0x90 <=? m) && (m <=? 0x90 + 0x0F) then cdec_slice f (m - 0x90) r
      else if m =? 0xD4 then cbind (at_no_cost (rd_int 1 r)) (cdec_slice f)
      else if m =? 0xD5 then cbind (at_no_cost (rd_int 2 r)) (cdec_slice f)
      else if m =? 0xD6 then cbind (at_no_cost (rd_int 4 r)) (cdec_slice f)
      else if (0xA0 <=? m) && (m <=? 0xA0 + 0x0F) then cdec_map f (m - 0xA0) r
      else if m =? 0xD8 then cbind (at_no_cost (rd_int 1 r)) (cdec_map f)
      else if m =? 0xD9 then cbind (at_no_cost (rd_int 2 r)) (cdec_map f)
      else if m =? 0xDA then cbind (at_no_cost (rd_int 4 r)) (cdec_map f)
      else if (0xB0 <=? m) && (m <=? 0xB0 + 0x0F) then cdec_struct f r
      else if m =? 0xDC then cbind (at_no_cost (rd_int 1 r)) (fun _ r => cdec_struct f r)
      else if m =? 0xDD then cbind (at_no_cost (rd_int 2 r)) (fun _ r => cdec_struct f r)
      else at_no_cost (DErr DEMarker)
    end
  end
with cdec_slice (f : nat) (size : Z) (b : bytes) {struct f} : costs goval :=
  match f with
  | O => at_no_cost DFuel
  | S f =>
    if size <? 0 then at_no_cost DPanic
    else make_slots size (cbind (cdec_n f size b) (fun l r => at_no_cost (DOk (VSlice l) r)))
  end
with cdec_n (f : nat) (n : Z) (b : bytes) {struct f} : costs (list goval) :=
  match f with
  | O => at_no_cost DFuel
  | S f =>
    if n <=? 0 then at_no_cost (DOk [] b)
    else cbind (cdec f b) (fun v r =>
         cbind (cdec_n f (n - 1) r) (fun l r => at_no_cost (DOk (v :: l) r)))
  end
with cdec_map (f : nat) (size : Z) (b : bytes) {struct f} : costs goval :=
  match f with
  | O => at_no_cost DFuel
  | S f =>
    if (size <? 0) && mk_panics then at_no_cost DPanic
    else make_slots (Z.max 0 size) (cbind (cdec_m f size [] b) (fun m r => at_no_cost (DOk (VMap m) r)))
  end
with cdec_m (f : nat) (n : Z) (acc : list (str * goval)) (b : bytes) {struct f}
  : costs (list (str * goval)) :=
  match f with
  | O => at_no_cost DFuel
  | S f =>
    if n <=? 0 then at_no_cost (DOk acc b)
    else cbind (cdec f b) (fun k r =>
         cbind (cdec f r) (fun v r =>
         match k with
         | VStr s => cdec_m f (n - 1) (mput s v acc) r
         | _ => at_no_cost (DErr DEKey)
         end))
  end
with cdec_struct (f : nat) (b : bytes) {struct f} : costs goval :=
  match f with
  | O => at_no_cost DFuel
  | S f =>
    match b with
    | [] => at_no_cost (DErr DEMarkerEOF)
    | sig :: r =>
      if sig =? 0x4E then
        cbind (cdec f r) (fun i r => as_int64_c i (fun id =>
        cbind (cdec f r) (fun l r => as_slice_c l (fun ls =>
        make_slots (zlen ls)
        match to_strings ls with
        | None => at_no_cost (DErr DEType)
        | Some labels =>
          cbind (cdec f r) (fun p r => as_map_c p (fun props =>
          at_no_cost (DOk (VNode id labels props) r)))
        end))))
      else if sig =? 0x52 then
        cbind (cdec f r) (fun i r => as_int64_c i (fun id =>
        cbind (cdec f r) (fun i r => as_int64_c i (fun s =>
        cbind (cdec f r) (fun i r => as_int64_c i (fun e =>
        cbind (cdec f r) (fun t r => as_str_c t (fun ty =>
        cbind (cdec f r) (fun p r => as_map_c p (fun props =>
        at_no_cost (DOk (VRel id s e ty props) r)))))))))))
      else if sig =? 0x50 then
        cbind (cdec f r) (fun n r => as_slice_c n (fun ns =>
        make_slots (zlen ns)
        (if forallb is_node ns then
          cbind (cdec f r) (fun x r => as_slice_c x (fun rs =>
          make_slots (zlen rs)
          (if forallb is_urel rs then
            cbind (cdec f r) (fun q r => as_slice_c q (fun qs =>
            make_slots (zlen qs)
            match to_ints qs with
            | None => at_no_cost DPanic
            | Some seq => at_no_cost (DOk (VPath ns rs seq) r)
            end))
          else at_no_cost (DErr DEType))))
        else at_no_cost (DErr DEType))))
      else if sig =? 0x72 then
        cbind (cdec f r) (fun i r => as_int64_c i (fun id =>
        cbind (cdec f r) (fun t r => as_str_c t (fun ty =>
        cbind (cdec f r) (fun p r => as_map_c p (fun props =>
        at_no_cost (DOk (VURel id ty props) r)))))))
      else if sig =? 0x71 then
        cbind (cdec f r) (fun l r => as_slice_c l (fun fs => at_no_cost (DOk (VRecord fs) r)))
      else if sig =? 0x7F then
        cbind (cdec f r) (fun m r => as_map_c m (fun md => at_no_cost (DOk (VFailure md) r)))
      else if sig =? 0x7E then at_no_cost (DOk VIgnored r)
      else if sig =? 0x70 then
        cbind (cdec f r) (fun m r => as_map_c m (fun md => at_no_cost (DOk (VSuccess md) r)))
      else if sig =? 0x0E then at_no_cost (DOk VAckFailure r)
      else if sig =? 0x2F then at_no_cost (DOk VDiscardAll r)
      else if sig =? 0x3F then at_no_cost (DOk VPullAll r)
      else if sig =? 0x0F then at_no_cost (DOk VReset r)
      else at_no_cost (DErr DESig)
    end
  end.

Definition cdecode (b : bytes) : costs goval := cdec (decode_fuel b) b.

(** ** Apart from the cost it is the same decoder *)
Lemma fst_cbind {A B} (x : costs A) (g : A -> bytes -> costs B) (y : dres A) (h : A -> bytes -> dres B) :
  fst x = y -> (forall a r, fst (g a r) = h a r) -> fst (cbind x g) = dbind y h.
Proof. intros <- H. unfold cbind, dbind. destruct (fst x); cbn; auto. Qed.

Lemma fst_if {A} (c : bool) (x y : costs A) (x' y' : dres A) : fst x = x' -> fst y = y' ->
  fst (if c then x else y) = if c then x' else y'.
Proof. now destruct c. Qed.

Lemma fst_as_int64 {A} v (k : Z -> costs A) k' : (forall z, fst (k z) = k' z) -> fst (as_int64_c v k) = as_int64 v k'.
Proof. intros H. unfold as_int64_c, as_int64. destruct v; try reflexivity. destruct k0; try reflexivity. apply H. Qed.
Lemma fst_as_str {A} v (k : str -> costs A) k' : (forall z, fst (k z) = k' z) -> fst (as_str_c v k) = as_str v k'.
Proof. intros H. destruct v; try reflexivity. apply H. Qed.
Lemma fst_as_map {A} v (k : _ -> costs A) k' : (forall z, fst (k z) = k' z) -> fst (as_map_c v k) = as_map v k'.
Proof. intros H. destruct v; try reflexivity. apply H. Qed.
Lemma fst_as_slice {A} v (k : _ -> costs A) k' : (forall z, fst (k z) = k' z) -> fst (as_slice_c v k) = as_slice v k'.
Proof. intros H. destruct v; try reflexivity. apply H. Qed.

Lemma fst_next_str size b : fst (next_str_c size b) = next_str size b.
Proof. unfold next_str_c, next_str. now destruct (size <? 0). Qed.

Ltac erase :=
  repeat first
    [ reflexivity
    | assumption
    | apply fst_next_str
    | match goal with
      | |- fst (if _ then _ else _) = _ => apply fst_if
      | |- fst (one_deeper _) = _ => change (fst (one_deeper ?x)) with (fst x)
      | |- fst (make_slots _ _) = _ => cbn [fst make_slots]
      | |- fst (cbind _ _) = _ => apply fst_cbind; [|intros]
      | |- fst (as_int64_c _ _) = _ => apply fst_as_int64; intros
      | |- fst (as_str_c _ _) = _ => apply fst_as_str; intros
      | |- fst (as_map_c _ _) = _ => apply fst_as_map; intros
      | |- fst (as_slice_c _ _) = _ => apply fst_as_slice; intros
      | |- fst (match ?x with _ => _ end) = _ => destruct x
      | H : forall _, _ |- _ => apply H
      end ].

Lemma erased f :
  (forall b, fst (cdec f b) = dec mk_panics f b) /\
  (forall n b, fst (cdec_slice f n b) = dec_slice mk_panics f n b) /\
  (forall n b, fst (cdec_n f n b) = dec_n mk_panics f n b) /\
  (forall n b, fst (cdec_map f n b) = dec_map mk_panics f n b) /\
  (forall n acc b, fst (cdec_m f n acc b) = dec_m mk_panics f n acc b) /\
  (forall b, fst (cdec_struct f b) = dec_struct mk_panics f b).
Proof.
  induction f as [|f (I1 & I2 & I3 & I4 & I5 & I6)]; [repeat split; intros; reflexivity|].
  repeat split; intros; cbn [cdec cdec_slice cdec_n cdec_map cdec_m cdec_struct dec dec_slice dec_n dec_map dec_m dec_struct].
  - change (fst (one_deeper ?x)) with (fst x). destruct b as [|m r]; [reflexivity|]. cbv zeta. erase.
  - erase.
  - erase.
  - erase.
  - erase.
  - destruct b as [|m r]; [reflexivity|]. erase.
Qed.
End Decode.
