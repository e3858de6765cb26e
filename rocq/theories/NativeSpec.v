(** Who needs a native object, counted without its count. *)
From Verif Require Import PyBase NativeModel.
#[local] Open Scope nat_scope.

(** Wrappers of the object. *)
Definition wrappers (s : state) (n : nat) : nat := length (filter (fun w => Nat.eqb (w_native (snd w)) n) (st_wraps s)).
(** Native objects that own it. *)
Definition owns (n : nat) (x : nat * (nat * kind)) : bool := match owned (snd (snd x)) with Some m => Nat.eqb m n | None => false end.
Definition owners (h : heap) (n : nat) : nat := length (filter (owns n) h).
(** References taken by hand, which nothing ever gives back. *)
Definition takes (s : state) (o : op) : list nat :=
  match o with
  | Reference w => match wrap (st_wraps s) w with Some x => [w_native x] | None => [] end
  | ReferenceBlob w =>
      match wrap (st_wraps s) w with
      | Some (mkW HBFace n _) => match find (st_heap s) n with Some (_, KFace (Some b) _) => [b] | _ => [] end
      | _ => []
      end
  | _ => []
  end.
Fixpoint taken (s : state) (os : list op) : list nat :=
  match os with [] => [] | o :: os' => takes s o ++ match step s o with Some s' => taken s' os' | None => [] end end.
Definition times (n : nat) (l : list nat) : nat := count_occ Nat.eq_dec l n.
(** The count of an object; 0 is freed. *)
Definition count (h : heap) (n : nat) : nat := match find h n with Some (c, _) => c | None => 0 end.

(** HBFont.get_face is not called on an HBFont proper. *)
Definition counted (s : state) (o : op) : Prop :=
  match o with GetFace w => forall x, wrap (st_wraps s) w = Some x -> w_class x <> HBFont | _ => True end.
Fixpoint counted_run (s : state) (os : list op) : Prop :=
  match os with [] => True | o :: os' => counted s o /\ match step s o with Some s' => counted_run s' os' | None => True end end.

(** What an object points to without owning it. *)
Inductive pointer := ToBytes (b : nat) | ToFT (f : nat).
Definition points (k : kind) : list pointer :=
  match k with
  | KBlob (Some b) | KFT (Some b) => [ToBytes b]
  | KFace _ (Some t) | KFont _ (Some t) => [ToFT t]
  | _ => []
  end.
Definition there (s : state) (p : pointer) : Prop :=
  match p with ToBytes b => In b (st_bytes s) | ToFT f => count (st_heap s) f <> 0 end.
(** An object and all it reads. *)
Inductive reads (s : state) : nat -> nat -> Prop :=
| Reads_self n : reads s n n
| Reads_owned n c k m r : find (st_heap s) n = Some (c, k) -> owned k = Some m -> reads s m r -> reads s n r
| Reads_ft n c k f r : find (st_heap s) n = Some (c, k) -> In (ToFT f) (points k) -> reads s f r -> reads s n r.
(** It leads to something freed. *)
Definition stale (s : state) (n : nat) : Prop :=
  exists m c k p, reads s n m /\ find (st_heap s) m = Some (c, k) /\ In p (points k) /\ ~ there s p.
(** The wrapper an operation calls. *)
Definition caller (o : op) : list nat :=
  match o with
  | FaceCreate w | FTFaceCreate w | FontCreate w | FTFontCreate w | GetFace w | ReferenceBlob w | Use w => [w]
  | _ => []
  end.

(** Bytes are kept as long as a blob points to them, an FTFace as long as
    something points to its face, and one with memory as long as its face. *)
Definition careful (s : state) (o : op) : Prop :=
  match o with
  | DropBytes b => forall n c k, find (st_heap s) n = Some (c, k) -> ~ In (ToBytes b) (points k)
  | Del w => forall x, wrap (st_wraps s) w = Some x ->
      (count (st_heap s) (w_native x) = 1 -> forall n c k, find (st_heap s) n = Some (c, k) -> ~ In (ToFT (w_native x)) (points k)) /\
      (w_keeps x <> None -> count (st_heap s) (w_native x) = 1)
  | _ => True
  end.
Fixpoint careful_run (s : state) (os : list op) : Prop :=
  match os with [] => True | o :: os' => careful s o /\ match step s o with Some s' => careful_run s' os' | None => True end end.
(** Blobs have copies of their bytes, and there is no FT_Face of memory or
    anything made from an FT_Face. *)
Definition duplicating (o : op) : Prop := match o with BlobCreate _ m => m = 1%Z | FTFaceCreate _ | FTFontCreate _ | FTMemNew => False | _ => True end.
Definition manual (o : op) : bool := match o with Reference _ | ReferenceBlob _ => true | _ => false end.
