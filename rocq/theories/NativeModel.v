(** Wrappers of native objects that are counted: HBBlob, HBFace, HBFTFace,
    HBFont, HBFTFont, HBBuffer (svgpy/harfbuzz.py 90-159, 240-331, 373-425,
    428-466) and FTFace (svgpy/freetype.py 163-173, 362-391).

    What the libraries do is as documented: a new object counts 1, reference
    adds 1, destroy (FT_Done_Face) takes 1 and frees at 0; hb_face_create holds
    its blob, hb_font_create its face, hb_font_set_face exchanges the face it
    holds; hb_ft_face_create and hb_ft_font_create with a null destroy function
    keep a pointer to the FT_Face without counting it, and the font holds a face
    of its own made from it; a blob that is not duplicated keeps a pointer to
    the bytes.  Simplified: contents; empty blobs (one shared object); the
    failure of a native call; hb_face_reference_blob of a face made from an
    FT_Face (the copy it makes is not followed). *)
From Verif Require Import PyBase.
#[local] Open Scope nat_scope.

(* what a native object is: what it owns and what it merely points to *)
Inductive kind :=
| KBlob (bytes : option nat)              (* the bytes pointed to; None: duplicated *)
| KFace (blob : option nat) (ft : option nat)
| KFont (face : nat) (ft : option nat)
| KFT (bytes : option nat)
| KBuf.
Definition owned (k : kind) : option nat := match k with KFace b _ => b | KFont f _ => Some f | _ => None end.
Definition heap := list (nat * (nat * kind)).
Fixpoint find (h : heap) (n : nat) : option (nat * kind) :=
  match h with [] => None | (m, x) :: h' => if Nat.eqb m n then Some x else find h' n end.
Fixpoint drop (h : heap) (n : nat) : heap :=
  match h with [] => [] | (m, x) :: h' => if Nat.eqb m n then h' else (m, x) :: drop h' n end.
Fixpoint put (h : heap) (n : nat) (x : nat * kind) : heap :=
  match h with [] => [] | (m, y) :: h' => if Nat.eqb m n then (m, x) :: h' else (m, y) :: put h' n x end.

(** None: memory is touched that has been freed. *)
(* hb_..._reference, FT_Reference_Face *)
Definition retain (h : heap) (n : nat) : option heap :=
  match find h n with Some (c, k) => Some (put h n (S c, k)) | None => None end.
(* hb_..._destroy, FT_Done_Face *)
Fixpoint release (fuel : nat) (h : heap) (n : nat) : option heap :=
  match fuel with
  | O => Some h
  | S fuel =>
      match find h n with
      | None => None
      | Some (S (S c), k) => Some (put h n (S c, k))
      | Some (_, k) => match owned k with Some m => release fuel (drop h n) m | None => Some (drop h n) end
      end
  end.
Definition destroy (h : heap) (n : nat) : option heap := release (S (length h)) h n.

(* the classes of wrappers *)
Inductive class := HBBlob | HBFace | HBFont | HBFTFont | FTFace | HBBuffer.
Definition class_eqb (a b : class) : bool :=
  match a, b with HBBlob, HBBlob | HBFace, HBFace | HBFont, HBFont | HBFTFont, HBFTFont | FTFace, FTFace | HBBuffer, HBBuffer => true | _, _ => false end.
(* a wrapper: its class, its native object, the memory it keeps (freetype.py 168) *)
Record wrapper := mkW { w_class : class; w_native : nat; w_keeps : option nat }.
(* the heap, the bytes that exist, the wrappers that exist, the next number *)
Record state := mkS { st_heap : heap; st_bytes : list nat; st_wraps : list (nat * wrapper); st_next : nat }.
Definition empty : state := mkS [] [] [] 0.

Fixpoint wrap (ws : list (nat * wrapper)) (w : nat) : option wrapper :=
  match ws with [] => None | (v, x) :: ws' => if Nat.eqb v w then Some x else wrap ws' w end.
Fixpoint unwrap (ws : list (nat * wrapper)) (w : nat) : list (nat * wrapper) :=
  match ws with [] => [] | (v, x) :: ws' => if Nat.eqb v w then ws' else (v, x) :: unwrap ws' w end.
Definition alive (bs : list nat) (b : option nat) : bool := match b with None => true | Some b => existsb (Nat.eqb b) bs end.
(* memory kept by a wrapper is out of reach of the program *)
Definition kept (s : state) (b : nat) : bool :=
  existsb (fun w => match w_keeps (snd w) with Some m => Nat.eqb m b | None => false end) (st_wraps s).
(* a call reads the object and all it owns or points to *)
Definition sound_ft (s : state) (f : option nat) : bool :=
  match f with
  | None => true
  | Some f => match find (st_heap s) f with Some (_, KFT b) => alive (st_bytes s) b | _ => false end
  end.
Definition sound_blob (s : state) (b : option nat) : bool :=
  match b with
  | None => true
  | Some b => match find (st_heap s) b with Some (_, KBlob m) => alive (st_bytes s) m | _ => false end
  end.
Definition sound_face (s : state) (f : nat) : bool :=
  match find (st_heap s) f with Some (_, KFace b t) => sound_blob s b && sound_ft s t | _ => false end.
Definition sound (s : state) (n : nat) : bool :=
  match find (st_heap s) n with
  | Some (_, KBlob _) => sound_blob s (Some n)
  | Some (_, KFace _ _) => sound_face s n
  | Some (_, KFont f t) => sound_face s f && sound_ft s t
  | Some (_, KFT _) => sound_ft s (Some n)
  | Some (_, KBuf) => true
  | None => false
  end.

Inductive op :=
| NewBytes                    (* a bytes object of the program *)
| DropBytes (b : nat)         (* the program forgets it *)
| BlobCreate (b : nat) (mode : Z)
| FaceCreate (w : nat)        (* HBFace.create(blob) *)
| FTFaceCreate (w : nat)      (* HBFTFace.create(ftface) *)
| FontCreate (w : nat)        (* HBFont.create(face) *)
| FTFontCreate (w : nat)      (* HBFTFont.create(ftface) *)
| GetFace (w : nat)           (* HBFont.get_face, HBFTFont.get_face *)
| SetFace (w : nat) (f : nat)
| FTNew | FTMemNew            (* FTFace.new_face, FTFace.new_memory_face *)
| BufCreate
| Reference (w : nat)         (* reference(), reference_face() *)
| ReferenceBlob (w : nat)
| Use (w : nat)               (* any other method *)
| Del (w : nat).              (* the last reference of Python is gone: __del__ *)

(* an object with count 1 and its wrapper *)
Definition make (s : state) (k : kind) (c : class) (keeps : option nat) : state :=
  mkS ((st_next s, (1, k)) :: st_heap s) (st_bytes s) ((S (st_next s), mkW c (st_next s) keeps) :: st_wraps s) (S (S (st_next s))).
(* another wrapper of an object *)
Definition rewrap (s : state) (h : heap) (c : class) (n : nat) : state :=
  mkS h (st_bytes s) ((st_next s, mkW c n None) :: st_wraps s) (S (st_next s)).
Definition with_heap (s : state) (h : heap) : state := mkS h (st_bytes s) (st_wraps s) (st_next s).
(* calls with a wrapper of one of the classes; the argument of another class or
   none is not a call of these (AttributeError, TypeError of cffi): nothing happens *)
Definition on (s : state) (w : nat) (cs : list class) (f : wrapper -> option state) : option state :=
  match wrap (st_wraps s) w with
  | Some x => if existsb (class_eqb (w_class x)) cs then f x else Some s
  | None => Some s
  end.
Definition fmap {A} (f : A -> state) (x : option A) : option state := match x with Some a => Some (f a) | None => None end.

Definition step (s : state) (o : op) : option state :=
  match o with
  | NewBytes => Some (mkS (st_heap s) (st_next s :: st_bytes s) (st_wraps s) (S (st_next s)))
  | DropBytes b => if kept s b then Some s else Some (mkS (st_heap s) (List.remove Nat.eq_dec b (st_bytes s)) (st_wraps s) (st_next s))
  (* harfbuzz.py 399-409; HB_MEMORY_MODE_DUPLICATE = 1 *)
  | BlobCreate b mode =>
      if alive (st_bytes s) (Some b) && negb (kept s b) then Some (make s (KBlob (if Z.eqb mode 1 then None else Some b)) HBBlob None) else Some s
  (* 109-120 *)
  | FaceCreate w => on s w [HBBlob] (fun x =>
      if sound s (w_native x) then fmap (fun h => make (with_heap s h) (KFace (Some (w_native x)) None) HBFace None) (retain (st_heap s) (w_native x)) else None)
  (* 148-159 *)
  | FTFaceCreate w => on s w [FTFace] (fun x =>
      if sound s (w_native x) then Some (make s (KFace None (Some (w_native x))) HBFace None) else None)
  (* 262-272 *)
  | FontCreate w => on s w [HBFace] (fun x =>
      if sound s (w_native x) then fmap (fun h => make (with_heap s h) (KFont (w_native x) None) HBFont None) (retain (st_heap s) (w_native x)) else None)
  (* 323-331: the face of its own has no wrapper *)
  | FTFontCreate w => on s w [FTFace] (fun x =>
      if sound s (w_native x) then
        let f := st_next s in
        Some (make (mkS ((f, (1, KFace None (Some (w_native x)))) :: st_heap s) (st_bytes s) (st_wraps s) (S (S f))) (KFont f (Some (w_native x))) HBFTFont None)
      else None)
  (* 274-276, 333-335 *)
  | GetFace w => on s w [HBFont; HBFTFont] (fun x =>
      match find (st_heap s) (w_native x) with
      | Some (_, KFont f t) =>
          if class_eqb (w_class x) HBFTFont then
            match t with Some t => fmap (fun h => rewrap s h FTFace t) (retain (st_heap s) t) | None => Some s end
          else Some (rewrap s (st_heap s) HBFace f)
      | _ => None
      end)
  (* 313-314 *)
  | SetFace w fw => on s w [HBFont; HBFTFont] (fun x => on s fw [HBFace] (fun y =>
      match find (st_heap s) (w_native x) with
      | Some (c, KFont f t) =>
          match retain (st_heap s) (w_native y) with
          | Some h => fmap (with_heap s) (destroy (put h (w_native x) (c, KFont (w_native y) t)) f)
          | None => None
          end
      | _ => None
      end))
  (* freetype.py 362-371, 373-386 *)
  | FTNew => Some (make s (KFT None) FTFace None)
  | FTMemNew =>
      let b := st_next s in
      Some (make (mkS (st_heap s) (b :: st_bytes s) (st_wraps s) (S b)) (KFT (Some b)) FTFace (Some b))
  (* harfbuzz.py 468-471 *)
  | BufCreate => Some (make s KBuf HBBuffer None)
  (* 134-135, 307-308, 422-423, 519-520; freetype.py 388-391 *)
  | Reference w => on s w [HBBlob; HBFace; HBFont; HBFTFont; FTFace; HBBuffer] (fun x => fmap (with_heap s) (retain (st_heap s) (w_native x)))
  (* 137-138 *)
  | ReferenceBlob w => on s w [HBFace] (fun x =>
      match find (st_heap s) (w_native x) with
      | Some (_, KFace (Some b) _) => fmap (with_heap s) (retain (st_heap s) b)
      | Some (_, KFace None t) => if sound_ft s t then Some s else None
      | _ => None
      end)
  | Use w => on s w [HBBlob; HBFace; HBFont; HBFTFont; FTFace; HBBuffer] (fun x => if sound s (w_native x) then Some s else None)
  (* 104-105, 253-254, 390-391, 448-449; freetype.py 172-173; what the wrapper
     keeps goes with it *)
  | Del w =>
      match wrap (st_wraps s) w with
      | None => Some s
      | Some x =>
          fmap (fun h => mkS h (match w_keeps x with Some b => List.remove Nat.eq_dec b (st_bytes s) | None => st_bytes s end)
                           (unwrap (st_wraps s) w) (st_next s))
               (destroy (st_heap s) (w_native x))
      end
  end.
Fixpoint steps (s : state) (os : list op) : option state :=
  match os with [] => Some s | o :: os' => match step s o with Some s' => steps s' os' | None => None end end.
