(** When a media feature is true of a window. *)
From Coq Require Import Qabs Qminmax.
From Verif Require Import PyBase PyText PySplit PyDict CssUnitModel LengthModel LengthSpec ScreenModel MediaQueryModel MediaQuerySpec MqParseModel MqParseSpec MqlModel.
#[local] Open Scope Q_scope.

(* a number is printed so that it reads back *)
Definition prints (p : printing) (x : Q) : Prop := forall u, In u [lit "px"; lit "dppx"] ->
  exists y, LengthModel.parse (p_float p x ++ u) = Ok (y, Some u) /\ y == x.
(* the floats of the situation are printed so *)
Definition faithful (p : printing) (s : situation) : Prop :=
  prints p (s_ratio (st_screen s) * st_zoom s) /\
  match st_root s with Some (w, h, _) => prints p w /\ prints p h | None => True end.
(* what relative units refer to: the root, if there is one *)
Definition around (s : situation) : lctx := match st_root s with Some (_, _, c) => c | None => no_context end.
(* the size of the root's viewport, or of the window *)
Definition window_size (s : situation) : Q * Q :=
  match st_root s with Some (w, h, _) => (w, h) | None => (inject_Z (fst (st_inner s)), inject_Z (snd (st_inner s))) end.
(* the features that are numbers *)
Inductive measured (s : situation) : text -> kind -> Q -> Prop :=
| m_width : measured s (lit "width") Length (fst (window_size s))
| m_height : measured s (lit "height") Length (snd (window_size s))
| m_resolution : measured s (lit "resolution") Resolution (s_ratio (st_screen s) * st_zoom s)
| m_color : measured s (lit "color") Length (inject_Z (s_depth (st_screen s)))
| m_color_index : measured s (lit "color-index") Length (inject_Z (2 ^ s_depth (st_screen s)))
| m_monochrome : measured s (lit "monochrome") Length (inject_Z (s_mono (st_screen s)))
| m_grid : measured s (lit "grid") Length 0
| m_device_width : measured s (lit "device-width") Length (inject_Z (s_width (st_screen s)))
| m_device_height : measured s (lit "device-height") Length (inject_Z (s_height (st_screen s))).
(* a value of a query: a number with a unit of size z, in pixels or dots per pixel *)
Definition amounts (s : situation) (v : text) (k : kind) (z a : Q) : Prop :=
  exists n u, LengthModel.parse v = Ok (n, u) /\ sized (around s) None u k z /\ 0 < z /\ steady (around s) u /\ a == n * z.
(* equal, or further apart than the tolerance of lengths, which depends on the unit on the left *)
Definition clear (z a b : Q) : Prop := a == b \/ tol * Qmax (Qmax (Qabs a) (Qabs b)) z < Qabs (a - b).
(* a/b *)
Definition ratio_of (a b : N) : text := digits a ++ [47%N] ++ digits b.
(* the features of a window that can be asked for without a value, and are then true *)
Definition stands (s : situation) (n : text) : Prop :=
  In n [lit "width"; lit "height"; lit "aspect-ratio"; lit "orientation"; lit "resolution"; lit "scan"; lit "color-index"; lit "color-gamut";
        lit "device-width"; lit "device-height"; lit "device-aspect-ratio"]
  \/ (n = lit "color" /\ (0 < s_depth (st_screen s))%Z) \/ (n = lit "monochrome" /\ (0 < s_mono (st_screen s))%Z)
  \/ (n = lit "update" /\ st_update s <> lit "none").
(* the names that the conditions have *)
Definition known : list text :=
  map lit ["media"; "width"; "height"; "aspect-ratio"; "orientation"; "resolution"; "scan"; "grid"; "update"; "overflow-block"; "overflow-inline";
           "color"; "color-index"; "monochrome"; "color-gamut"; "device-width"; "device-height"; "device-aspect-ratio"]%string.

Inductive fact (s : situation) : feature -> bool -> Prop :=
(* (width: 600px), (min-width: 600px), (max-width: 600px) *)
| f_plain i n j k v l x o kd a z b : bound_name n x o -> measured s x kd a -> amounts s v kd z b -> clear 1 a b ->
    fact s (FPlain i n j k v l) (holds o a b)
(* (width: 2dppx) *)
| f_kind i n j k v l x o kd a kd' z b : bound_name n x o -> measured s x kd a -> amounts s v kd' z b -> kd <> kd' ->
    fact s (FPlain i n j k v l) false
(* (width <= 600px) *)
| f_left i n j o k v l kd a z b : measured s n kd a -> number_like v = true -> amounts s v kd z b -> clear 1 a b ->
    fact s (FRange i n j o k v l) (holds o a b)
(* (600px >= width) *)
| f_right i v j o k n l kd a z b : measured s n kd a -> number_like v = true -> amounts s v kd z b -> clear z b a ->
    fact s (FRange i v j o k n l) (holds o b a)
(* (600px <= width <= 700px) *)
| f_between i v j o k n j2 o2 k2 v2 l kd a z b z2 b2 : measured s n kd a -> number_like v = true -> number_like v2 = true ->
    amounts s v kd z b -> clear z b a -> amounts s v2 kd z2 b2 -> clear 1 a b2 ->
    fact s (FRange2 i v j o k n j2 o2 k2 v2 l) (holds o b a && holds o2 a b2)
(* (min-aspect-ratio: 16/9): of the whole pixels *)
| f_ratio_min i j k a b l : b <> 0%N -> fact s (FPlain i (lit "min-aspect-ratio") j k (ratio_of a b) l)
    (holds OpGe (inject_Z (to_int (fst (window_size s))) / inject_Z (to_int (snd (window_size s)))) (inject_Z (Z.of_N a) / inject_Z (Z.of_N b)))
| f_ratio_max i j k a b l : b <> 0%N -> fact s (FPlain i (lit "max-aspect-ratio") j k (ratio_of a b) l)
    (holds OpLe (inject_Z (to_int (fst (window_size s))) / inject_Z (to_int (snd (window_size s)))) (inject_Z (Z.of_N a) / inject_Z (Z.of_N b)))
(* (orientation: portrait): of the screen *)
| f_orientation i j k v l b : no_dash v -> b = true <-> (exists w, orientation_type (st_screen s) = v ++ 45%N :: w) ->
    fact s (FPlain i (lit "orientation") j k v l) b
(* (scan: progressive), (update: fast), (color-gamut: p3) *)
| f_word i n j k v l w b : In (n, w) [(lit "scan", st_scan s); (lit "update", st_update s); (lit "color-gamut", st_gamut s);
      (lit "overflow-block", lit "none"); (lit "overflow-inline", lit "none")] -> b = true <-> v = w ->
    fact s (FPlain i n j k v l) b
(* (color) *)
| f_bool n b : ~ In n media_words -> n <> lit "media" -> b = true <-> stands s n -> fact s (FBool n) b
(* features that no window has *)
| f_unknown i n j k v l x o : bound_name n x o -> ~ In x known -> fact s (FPlain i n j k v l) false.
(* media types *)
Definition type_fact (s : situation) (t : text) (b : bool) : Prop := In t media_words /\ (b = true <-> t = lit "all" \/ t = st_media s).
(* v is right about everything that a query is made of *)
Definition right (s : situation) (v : truths) (q : query) : Prop :=
  let oks f ks := fact s f (t_feature v f) /\ Forall (fun k => fact s (l_feature k) (t_feature v (l_feature k))) ks in
  match q with
  | QType _ t => type_fact s t (t_type v t)
  | QTypeAnd _ t _ _ f ks => type_fact s t (t_type v t) /\ oks f ks
  | QFeatures _ f ks => oks f ks
  end.
(* the conditions can be made *)
Definition settled (s : situation) : Prop :=
  to_int (snd (window_size s)) <> 0%Z /\ s_height (st_screen s) <> 0%Z /\ (0 <= s_depth (st_screen s))%Z.
