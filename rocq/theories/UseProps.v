(** C68: path data of containers and of 'use' elements. *)
From Coq Require Import Lia Lqa Relations.
From Verif Require Import PyBase PyText MatrixModel MatrixSpec MatrixProofs MatrixProofs2 RectModel RectSpec TransformModel TransformSpec TransformProofs
  PathModel PathSpec PathProofs PathNormProofs PathTransProofs PathBBoxModel PathBBoxSpec PathBBoxProofs
  CtmProofs UseModel UseSpec UseProofs UseProofs2 UseProofs3.
Local Open Scope Q_scope.

(** ** Documents of the examples *)
Definition at0 (a b : Q) : Q := 0.
Definition nothing : result (Q * Q * Q * Q) := Ok (0, 0, 0, 0).
Definition tag (n : string) (i : option string) (tr : option string) (own : list seg) : el :=
  mkEl (lit n) (option_map lit i) (option_map lit tr) None None nothing (Ok own).
Definition square (x y a : Q) : list seg :=
  [SM false (P x y); SL false (P (x + a) y); SL false (P (x + a) (y + a)); SL false (P x (y + a)); SZ false].
Definition rect_el (i tr : option string) (x y a : Q) : node := Node (tag "rect" i tr (square x y a)) [].
Definition use_el (i tr : option string) (url : string) (g : Q * Q * Q * Q) : node :=
  Node (mkEl (lit "use") (option_map lit i) (option_map lit tr) (Some (lit url)) None (Ok g) (Ok [])) [].
Definition group_el (i tr : option string) (cs : list node) : node := Node (tag "g" i tr []) cs.
Definition svg_el (i : option string) (cs : list node) : node := Node (tag "svg" i None []) cs.
(* a group with a rectangle, a comment and a use of the rectangle *)
Definition ex_use : node := use_el (Some "u"%string) (Some "scale(2)"%string) "#r"%string (5, 0, 7, 7).
Definition ex_comment : node := Node (tag "" None None []) [].
Definition ex_group : node := group_el (Some "g"%string) None [rect_el (Some "r"%string) None 1 2 3; ex_comment; ex_use].
Definition ex_root : node := svg_el None [ex_group].

(** ** What is shown.
    For every document whose shapes have tidy outlines, get_path_data of every
    element that shows something returns path data drawing exactly that; with
    any larger depth of calls too.
    Missing: outlines that begin with a relative moveto (c68_relative_refuted),
    end with a moveto (c68_trailing_refuted) or have a bearing; arcs keep their
    radii (smap), which is the image of the arc only for translations (C15);
    targets that are scaled to a size are in c68_fit_partial. *)
Theorem c68_draws_partial : forall o at2 norm root, oracle_basic o ->
  (forall n l, In n (in_order root) -> own_outline n -> asked o at2 norm n l -> tidy l) ->
  forall n ds, shows o (asked o at2 norm) root n ds -> In n (in_order root) ->
  exists f0 l, Forall2 stroke_eq ds (drawing o l) /\
    forall f, (f0 <= f)%nat -> path_data f o at2 norm root n = Some (Ok l).
Proof.
  intros o at2 norm root O TD n ds Hs I0. destruct (drawn_all o at2 norm root O TD n ds Hs I0) as (f & l & E & _ & D).
  exists f, l. split; [exact D|]. intros g L. eapply path_data_le; eauto.
Qed.
Lemma square_tidy x y a : tidy (square x y a).
Proof. right. exists (P x y), [SL false (P (x + a) y); SL false (P (x + a) (y + a)); SL false (P x (y + a))], (SZ false). repeat split. Qed.
Example ex_shows : shows quarter_oracle (asked quarter_oracle at0 false) ex_root ex_root
  (drawing quarter_oracle (square 1 2 3) ++
   map (smap (placed quarter_oracle [TScale 2 2] 5 0 1 1)) (drawing quarter_oracle (square 1 2 3)) ++ []).
Proof.
  assert (R : shows quarter_oracle (asked quarter_oracle at0 false) ex_root (rect_el (Some "r"%string) None 1 2 3)
    (drawing quarter_oracle (square 1 2 3))).
  { apply shows_shape; [unfold own_outline; cbn [In]; intuition|]. exists (square 1 2 3). split; reflexivity. }
  assert (G : graphical (rect_el (Some "r"%string) None 1 2 3)) by (left; unfold own_outline; cbn [In]; intuition).
  apply shows_group; [right; reflexivity|].
  rewrite <- (app_nil_r (_ ++ _ ++ [])). apply shows_cons; [right; left; left; reflexivity| |constructor].
  apply shows_group; [left; reflexivity|]. apply shows_cons; [exact G|exact R|].
  apply shows_skip.
  { rewrite <- graphics_iff. discriminate. }
  apply shows_cons; [do 4 right; reflexivity| |constructor].
  apply (shows_use _ _ _ ex_use (rect_el (Some "r"%string) None 1 2 3) _ [TScale 2 2] 5 0 7 7); try reflexivity; auto.
  - exists (lit "r"). split; [left; split; [discriminate|reflexivity]|].
    exists [ex_root; ex_group], [ex_comment; ex_use]. repeat split. repeat constructor; discriminate.
  - right. split; [discriminate|]. vm_compute. reflexivity.
  - intros [[K|K] _]; discriminate K.
Qed.
Example ex_shows_tidy : forall n l, In n (in_order ex_root) -> own_outline n -> asked quarter_oracle at0 false n l -> tidy l.
Proof.
  intros n l i Hs (raw & E & ->). vm_compute in i. destruct i as [<-|[<-|[<-|[<-|[<-|[]]]]]]; try (injection E as <-);
    try (left; reflexivity). apply (square_tidy 1 2 3).
Qed.
Print Assumptions c68_draws_partial.

(** Conversely an answer of an element of the document is what is shown, if no
    target is to be scaled to a size. *)
Theorem c68_shown : forall o at2 norm root,
  (forall n t x y w h, In n (in_order root) -> reusing n -> refers root (self n) t ->
     el_geom (self n) = Ok (x, y, w, h) -> ~ fitted t w h) ->
  forall f n l, In n (in_order root) -> path_data f o at2 norm root n = Some (Ok l) ->
  exists ds, shows o (asked o at2 norm) root n ds.
Proof. exact shown_all. Qed.
Example ex_shown : exists l, path_data 4 quarter_oracle at0 false ex_root ex_root = Some (Ok l) /\ length l = 10%nat.
Proof. eexists. split; [vm_compute; reflexivity|reflexivity]. Qed.
Print Assumptions c68_shown.

(** ** Depth of calls *)
(** The answer does not depend on how deep the calls may go. *)
Theorem c68_one_answer : forall f g o at2 norm root n r s,
  path_data f o at2 norm root n = Some r -> path_data g o at2 norm root n = Some s -> r = s.
Proof. exact path_data_det. Qed.
Example ex_one_answer : path_data 4 quarter_oracle at0 false ex_root ex_root = path_data 9 quarter_oracle at0 false ex_root ex_root.
Proof. vm_compute. reflexivity. Qed.
Print Assumptions c68_one_answer.

(** Without a chain of children and references that goes on for ever there is
    an answer. *)
Theorem c68_answers : forall o at2 norm root n, Acc (fun b a => calls root a b) n ->
  exists f r, path_data f o at2 norm root n = Some r.
Proof. exact answers. Qed.
Example ex_answers : Acc (fun b a => calls ex_root a b) ex_use.
Proof.
  constructor. intros t K. remember ex_use as n eqn:En. destruct K as [n c Gr _ _|n t _ _ R _]; subst n.
  - destruct Gr; discriminate.
  - destruct R as (i & P1 & F). apply find_id_some in F.
    assert (E : href (self ex_use) = 35%N :: i) by exact (points_href _ _ P1). injection E as <-.
    injection F as <-. constructor. intros u K.
    match type of K with calls _ ?m _ => remember m as m0 eqn:Em end. destruct K as [m c Gr _ _|m u R _ _ _]; subst m.
    + destruct Gr; discriminate.
    + discriminate R.
Qed.
Print Assumptions c68_answers.

(** Finding: an element that waits for its own answer never gets one (Python
    ends with RecursionError); references are not checked for cycles. *)
Theorem c68_cycle_never : forall o at2 norm root n, clos_trans _ (waits o at2 norm root) n n ->
  forall f, path_data f o at2 norm root n = None.
Proof. exact cycle_never. Qed.
Definition ex_self_use : node := use_el None None "#a"%string (0, 0, 0, 0).
Definition ex_self : node := group_el (Some "a"%string) None [rect_el None None 0 0 1; ex_self_use].
Definition ex_self_root : node := svg_el None [ex_self].
Example ex_cycle : clos_trans _ (waits quarter_oracle at0 false ex_self_root) ex_self ex_self.
Proof.
  apply t_trans with ex_self_use.
  - apply t_step. apply (waits_child _ _ _ _ _ [rect_el None None 0 0 1] _ []).
    + left; reflexivity.
    + reflexivity.
    + do 4 right; reflexivity.
    + intros b [<-|[]] _. exists 1%nat, (square 0 0 1). reflexivity.
  - apply t_step. apply waits_use; try reflexivity.
    + exists (lit "a"). split; [left; split; [discriminate|reflexivity]|].
      exists [ex_self_root], [rect_el None None 0 0 1; ex_self_use]. repeat split. repeat constructor; discriminate.
    + right; left; left; reflexivity.
Qed.
Print Assumptions c68_cycle_never.

(** ** References *)
(** The target is the first element in document order with the id 'href' names
    (xlink:href when href is missing or empty). *)
Theorem c68_target : forall root e t, name root = lit "svg" ->
  (instance_root root e = Ok (Some t) <-> refers root e t) /\
  (instance_root root e = Ok None <-> points_to e [] \/ dangling root e).
Proof.
  intros root e t R. split; split.
  - intros H. now apply instance_inv in H.
  - intros H. now apply instance_some.
  - intros H. apply instance_inv in H. tauto.
  - unfold instance_root. intros [H|(i & P1 & F)].
    + now rewrite (points_href _ _ H).
    + rewrite (points_href _ _ P1). unfold name in R. rewrite R. apply find_id_none in F. rewrite F. reflexivity.
Qed.
Example ex_target :
  let r := svg_el None [rect_el (Some "r"%string) None 1 1 1; rect_el (Some "r"%string) None 2 2 2] in
  let e := mkEl (lit "use") None None (Some []) (Some (lit "#r")) nothing (Ok []) in
  refers r e (rect_el (Some "r"%string) None 1 1 1) /\
  dangling r (mkEl (lit "use") None None (Some (lit "#x")) (Some (lit "#r")) nothing (Ok [])).
Proof.
  cbn zeta. split.
  - exists (lit "r"). split; [right; left; split; [right; reflexivity|reflexivity]|].
    exists [svg_el None [rect_el (Some "r"%string) None 1 1 1; rect_el (Some "r"%string) None 2 2 2]],
      [rect_el (Some "r"%string) None 2 2 2]. repeat split. repeat constructor; discriminate.
  - exists (lit "x"). split; [left; split; [discriminate|reflexivity]|]. repeat constructor; discriminate.
Qed.
Print Assumptions c68_target.

(** A link to another document is not supported; in a document whose root is
    no 'svg' no reference is (AttributeError). *)
Theorem c68_external : forall f o at2 norm root n c u, reusing n -> points_to (self n) (c :: u) ->
  (c <> 35%N -> path_data (S f) o at2 norm root n = Some (Err NotImplementedError_)) /\
  (c = 35%N -> name root <> lit "svg" -> path_data (S f) o at2 norm root n = Some (Err AttributeError)).
Proof.
  intros f o at2 norm root n c u U P1. split; [intros N; now apply external_use with c u|].
  intros -> N. rewrite path_data_step. unfold step. rewrite (class_use n U). unfold instance_root.
  rewrite (points_href _ _ P1). cbn [N.eqb]. destruct (text_eqb_spec (el_name (self root)) (lit "svg")); [contradiction|].
  reflexivity.
Qed.
Example ex_external : let n := use_el None None "other.svg#r"%string (0, 0, 0, 0) in
  reusing n /\ points_to (self n) (lit "other.svg#r").
Proof. split; [reflexivity|left; split; [discriminate|reflexivity]]. Qed.
Print Assumptions c68_external.

(** ** Settings *)
(** With normalize set, every element's path data have only absolute M, L, C
    and Z. *)
Theorem c68_normalized : forall f o at2 root n l, path_data f o at2 true root n = Some (Ok l) ->
  Forall (fun g => isrelative g = false /\ (kind g = Some KM \/ kind g = Some KL \/ kind g = Some KC \/ kind g = Some KZ)) l.
Proof.
  intros f o at2 root n l E. apply normal_form in E. apply Forall_forall. intros g i.
  rewrite forallb_forall in E. specialize (E g i). destruct g; try discriminate; try (destruct rel; try discriminate);
    cbn; split; auto.
Qed.
Definition ex_rel : node := Node (tag "path" (Some "p"%string) None [SM true (P 1 1); SH true 4; SQ false (P 1 1) (P 2 2); SZ true]) [].
Example ex_normalized : let root := svg_el None [ex_rel; use_el None (Some "scale(2)"%string) "#p"%string (1, 1, 0, 0)] in
  exists l, path_data 3 quarter_oracle at0 true root root = Some (Ok l) /\ length l = 8%nat.
Proof. eexists. split; [vm_compute; reflexivity|reflexivity]. Qed.
Print Assumptions c68_normalized.

(** ** Sizes *)
(** A used 'svg' with a positive width and height gets exactly that size, and
    every point p of it comes to (sx * px + x, sy * py + y).
    Missing: a transform attribute on the 'use' (the box is then that of the
    transformed outline); path data with other commands than absolute M, L, C,
    Z (ValueError, c68_size_raw); turning points that are not rational; one of
    width and height missing (the path keeps the extent of that axis:
    [or_one]). *)
Theorem c68_fit_partial : forall f o at2 norm root n t x y w h l b, oracle_basic o ->
  reusing n -> name root = lit "svg" -> refers root (self n) t -> name t = lit "svg" -> transforms (self n) [] ->
  el_geom (self n) = Ok (x, y, w, h) -> 0 < w -> 0 < h ->
  path_data f o at2 norm root t = Some (Ok l) -> tidy l -> forallb base l = true -> Forall exact_turns (drawing o l) ->
  path_bbox o at2 l = Ok b -> 0 < rw b -> 0 < rh b ->
  exists out b', path_data (S f) o at2 norm root n = Some (Ok out) /\ path_bbox o at2 out = Ok b' /\
    rw b' == w /\ rh b' == h /\
    Forall2 stroke_eq (map (smap (fun p => P (w / rw b * ptx p + x) (h / rh b * pty p + y))) (drawing o l)) (drawing o out).
Proof.
  intros f o at2 norm root n t x y w h l b O U R F Nt T G Hw Hh E TD BA ET EB Bw Bh.
  destruct (fit_size o at2 (self n) l x y w h b O T G Hw Hh TD BA ET EB Bw Bh) as (out & b' & P1 & P2 & P3 & P4 & P5).
  exists out, b'. split; [|auto]. rewrite path_data_step. unfold step. rewrite (class_use n U), (instance_some _ _ _ R F).
  assert (Gt : graphics t = true) by (apply graphics_iff; right; left; right; exact Nt). rewrite Gt, E. cbn [bind].
  unfold name in Nt. rewrite Nt, P1. reflexivity.
Qed.
Definition ex_inner : node := svg_el (Some "i"%string) [rect_el None None 1 2 3].
Definition ex_sized : node := use_el None None "#i"%string (5, 6, 6, 9).
Example ex_fit : let root := svg_el None [ex_inner; ex_sized] in
  refers root (self ex_sized) ex_inner /\
  path_data 2 quarter_oracle at0 true root ex_inner = Some (Ok (square 1 2 3)) /\
  (exists b, path_bbox quarter_oracle at0 (square 1 2 3) = Ok b /\ rw b == 3 /\ rh b == 3).
Proof.
  cbn zeta. split; [|split].
  - exists (lit "i"). split; [left; split; [discriminate|reflexivity]|].
    exists [svg_el None [ex_inner; ex_sized]], [rect_el None None 1 2 3; ex_sized]. repeat split. repeat constructor; discriminate.
  - vm_compute. reflexivity.
  - eexists. split; [vm_compute; reflexivity|]. split; reflexivity.
Qed.
Print Assumptions c68_fit_partial.

(** Finding: the size is computed from the path data as they are; unless they
    were asked for in normalised form any other command stops it. *)
Theorem c68_size_raw : forall f o at2 norm root n t x y w h tr l1 g l2,
  reusing n -> name root = lit "svg" -> refers root (self n) t -> name t = lit "svg" -> transforms (self n) tr ->
  el_geom (self n) = Ok (x, y, w, h) -> (0 < w \/ 0 < h) ->
  path_data f o at2 norm root t = Some (Ok (l1 ++ g :: l2)) ->
  forallb base l1 = true -> base g = false -> g <> SInvalid -> (forall p q, g <> SCNone p q) ->
  path_data (S f) o at2 norm root n = Some (Err ValueError).
Proof.
  intros f o at2 norm root n t x y w h tr l1 g l2 U R F Nt T G W E B1 B2 B3 B4.
  rewrite path_data_step. unfold step. rewrite (class_use n U), (instance_some _ _ _ R F).
  assert (Gt : graphics t = true) by (apply graphics_iff; right; left; right; exact Nt). rewrite Gt, E. cbn [bind].
  assert (Fi : fit o at2 w h (l1 ++ g :: l2) = Err ValueError).
  { unfold fit. rewrite (bbox_other_commands o at2 l1 g l2 B1 B2 B3 B4).
    destruct (Qltb_spec 0 w), (Qltb_spec 0 h); try reflexivity. destruct W; lra. }
  unfold name in Nt. rewrite Nt. unfold place_use, use_transforms.
  replace (is_in (lit "svg") [lit "svg"; lit "symbol"]) with true by reflexivity.
  destruct (proj1 (transforms_of _ _ T)) as [E1|[E1 ->]]; rewrite E1; cbn [bind]; rewrite G; cbn [bind]; rewrite Fi; reflexivity.
Qed.
Example ex_size_raw : let i := svg_el (Some "i"%string) [ex_rel] in let root := svg_el None [i; ex_sized] in
  path_data 2 quarter_oracle at0 false root i = Some (Ok ([] ++ SM true (P 1 1) :: [SH true 4; SQ false (P 1 1) (P 2 2); SZ true])) /\
  base (SM true (P 1 1)) = false.
Proof. split; [vm_compute; reflexivity|reflexivity]. Qed.
Print Assumptions c68_size_raw.

(** Finding: a flat outline (a horizontal or vertical line, a single point)
    cannot be given a size. *)
Theorem c68_flat_size : forall f o at2 norm root n t x y w h tr l b,
  reusing n -> name root = lit "svg" -> refers root (self n) t -> name t = lit "svg" -> transforms (self n) tr ->
  el_geom (self n) = Ok (x, y, w, h) -> (0 < w \/ 0 < h) ->
  path_data f o at2 norm root t = Some (Ok l) -> path_bbox o at2 l = Ok b -> (rw b == 0 \/ rh b == 0) ->
  path_data (S f) o at2 norm root n = Some (Err ZeroDivisionError).
Proof.
  intros f o at2 norm root n t x y w h tr l b U R F Nt T G W E EB Z.
  rewrite path_data_step. unfold step. rewrite (class_use n U), (instance_some _ _ _ R F).
  assert (Gt : graphics t = true) by (apply graphics_iff; right; left; right; exact Nt). rewrite Gt, E. cbn [bind].
  assert (Fi : fit o at2 w h l = Err ZeroDivisionError).
  { unfold fit. rewrite EB. cbn [bind].
    replace ((0 <?q w) || (0 <?q h)) with true by (destruct (Qltb_spec 0 w), (Qltb_spec 0 h); try reflexivity; destruct W; lra).
    destruct (Qeqb_spec (rw b) 0); [reflexivity|]. destruct (Qeqb_spec (rh b) 0); [reflexivity|]. destruct Z; contradiction. }
  unfold name in Nt. rewrite Nt. unfold place_use, use_transforms.
  replace (is_in (lit "svg") [lit "svg"; lit "symbol"]) with true by reflexivity.
  destruct (proj1 (transforms_of _ _ T)) as [E1|[E1 ->]]; rewrite E1; cbn [bind]; rewrite G; cbn [bind]; rewrite Fi; reflexivity.
Qed.
Example ex_flat_size : let i := svg_el (Some "i"%string) [Node (tag "path" None None [SM false (P 1 1); SL false (P 9 1)]) []] in
  let root := svg_el None [i; ex_sized] in
  path_data 2 quarter_oracle at0 false root i = Some (Ok [SM false (P 1 1); SL false (P 9 1)]) /\
  exists b, path_bbox quarter_oracle at0 [SM false (P 1 1); SL false (P 9 1)] = Ok b /\ (rw b == 0 \/ rh b == 0).
Proof. split; [vm_compute; reflexivity|]. eexists. split; [vm_compute; reflexivity|right; reflexivity]. Qed.
Print Assumptions c68_flat_size.

(** Finding: a 'symbol' has no path data, so that a 'use' of a symbol shows
    nothing; and with a width or height it fails. *)
Theorem c68_symbol_size : forall f o at2 norm root n t x y w h tr, reusing n -> name root = lit "svg" ->
  refers root (self n) t -> name t = lit "symbol" -> transforms (self n) tr ->
  el_geom (self n) = Ok (x, y, w, h) -> (0 < w \/ 0 < h) ->
  path_data (S (S f)) o at2 norm root n = Some (Err ZeroDivisionError).
Proof. exact symbol_size. Qed.
Example ex_symbol : let t := Node (tag "symbol" (Some "i"%string) None []) [rect_el None None 1 2 3] in
  refers (svg_el None [t; ex_sized]) (self ex_sized) t /\ transforms (self ex_sized) [].
Proof.
  cbn zeta. split; [|reflexivity]. exists (lit "i"). split; [left; split; [discriminate|reflexivity]|].
  eexists [_], _. split; [reflexivity|]. split; [reflexivity|]. repeat constructor; discriminate.
Qed.
Print Assumptions c68_symbol_size.

(** Finding: a 'marker' or 'view' among the children makes the path data of
    the container fail. *)
Theorem c68_unfinished : forall f o at2 norm root n before c after, grouping n -> children n = before ++ c :: after ->
  unfinished c ->
  (forall b, In b before -> graphical b -> exists l, path_data (S f) o at2 norm root b = Some (Ok l)) ->
  path_data (S (S f)) o at2 norm root n = Some (Err NotImplementedError_).
Proof. exact unfinished_child. Qed.
Example ex_unfinished : let m := Node (tag "marker" None None []) [] in
  unfinished m /\ path_data 5 quarter_oracle at0 false ex_root (svg_el None [rect_el None None 0 0 1; m]) = Some (Err NotImplementedError_).
Proof. split; [left; reflexivity|vm_compute; reflexivity]. Qed.
Print Assumptions c68_unfinished.

(** ** Transformed path data *)
(** Of every element but 'use': the image under its own transform. *)
Theorem c68_transformed_partial : forall f o at2 norm root n l tr, oracle_basic o ->
  path_data f o at2 norm root n = Some (Ok l) -> tidy l ->
  ~ reusing n -> transforms (self n) tr -> (tr <> [] \/ transform_of (self n) = Ok None) ->
  exists out, transformed f o at2 norm root n = Some (Ok out) /\
    Forall2 stroke_eq (map (smap (placed o tr 0 0 1 1)) (drawing o l)) (drawing o out).
Proof. exact transformed_image. Qed.
Example ex_transformed : let n := rect_el None (Some "translate(3) scale(2)"%string) 1 2 3 in
  path_data 1 quarter_oracle at0 false ex_root n = Some (Ok (square 1 2 3)) /\ tidy (square 1 2 3) /\
  transforms (self n) [TTranslate 3 0; TScale 2 2].
Proof. split; [reflexivity|]. split; [apply square_tidy|]. right. split; [discriminate|vm_compute; reflexivity]. Qed.
Print Assumptions c68_transformed_partial.

(** Finding: an empty transform attribute (or one with no transform function)
    makes it fail instead of changing nothing. *)
Theorem c68_empty_transform : forall f o at2 norm root n p l t, own_outline n ->
  path_data f o at2 norm root n = Some (Ok (SM false p :: l)) ->
  el_transform (self n) = Some t -> t <> lit "none" -> parse_transforms t = Ok [] ->
  transformed f o at2 norm root n = Some (Err AttributeError).
Proof.
  intros f o at2 norm root n p l t Hs E Et Nt Pt. unfold transformed. rewrite E.
  destruct (text_eqb_spec (el_name (self n)) (lit "use")) as [U|U].
  { exfalso. unfold own_outline, name in Hs. rewrite U in Hs. cbn [In] in Hs. repeat (destruct Hs as [Hs|Hs]; [discriminate|]). destruct Hs. }
  cbn [bind]. unfold apply_own, transform_of. rewrite Et. destruct (text_eqb_spec t (lit "none")); [contradiction|].
  rewrite Pt. cbn [bind]. reflexivity.
Qed.
Example ex_empty_transform : parse_transforms [] = Ok [] /\ parse_transforms (lit "foo") = Ok [].
Proof. split; vm_compute; reflexivity. Qed.
Print Assumptions c68_empty_transform.

(** ** False of this code *)
(** Wanted: the path data of a container draw what its children draw one by
    one, for all outlines.  A second child that begins with a relative moveto
    is drawn from the end of the first one. *)
Theorem c68_relative_refuted : exists root n a b la lb l,
  children n = [a; b] /\ grouping n /\
  path_data 9 quarter_oracle at0 false root a = Some (Ok la) /\ path_data 9 quarter_oracle at0 false root b = Some (Ok lb) /\
  path_data 9 quarter_oracle at0 false root n = Some (Ok l) /\
  ~ Forall2 stroke_eq (drawing quarter_oracle la ++ drawing quarter_oracle lb) (drawing quarter_oracle l).
Proof.
  pose (a := Node (tag "path" None None [SM false (P 5 5); SL false (P 9 9)]) []).
  pose (b := Node (tag "path" None None [SM true (P 1 1); SL false (P 2 2)]) []).
  exists ex_root, (group_el None None [a; b]), a, b. do 3 eexists. split; [reflexivity|]. split; [left; reflexivity|].
  split; [reflexivity|]. split; [reflexivity|]. split; [reflexivity|].
  intros H. inversion H as [|? ? ? ? _ H1]; subst. inversion H1 as [|? ? ? ? _ H2]; subst. inversion H2 as [|? ? ? ? H3 _]; subst.
  destruct H3 as [K _]. vm_compute in K. discriminate.
Qed.
Print Assumptions c68_relative_refuted.
(** The same for a child that ends with a moveto: the next child's moveto is
    then read as a lineto. *)
Theorem c68_trailing_refuted : exists root n a b la lb l,
  children n = [a; b] /\ grouping n /\
  path_data 9 quarter_oracle at0 false root a = Some (Ok la) /\ path_data 9 quarter_oracle at0 false root b = Some (Ok lb) /\
  path_data 9 quarter_oracle at0 false root n = Some (Ok l) /\
  ~ Forall2 stroke_eq (drawing quarter_oracle la ++ drawing quarter_oracle lb) (drawing quarter_oracle l).
Proof.
  pose (a := Node (tag "path" None None [SM false (P 5 5); SL false (P 9 9); SM false (P 1 1)]) []).
  pose (b := Node (tag "path" None None [SM false (P 2 1); SL false (P 2 2)]) []).
  exists ex_root, (group_el None None [a; b]), a, b. do 3 eexists. split; [reflexivity|]. split; [left; reflexivity|].
  split; [reflexivity|]. split; [reflexivity|]. split; [reflexivity|].
  intros H. do 3 (inversion H as [|? ? ? ? _ H1]; subst; clear H; rename H1 into H).
  inversion H as [|? ? ? ? H3 _]; subst. exact H3.
Qed.
Print Assumptions c68_trailing_refuted.
(** Wanted: a container shows its children with their transforms.  The path
    data of a container leave them out. *)
Theorem c68_child_transform_refuted : exists root n c lc l,
  children n = [c] /\ grouping n /\ transformed 9 quarter_oracle at0 false root c = Some (Ok lc) /\
  path_data 9 quarter_oracle at0 false root n = Some (Ok l) /\
  ~ Forall2 stroke_eq (drawing quarter_oracle lc) (drawing quarter_oracle l).
Proof.
  pose (c := rect_el None (Some "translate(7)"%string) 0 0 1).
  exists ex_root, (group_el None None [c]), c. do 2 eexists. split; [reflexivity|]. split; [left; reflexivity|].
  split; [vm_compute; reflexivity|]. split; [reflexivity|].
  intros H. inversion H as [|? ? ? ? H3 _]; subst. destruct H3 as [K _]. vm_compute in K. discriminate.
Qed.
Print Assumptions c68_child_transform_refuted.
(** Wanted: the transformed path data of a 'use' are its path data (its
    transform is part of them).  They get the transform once more, and the
    box with them: moved by 7 it is found at 14. *)
Theorem c68_use_twice_refuted : exists root n ds l b,
  reusing n /\ shows quarter_oracle (asked quarter_oracle at0 true) root n ds /\
  transformed 9 quarter_oracle at0 true root n = Some (Ok l) /\
  ~ Forall2 stroke_eq ds (drawing quarter_oracle l) /\
  leaf_bbox 9 quarter_oracle at0 root n = Some (Ok b) /\ exists x, rx b = Some x /\ x == 14.
Proof.
  pose (r := rect_el (Some "r"%string) None 0 0 1). pose (u := use_el None (Some "translate(7)"%string) "#r"%string (0, 0, 0, 0)).
  pose (root := svg_el None [r; u]).
  exists root, u, (map (smap (placed quarter_oracle [TTranslate 7 0] 0 0 1 1)) (drawing quarter_oracle (square 0 0 1))).
  do 2 eexists. split; [reflexivity|]. split; [|split; [vm_compute; reflexivity|]].
  - apply (shows_use _ _ _ u r _ [TTranslate 7 0] 0 0 0 0); try reflexivity.
    + exists (lit "r"). split; [left; split; [discriminate|reflexivity]|]. exists [root], [u]. repeat split. repeat constructor; discriminate.
    + left. unfold own_outline; cbn [In]; intuition.
    + apply shows_shape; [unfold own_outline; cbn [In]; intuition|]. exists (square 0 0 1). split; [reflexivity|vm_compute; reflexivity].
    + right. split; [discriminate|vm_compute; reflexivity].
    + intros [[K|K] _]; discriminate K.
  - split; [|split; [vm_compute; reflexivity|eexists; split; reflexivity]].
    intros H. inversion H as [|? ? ? ? H3 _]; subst. destruct H3 as [K _]. vm_compute in K. discriminate.
Qed.
Print Assumptions c68_use_twice_refuted.
