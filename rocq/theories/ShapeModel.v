(** Model of the path data of the basic shapes (svgpy/element.py).  The
    computed geometry is given as numbers; how the attributes become numbers
    is modelled elsewhere.  A radius attribute is [None] for 'auto', else the
    pair of its value as a horizontal and as a vertical length (they differ
    for percentages). *)
From Verif Require Import PyBase PyText FormatModel NumScan PathModel.
Local Open Scope Q_scope.

(* element.py:332-357 SVGEllipseElement.get_path_data without the settings *)
Definition ellipse_path (cx cy rx ry : Q) : list seg :=
  if (rx <=?q 0) || (ry <=?q 0) then []
  else [SM false (P (cx + rx) cy); SA false rx ry 0 0 1 (P cx (cy + ry));
        SA false rx ry 0 0 1 (P (cx - rx) cy); SA false rx ry 0 0 1 (P cx (cy - ry));
        SA false rx ry 0 0 1 (P (cx + rx) cy); SZ false].
(* element.py:208-232 SVGCircleElement.get_path_data *)
Definition circle_path (cx cy r : Q) : list seg :=
  if r <=?q 0 then []
  else [SM false (P (cx + r) cy); SA false r r 0 0 1 (P cx (cy + r));
        SA false r r 0 0 1 (P (cx - r) cy); SA false r r 0 0 1 (P cx (cy - r));
        SA false r r 0 0 1 (P (cx + r) cy); SZ false].
Definition radius := option (Q * Q).
(* element.py:284-308: rx, ry of an ellipse; 'auto' copies the other text *)
Definition ellipse_radii (rx ry : radius) : Q * Q :=
  let ry' := match rx, ry with Some v, None => Some v | _, _ => ry end in
  let rx' := match rx, ry with None, Some v => Some v | _, _ => rx end in
  match rx', ry' with
  | Some (h, _), Some (_, v) => (h, v)
  | _, _ => (0, 0)
  end.
(* element.py:447-471 SVGLineElement.get_path_data *)
Definition line_path (x1 y1 x2 y2 : Q) : list seg :=
  if isclose (x2 - x1) 0 && isclose (y2 - y1) 0 then []
  else [SM false (P x1 y1); SL false (P x2 y2)].
(* element.py:615-637 SVGPolylineElement.get_path_data *)
Definition polyline_path (l : list pt) : list seg :=
  match l with
  | [] => []
  | p :: l' => SM false p :: map (SL false) l'
  end.
(* element.py:578-601 SVGPolygonElement.get_path_data *)
Definition polygon_path (l : list pt) : list seg :=
  match l with
  | [] => []
  | p :: l' => SM false p :: match l' with [] => [] | _ => map (SL false) l' ++ [SZ false] end
  end.
(* element.py:689-720: rx, ry of a rect *)
Definition rect_radii (width height : Q) (rx ry : radius) : Q * Q :=
  match rx, ry with
  | None, None => (0, 0)
  | _, _ =>
      let h := match rx with None => 0 | Some (h, _) => h end in
      let v := match ry with None => 0 | Some (_, v) => v end in
      let v' := match rx, ry with Some _, None => h | _, _ => v end in
      let h' := match rx, ry with None, Some _ => v | _, _ => h end in
      (if width / 2 <?q h' then width / 2 else h', if height / 2 <?q v' then height / 2 else v')
  end.
(* element.py:742-787 SVGRectElement.get_path_data *)
Definition rect_path (x y w h rx ry : Q) : list seg :=
  if (w <=?q 0) || (h <=?q 0) then [] else
  let square := (rx <=?q 0) || (ry <=?q 0) in
  let rx := if square then 0 else rx in let ry := if square then 0 else ry in
  let arc ex ey := if square then [] else [SA false rx ry 0 0 1 (P ex ey)] in
  [SM false (P (x + rx) y); SH false (x + w - rx)] ++ arc (x + w) (y + ry)
  ++ [SV false (y + h - ry)] ++ arc (x + w - rx) (y + h)
  ++ [SH false (x + rx)] ++ arc x (y + h - ry)
  ++ [SV false (y + ry)] ++ arc (x + rx) y ++ [SZ false].

(* base.py:97-125 SVGAnimatedPoints.points, getter on the attribute's text
   and setter; formatting as in formatter.py *)
Definition get_points (t : text) : list (Q * Q) :=
  let l := scan_numbers (strip t) in
  if Nat.even (length l) then to_pairs l else [].
Definition set_points (l : list (Q * Q)) : text := format_pairs precision l.
