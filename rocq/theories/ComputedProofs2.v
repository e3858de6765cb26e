(** Lemmas on computed style: its parts. *)
From Coq Require Import Lia Lqa.
From Verif Require Import PyBase PyText PySplit PyStrip PyDict NumScan FormatModel FormatSpec FontTextModel CascadeModel CascadeSpec CascadeProofs CascadeProofs2 CascadeProofs3 CascadeProps
  FeatModel LengthModel LengthSpec LengthProofs FontSizeModel FontSizeSpec FontSizeProofs GeomModel GeomSpec GeomProofs ComputedModel ComputedSpec ComputedProofs.
#[local] Open Scope Q_scope.

(** ** The steps of get_computed_style *)
Record parts (shlex : text -> result (list text)) (k : calls) (chain : list snode) (r : dict cval) : Type := mkParts {
  p_s : dict sval; p_feat : dict N; p_size : Q; p_adjust : cval; p_weight : Z; p_line : Q; p_inline : Q; p_stroke : Q; p_tab : Q; p_geo : dict gval;
  p_feat_t : text; p_synth_t : text; p_weight_t : text; p_line_t : text; p_inline_t : text; p_mode_t : text; p_stroke_t : text; p_tab_t : text;
  q_s : inherited_style shlex chain = Ok p_s;
  q_feat_t : style_at p_s (lit "font-feature-settings") = Ok p_feat_t;
  q_feat : parse_font_feature_settings p_feat_t = Ok p_feat;
  q_size : size_from k chain p_s = Ok p_size;
  q_adjust : size_adjust p_s = Ok p_adjust;
  q_synth_t : style_at p_s (lit "font-synthesis") = Ok p_synth_t;
  q_weight_t : style_at p_s (lit "font-weight") = Ok p_weight_t;
  q_weight : compute_font_weight p_weight_t (map (fun n => dget (s_attr n) (lit "font-weight")) (tl chain)) None = Ok p_weight;
  q_line_t : style_at p_s (lit "line-height") = Ok p_line_t;
  q_line : compute_line_height (line_at k chain) p_line_t p_size = Ok p_line;
  q_inline_t : style_at p_s (lit "inline-size") = Ok p_inline_t;
  q_mode_t : style_at p_s (lit "writing-mode") = Ok p_mode_t;
  q_inline : length_at k [] (Some (line_direction p_mode_t)) p_inline_t = Ok p_inline;
  q_stroke_t : style_at p_s (lit "stroke-width") = Ok p_stroke_t;
  q_stroke : length_at k chain (Some Unspecified) p_stroke_t = Ok p_stroke;
  q_tab_t : style_at p_s (lit "tab-size") = Ok p_tab_t;
  q_tab : length_at k chain (Some Unspecified) p_tab_t = Ok p_tab;
  q_geo : (match map s_geo chain with [] => Err AttributeError | g :: l => computed_geometry g l end) = Ok p_geo;
  q_r : r = dupdate (dupdate (map (fun p => (fst p, cval_of (snd p))) p_s)
     [(lit "font-feature-settings", CFeat p_feat); (lit "font-size", CNum p_size); (lit "font-size-adjust", p_adjust);
      (lit "font-synthesis", CList (synthesis p_synth_t)); (lit "font-weight", CInt p_weight); (lit "line-height", CNum p_line);
      (lit "inline-size", CNum p_inline); (lit "stroke-width", CNum p_stroke); (lit "tab-size", CNum p_tab)])
     (map (fun p => (fst p, CGeo (snd p))) p_geo) }.
Arguments p_s {_ _ _ _}. Arguments p_size {_ _ _ _}. Arguments p_adjust {_ _ _ _}. Arguments p_feat {_ _ _ _}. Arguments p_weight {_ _ _ _}. Arguments p_line {_ _ _ _}.
Arguments p_inline {_ _ _ _}. Arguments p_stroke {_ _ _ _}. Arguments p_tab {_ _ _ _}. Arguments p_geo {_ _ _ _}.
Arguments p_feat_t {_ _ _ _}. Arguments p_synth_t {_ _ _ _}. Arguments p_weight_t {_ _ _ _}. Arguments p_line_t {_ _ _ _}. Arguments p_inline_t {_ _ _ _}. Arguments p_mode_t {_ _ _ _}.
Arguments p_stroke_t {_ _ _ _}. Arguments p_tab_t {_ _ _ _}.
Lemma bind_invT {A B} (r : result A) (k : A -> result B) b : bind r k = Ok b -> {a | r = Ok a /\ k a = Ok b}.
Proof. destruct r as [a|e]; [intros H; exists a; now split|discriminate]. Qed.
Ltac inv_T H E := let a := fresh "a" in apply bind_invT in H; destruct H as (a & E & H).
Lemma computed_parts shlex k chain r : computed_style_with shlex k chain = Ok r -> parts shlex k chain r.
Proof.
  unfold computed_style_with. intros H.
  inv_T H Es. inv_T H Ef. inv_T Ef Ef1. inv_T H Esz. inv_T H Ea. inv_T H Ey. inv_T Ey Ey1. injection Ey as <-. inv_T H Ew. inv_T Ew Ew1.
  inv_T H El. inv_T El El1. inv_T H Ei. inv_T Ei Ei1. inv_T Ei Ei2. inv_T H Ek. inv_T Ek Ek1. inv_T H Et. inv_T Et Et1. inv_T H Eg. injection H as H. symmetry in H.
  econstructor; eassumption.
Qed.
Lemma parts_computed shlex k chain r : parts shlex k chain r -> computed_style_with shlex k chain = Ok r.
Proof.
  intros []. unfold computed_style_with. rewrite q_s0. cbn [bind]. rewrite q_feat_t0. cbn [bind]. rewrite q_feat0. cbn [bind]. rewrite q_size0. cbn [bind]. rewrite q_adjust0. cbn [bind].
  rewrite q_synth_t0. cbn [bind]. rewrite q_weight_t0. cbn [bind]. rewrite q_weight0. cbn [bind]. rewrite q_line_t0. cbn [bind]. rewrite q_line0. cbn [bind].
  rewrite q_inline_t0. cbn [bind]. rewrite q_mode_t0. cbn [bind]. rewrite q_inline0. cbn [bind]. rewrite q_stroke_t0. cbn [bind]. rewrite q_stroke0. cbn [bind].
  rewrite q_tab_t0. cbn [bind]. rewrite q_tab0. cbn [bind]. rewrite q_geo0. cbn [bind]. now rewrite q_r0.
Qed.
Lemma computed_le shlex k k' chain r : calls_le k k' -> computed_style_with shlex k chain = Ok r -> computed_style_with shlex k' chain = Ok r.
Proof.
  intros L H. apply computed_parts in H. apply parts_computed. destruct H.
  refine (mkParts shlex k' chain r p_s0 p_feat0 p_size0 p_adjust0 p_weight0 p_line0 p_inline0 p_stroke0 p_tab0 p_geo0 p_feat_t0 p_synth_t0 p_weight_t0 p_line_t0 p_inline_t0 p_mode_t0 p_stroke_t0 p_tab_t0
    _ _ _ _ _ _ _ _ _ _ _ _ _ _ _ _ _ _ _); try assumption.
  - exact (size_from_le k k' chain _ _ L q_size0).
  - exact (line_height_le _ _ _ _ _ (fun t x => line_le k k' chain t x L) q_line0).
  - exact (length_le k k' _ _ _ _ L q_stroke0).
  - exact (length_le k k' _ _ _ _ L q_tab0).
Qed.
Lemma level_step shlex f : calls_le (level shlex f) (level shlex (S f)).
Proof.
  induction f as [|f IH]; [split; discriminate|]. split; intros chain x H.
  - change (font_size_with shlex (level shlex f) chain = Ok x) in H. change (font_size_with shlex (level shlex (S f)) chain = Ok x).
    unfold font_size_with in *. inv_bind H. rewrite E. cbn [bind]. exact (size_from_le _ _ chain _ _ IH H).
  - change (computed_style_with shlex (level shlex f) chain = Ok x) in H. change (computed_style_with shlex (level shlex (S f)) chain = Ok x).
    exact (computed_le shlex _ _ chain x IH H).
Qed.
Lemma level_le shlex f g : (f <= g)%nat -> calls_le (level shlex f) (level shlex g).
Proof.
  induction 1 as [|g L IH]; [split; auto|]. destruct (level_step shlex g) as [A B]. destruct IH as [C D]. split; auto.
Qed.

(** ** The values *)
Lemma geometry_fresh name k : In k (map lit (geometry_keys name)) -> ~ In k nine /\ dget non_inherited k = None /\ ~ In k (dkeys inherited_props).
Proof.
  assert (H : forallb (fun k => negb (mem k nine) && negb (mem k (dkeys non_inherited)) && negb (mem k (dkeys inherited_props)))
     (map lit ["cx"; "cy"; "r"; "rx"; "ry"; "x1"; "y1"; "x2"; "y2"; "d"; "points"; "width"; "height"; "x"; "y"; "refX"; "refY"; "dx"; "dy"; "rotate"]%string) = true) by (vm_compute; reflexivity).
  rewrite forallb_forall in H. intros I.
  assert (J : In k (map lit ["cx"; "cy"; "r"; "rx"; "ry"; "x1"; "y1"; "x2"; "y2"; "d"; "points"; "width"; "height"; "x"; "y"; "refX"; "refY"; "dx"; "dy"; "rotate"]%string)).
  { revert I. unfold geometry_keys. cbv zeta. repeat match goal with |- context [if ?b then _ else _] => destruct b end; cbn; tauto. }
  specialize (H k J). rewrite !andb_true_iff, !negb_true_iff, !mem_not_in in H. destruct H as ((A & B) & C). split; [exact A|]. split; [|exact C]. now apply dget_keys.
Qed.
Lemma geometry_nodup name : NoDup (map lit (geometry_keys name)).
Proof.
  unfold geometry_keys. cbv zeta. repeat match goal with |- context [if ?b then _ else _] => destruct b end;
  cbn; repeat (constructor; [vm_compute; intuition discriminate|]); constructor.
Qed.
Lemma map_keys {A B} (f : A -> B) (d : dict A) : dkeys (map (fun p => (fst p, f (snd p))) d) = dkeys d.
Proof. unfold dkeys. rewrite map_map. reflexivity. Qed.
Lemma map_get {A B} (f : A -> B) (d : dict A) k : dget (map (fun p => (fst p, f (snd p))) d) k = option_map f (dget d k).
Proof. induction d as [|[x v] d IH]; [reflexivity|]. cbn [map dget fst snd]. destruct (text_eqb x k); [reflexivity|exact IH]. Qed.
