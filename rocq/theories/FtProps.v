(** C77: FTMatrix objects are the maps they are said to be. *)
From Coq Require Import NArith ZArith QArith Qabs Qfield Lia Lqa List.
From Verif Require Import PyBase PyText MatrixModel PathModel LayoutModel MatrixSpec MatrixProofs2 FtModel FtSpec FtProofs FtProofs2.
Import ListNotations.
#[local] Open Scope Q_scope.

(** ** Operations *)

(** Every operation post-multiplies: the new matrix does to a point what the
    operation does, then what the old matrix did.  Rotations, scales and skews
    are those of SVG, seen with y upwards. *)
Theorem c77_operation o h m p f : means o (map_at h) p = Some f ->
  exists m2, ft_do o (ft_at h) m p = Ok m2 /\ same_map (ft_apply m2) (fun x => ft_apply m (f x)).
Proof. apply do_ok. Qed.
Print Assumptions c77_operation.
(* a quarter turn of SVG takes the point on the right down; here y is upwards *)
Definition quarter_turns : oracle := Orc (fun _ => 0) (fun _ => 1) (fun _ => 1) (fun x => x).
Example c77_operation_ex : exists f m2, means quarter_turns (map_at []) (FRotate 90) = Some f /\ same (f (P 1 0)) (P 0 (-1)) /\
  ft_do quarter_turns (ft_at []) (mkFt 2 0 0 3) (FRotate 90) = Ok m2 /\ same (ft_apply m2 (P 1 0)) (P 0 (-3)).
Proof. do 2 eexists. split; [reflexivity|]. split; [split; vm_compute; reflexivity|]. split; [reflexivity|split; vm_compute; reflexivity]. Qed.
(** A list of them on one object, with other objects as factors. *)
Theorem c77_history o l h i m f : nth_error h i = Some m -> all_mean o (fun j => if Nat.eqb j i then None else map_at h j) l = Some f ->
  exists m2, nth_error (fold_left (ft_step o) (map (Change i) l) h) i = Some m2 /\ same_map (ft_apply m2) (fun x => ft_apply m (f x)).
Proof. intros. now apply history. Qed.
Print Assumptions c77_history.
Example c77_history_ex : exists f, all_mean quarter_turns (fun j => if Nat.eqb j 0 then None else map_at [ft_one; mkFt 1 5 0 1] j)
  [FScale 2 None; FMul 1; FSkewX 45; FFlipY] = Some f /\ same (f (P 1 1)) (P (-6) (-2)).
Proof. eexists. split; [reflexivity|]. split; vm_compute; reflexivity. Qed.
(** A method without _self changes no object, one with _self changes its own
    only: an object is what it was until a call changes it. *)
Theorem c77_untouched o l h i m : nth_error h i = Some m -> (forall c, In c l -> ~ changes i c) -> nth_error (fold_left (ft_step o) l h) i = Some m.
Proof. apply run_other. Qed.
Print Assumptions c77_untouched.
(** The copy that such a method returns is what the object would have become. *)
Theorem c77_derive o h i p h1 k : ft_call o h (Derive i p) = Ok (h1, k) ->
  exists h2, ft_call o h (Change i p) = Ok (h2, i) /\ nth_error h1 k = nth_error h2 i /\ firstn (length h) h1 = h /\ nth_error h k = None.
Proof.
  cbn [ft_call]. unfold ft_at at 1 3. destruct (nth_error h i) as [m|] eqn:N; [|discriminate]. cbn [bind]. destruct (ft_do o (ft_at h) m p) as [m2|]; [|discriminate].
  intros [= <- <-]. eexists. split; [reflexivity|]. split; [|split].
  - rewrite nth_error_app2, Nat.sub_diag by lia. symmetry. apply put_same. apply nth_error_Some. congruence.
  - rewrite firstn_app, firstn_all, Nat.sub_diag. cbn. apply app_nil_r.
  - now apply nth_error_None.
Qed.
Print Assumptions c77_derive.
Example c77_derive_ex : let l := [Make; FromArray [1; 2; 3; 4]; Derive 0 (FScale 2 (Some 3)); Derive 2 (FMul 1); Change 1 FClear] in
  map ft_to_array (ft_run quarter_turns l) = [[1; 0; 0; 1]; [1; 0; 0; 1]; [2; 0; 0; 3]; [2; 4; 9; 12]] /\
  (exists h1, ft_call quarter_turns (ft_run quarter_turns l) (Derive 3 FInvert) = Ok (h1, 4%nat)) /\ forall c, In c [Make; Derive 0 FFlipX] -> ~ changes 0 c.
Proof. split; [vm_compute; reflexivity|]. split; [eexists; vm_compute; reflexivity|]. intros c [<-|[<-|[]]] (p & E); discriminate. Qed.

(** Turning keeps the determinant and adds up. *)
Theorem c77_rotate o h m a m2 : unit_angle o a -> ft_do o (ft_at h) m (FRotate a) = Ok m2 -> ft_det m2 == ft_det m.
Proof.
  intros U [= <-]. unfold unit_angle in U. unfold ft_det. cbn. transitivity ((f00 m * f11 m - f01 m * f10 m) * (ocos o a * ocos o a + osin o a * osin o a)); [ring|]. rewrite U. ring.
Qed.
Print Assumptions c77_rotate.
Theorem c77_rotations_add o h m a b m1 m2 m3 : adds o a b -> ft_do o (ft_at h) m (FRotate a) = Ok m1 -> ft_do o (ft_at h) m1 (FRotate b) = Ok m2 ->
  ft_do o (ft_at h) m (FRotate (a + b)) = Ok m3 -> ft_eqb m2 m3 = true.
Proof.
  intros [C Z] [= <-] [= <-] [= <-]. unfold ft_eqb. cbn. rewrite !andb_true_iff. repeat split; apply Qeq_bool_iff; rewrite C, Z; ring.
Qed.
Print Assumptions c77_rotations_add.
Definition half_turns : oracle := Orc (fun a => if a =?q 180 then -1 else 1) (fun _ => 0) (fun _ => 0) (fun x => x).
Example c77_rotate_ex : unit_angle half_turns 180 /\ adds half_turns 180 180 /\ (exists m, ft_do half_turns (ft_at []) ft_one (FRotate 180) = Ok m /\ same (ft_apply m (P 2 3)) (P (-2) (-3))).
Proof. split; [vm_compute; reflexivity|]. split; [split; vm_compute; reflexivity|]. eexists. split; [reflexivity|split; vm_compute; reflexivity]. Qed.

(** ** Inverse *)

Theorem c77_inverse m n : ft_inv m = Ok n ->
  same_map (fun p => ft_apply m (ft_apply n p)) (fun p => p) /\ same_map (fun p => ft_apply n (ft_apply m p)) (fun p => p).
Proof. apply inv_ok. Qed.
Print Assumptions c77_inverse.
(** There is none exactly for a matrix that flattens the plane. *)
Theorem c77_singular m : (exists e, ft_inv m = Err e) <-> flattens (ft_apply m).
Proof. rewrite inv_err. symmetry. apply flat_det. Qed.
Print Assumptions c77_singular.
Example c77_inverse_ex : (exists n, ft_inv (mkFt 1 2 3 4) = Ok n /\ ft_eqb n (mkFt (-2) 1 (3 # 2) (- 1 # 2)) = true) /\ ft_inv (mkFt 1 2 2 4) = Err LinAlgError.
Proof. split; [eexists; split; [reflexivity|vm_compute; reflexivity]|reflexivity]. Qed.
(** Matrices are equal when they do the same. *)
Theorem c77_equal a b : ft_eqb a b = true <-> same_map (ft_apply a) (ft_apply b).
Proof.
  unfold ft_eqb. rewrite !andb_true_iff, !Qeq_bool_iff. split.
  - intros [[[A B] C] D] p. split; cbn; [rewrite A, B|rewrite C, D]; reflexivity.
  - intros H. destruct (H (P 1 0)) as [A C]. destruct (H (P 0 1)) as [B D]. cbn in *. repeat split; lra.
Qed.
Print Assumptions c77_equal.

(** ** Numbers in and out *)

Theorem c77_entries m e v : get_entry (set_entry m e v) e = v /\
  (forall e2, get_entry (set_entry m e v) e2 = v \/ get_entry (set_entry m e v) e2 = get_entry m e2) /\ set_entry m e (get_entry m e) = m.
Proof. destruct m, e; (split; [reflexivity|split; [intros []; cbn; auto|reflexivity]]). Qed.
Print Assumptions c77_entries.
(** Two names are the same entry exactly when they are in the same place of
    (a, b, c, d) and (xx, xy, yx, yy). *)
Theorem c77_names : (forall m, get_entry m Ea = get_entry m Exx /\ get_entry m Eb = get_entry m Exy /\ get_entry m Ec = get_entry m Eyx /\ get_entry m Ed = get_entry m Eyy) /\
  (forall m e v, In e [Ea; Eb; Ec; Ed] -> forall e2, In e2 [Ea; Eb; Ec; Ed] -> e2 <> e -> get_entry (set_entry m e v) e2 = get_entry m e2).
Proof. split; [intros m; repeat split|]. intros m e v [<-|[<-|[<-|[<-|[]]]]] e2 [<-|[<-|[<-|[<-|[]]]]] N; try reflexivity; congruence. Qed.
Print Assumptions c77_names.
(** The documentation says that b is yx and c is xy. *)
Theorem c77_names_refuted : exists m, ~ get_entry m Eb == get_entry m Eyx /\ ~ get_entry m Ec == get_entry m Exy.
Proof. exists (mkFt 1 2 3 4). split; discriminate. Qed.
Print Assumptions c77_names_refuted.
Theorem c77_array m l : ft_from_array (ft_to_array m) = Ok m /\ (ft_from_array l = Ok m -> ft_to_array m = l) /\ (ft_from_array l = Err ValueError <-> length l <> 4%nat).
Proof.
  destruct m. split; [reflexivity|]. split.
  - destruct l as [|a [|b [|c [|d [|]]]]]; cbn; intros E; try discriminate. now injection E as <- <- <- <-.
  - destruct l as [|a [|b [|c [|d [|x l]]]]]; cbn; split; try (intros _; lia); try (intros _; reflexivity); try (intros E; discriminate); try lia.
Qed.
Print Assumptions c77_array.
(** A matrix of the C library comes back as it was. *)
Theorem c77_fixed f : to_fixed (of_fixed f) = f.
Proof. destruct f as [a b c d]. unfold to_fixed, of_fixed. cbn. now rewrite !trunc_fixed. Qed.
Print Assumptions c77_fixed.
(** What the C library gets is near, and never larger. *)
Theorem c77_near m e : Qabs (get_entry (outline_matrix m) e - get_entry m e) < 1 / 65536 /\ Qabs (get_entry (outline_matrix m) e) <= Qabs (get_entry m e).
Proof. destruct e; apply fixed_near. Qed.
Print Assumptions c77_near.
Theorem c77_outline m p : Qabs (ptx (ft_apply (outline_matrix m) p) - ptx (ft_apply m p)) <= (Qabs (ptx p) + Qabs (pty p)) / 65536 /\
  Qabs (pty (ft_apply (outline_matrix m) p) - pty (ft_apply m p)) <= (Qabs (ptx p) + Qabs (pty p)) / 65536.
Proof.
  split.
  - setoid_replace (ptx (ft_apply (outline_matrix m) p) - ptx (ft_apply m p)) with
      ((get_entry (outline_matrix m) Ea - get_entry m Ea) * ptx p + (get_entry (outline_matrix m) Eb - get_entry m Eb) * pty p) by (cbn; ring).
    apply part_near; apply c77_near.
  - setoid_replace (pty (ft_apply (outline_matrix m) p) - pty (ft_apply m p)) with
      ((get_entry (outline_matrix m) Ec - get_entry m Ec) * ptx p + (get_entry (outline_matrix m) Ed - get_entry m Ed) * pty p) by (cbn; ring).
    apply part_near; apply c77_near.
Qed.
Print Assumptions c77_outline.
Example c77_near_ex : ft_to_array (outline_matrix (mkFt (1 # 3) (-1 # 3) 2 (1 # 100000))) = ft_to_array (of_fixed (mkFx 21845 (-21845) 131072 0)).
Proof. vm_compute. reflexivity. Qed.

(** ** A matrix of SVG *)

(** from_glyph (path.py 1241-1246) copies a, b, c and d of a DOMMatrix to the
    properties of those names: with y upwards that is the matrix exactly when
    b is the opposite of c, as for rotations and scales. *)
Theorem c77_from_dom m : same_map (ft_apply (set_entry (set_entry (set_entry (set_entry ft_one Ea (m11 (arr m))) Eb (m12 (arr m))) Ec (m21 (arr m))) Ed (m22 (arr m))))
    (upwards (svg_linear m)) <-> m12 (arr m) == - m21 (arr m).
Proof.
  cbn. split.
  - intros H. destruct (H (P 1 0)) as [_ B]. cbn in B. lra.
  - intros E p. split; cbn; rewrite E; ring.
Qed.
Print Assumptions c77_from_dom.
(** False: that it is the matrix.  A skew becomes another skew. *)
Theorem c77_from_dom_refuted : exists m p, is2d m = true /\ same (ft_apply (ft_of m) p) (P 1 0) /\ same (upwards (svg_linear m) p) (P 2 (-1)).
Proof. exists (DM (matrix2d 1 0 1 1 0 0) true), (P 1 (-1)). split; [reflexivity|]. split; split; vm_compute; reflexivity. Qed.
Print Assumptions c77_from_dom_refuted.
Example c77_from_dom_ex : exists m, is2d m = true /\ m12 (arr m) == - m21 (arr m) /\ ~ m12 (arr m) == 0 /\ same (upwards (svg_linear m) (P 2 1)) (P (11 # 5) (-2 # 5)).
Proof. exists (DM (matrix2d (4 # 5) (3 # 5) (-3 # 5) (4 # 5) 7 8) true). do 2 (split; [vm_compute; reflexivity|]). split; [discriminate|split; vm_compute; reflexivity]. Qed.

(** ** Tags *)
#[local] Open Scope N_scope.
(** Four characters of one byte each come back from their tag. *)
Theorem c77_tag a b c d : a < 256 -> b < 256 -> c < 256 -> d < 256 -> ft_tag a b c d < 2 ^ 32 /\ ft_tag_to_string (ft_tag a b c d) = Ok [a; b; c; d].
Proof.
  intros A B C D. rewrite tag_value by assumption. split; [change (2 ^ 32) with 4294967296; lia|]. rewrite tag_string by lia.
  assert (E : forall x y, y < 256 -> (x * 256 + y) / 256 = x) by (intros; rewrite N.div_add_l by lia; rewrite N.div_small by assumption; lia).
  assert (M : forall x y, y < 256 -> (x * 256 + y) mod 256 = y) by (intros; rewrite N.add_comm, N.mod_add by lia; now apply N.mod_small).
  change 16777216 with (256 * 256 * 256). change 65536 with (256 * 256). rewrite <- !N.div_div by lia. now rewrite !E, !M by assumption.
Qed.
Print Assumptions c77_tag.
(** Every number of 32 bits is the tag of its characters. *)
Theorem c77_tag_back t : t < 2 ^ 32 -> exists a b c d, ft_tag_to_string t = Ok [a; b; c; d] /\ a < 256 /\ b < 256 /\ c < 256 /\ d < 256 /\ ft_tag a b c d = t.
Proof.
  change (2 ^ 32) with 4294967296. intros H. rewrite tag_string by lia. do 4 eexists. split; [reflexivity|].
  split; [apply N.div_lt_upper_bound; lia|]. do 3 (split; [apply N.mod_upper_bound; lia|]). rewrite tag_value by (apply N.mod_upper_bound; lia).
  change 16777216 with (256 * 256 * 256). change 65536 with (256 * 256). rewrite <- !N.div_div by lia.
  assert (E : forall x, x / 256 * 256 + x mod 256 = x) by (intros; rewrite N.mul_comm; symmetry; apply N.div_mod; lia). now rewrite !E.
Qed.
Print Assumptions c77_tag_back.
(** Other characters run into their neighbours. *)
Theorem c77_tag_refuted : exists a b c d b2, b <> b2 /\ ft_tag a b c d = ft_tag a b2 c d.
Proof. exists 97, 98, 99, 100, (98 + 256). split; [discriminate|reflexivity]. Qed.
Print Assumptions c77_tag_refuted.
Example c77_tag_ex : ft_tag 111 117 116 108 = 1869968492 /\ ft_tag_to_string 1869968492 = Ok (lit "outl").
Proof. split; reflexivity. Qed.
