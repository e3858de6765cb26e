(** C43: screen orientation. *)
From Coq Require Import Qround.
From Verif Require Import PyBase PyText ScreenModel.
#[local] Open Scope Z_scope.

Lemma while_over_ok n : forall a, a < 360 * Z.of_nat n -> while_over n a < 360 /\ exists k, while_over n a = a + 360 * k /\ (a < 360 -> k = 0) /\ (0 <= a -> 0 <= while_over n a).
Proof.
  induction n as [|n IH]; intros a H; cbn [while_over]; [split; [lia|]; exists 0; lia|]. destruct (Z.leb_spec 360 a) as [L|L].
  - destruct (IH (a - 360)) as (A & k & B & C & D); [lia|]. split; [exact A|]. exists (k - 1). repeat split; lia.
  - split; [exact L|]. exists 0. lia.
Qed.
Lemma while_under_ok n : forall a, - a <= 360 * Z.of_nat n -> 0 <= while_under n a /\ exists k, while_under n a = a + 360 * k /\ (a < 360 -> while_under n a < 360).
Proof.
  induction n as [|n IH]; intros a H; cbn [while_under]; [split; [lia|]; exists 0; lia|]. destruct (Z.ltb_spec a 0) as [L|L].
  - destruct (IH (a + 360)) as (A & k & B & C); [lia|]. split; [exact A|]. exists (k + 1). split; [lia|]. intros _. apply C. lia.
  - split; [exact L|]. exists 0. split; lia.
Qed.
Lemma set_angle_ok x : 0 <= set_angle x < 360 /\ exists k, set_angle x = quarter x + 360 * k.
Proof.
  unfold set_angle. set (a := quarter x). set (n := S (Z.abs_nat a)). assert (N : Z.abs a < Z.of_nat n) by (unfold n; rewrite Nat2Z.inj_succ, Zabs2Nat.id_abs; lia).
  destruct (while_over_ok n a) as (A & k & B & C & D); [lia|]. destruct (while_under_ok n (while_over n a)) as (E & j & F & G); [destruct (Z.leb_spec 0 a); [lia|]; specialize (C ltac:(lia)); subst k; lia|].
  split; [split; [exact E|now apply G]|]. exists (k + j). lia.
Qed.
Lemma quarter_cong x k : quarter (x + inject_Z (90 * k)) = quarter x + 90 * k.
Proof.
  unfold quarter. assert (E : ((x + inject_Z (90 * k)) / 90 == x / 90 + inject_Z k)%Q).
  { rewrite inject_Z_mult. change (inject_Z 90) with 90%Q. field. }
  rewrite E. clear E. assert (F : Qfloor (x / 90 + inject_Z k) = Qfloor (x / 90) + k).
  { destruct (x / 90)%Q as [n d]. unfold Qfloor, Qplus, inject_Z. cbn. rewrite Z.mul_1_r, Pos.mul_1_r. apply Z.div_add. discriminate. }
  rewrite F. ring.
Qed.

(** Whatever number is assigned, the angle becomes one of the four right angles. *)
Theorem c43_four x : In (set_angle x) [0; 90; 180; 270].
Proof.
  destruct (set_angle_ok x) as ((A & B) & k & E). unfold quarter in E.
  assert (M : set_angle x = 90 * (Qfloor (x / 90) + 4 * k)) by lia. set (m := Qfloor (x / 90) + 4 * k) in *. clearbody m. rewrite M in *. clear M E. assert (C : m = 0 \/ m = 1 \/ m = 2 \/ m = 3) by lia. destruct C as [->|[->|[->| ->]]]; cbn; tauto.
Qed.
Print Assumptions c43_four.
(** It is the assigned angle rounded down to a quarter turn, up to whole turns. *)
Theorem c43_rounded x : exists k, (inject_Z (set_angle x + 360 * k) <= x < inject_Z (set_angle x + 360 * k + 90))%Q.
Proof.
  destruct (set_angle_ok x) as (_ & k & E). exists (- k). replace (set_angle x + 360 * - k) with (quarter x) by lia. unfold quarter.
  assert (L := Qfloor_le (x / 90)). assert (U := Qlt_floor (x / 90)). rewrite inject_Z_plus in U. set (f := Qfloor (x / 90)) in *. clearbody f.
  assert (X : (x == x / 90 * 90)%Q) by field. rewrite inject_Z_plus, inject_Z_mult. change (inject_Z 90) with 90%Q. change (inject_Z 1) with 1%Q in U. set (q := (x / 90)%Q) in *. clearbody q. split; rewrite X; lra.
Qed.
Print Assumptions c43_rounded.
Example c43_rounded_ex : set_angle (-1) = 270 /\ set_angle (1000 # 1) = 270 /\ set_angle (899 # 10) = 0 /\ set_angle (-720) = 0. Proof. repeat split; reflexivity. Qed.
(** The angle is decided by these two facts, so whole turns do not matter. *)
Theorem c43_turns x k : set_angle (x + inject_Z (360 * k)) = set_angle x.
Proof.
  destruct (set_angle_ok x) as (A & i & E). destruct (set_angle_ok (x + inject_Z (360 * k))) as (B & j & F). replace (360 * k) with (90 * (4 * k)) in F by ring. rewrite quarter_cong in F.
  replace (90 * (4 * k)) with (360 * k) in F by ring. lia.
Qed.
Print Assumptions c43_turns.
Example c43_turns_ex : set_angle (100 + inject_Z (360 * -5))%Q = 90. Proof. reflexivity. Qed.

(* which way up a screen is: landscape when wider than high, unless turned by a quarter *)
Definition natural_landscape (s : screen) : bool := s_height s <? s_width s.
Definition turned (s : screen) : bool := (s_angle s =? 90) || (s_angle s =? 270).
Definition upside (s : screen) : bool := (s_angle s =? 180) || (s_angle s =? 270).
Definition described (landscape secondary : bool) : text :=
  lit (if landscape then "landscape" else "portrait") ++ lit (if secondary then "-secondary" else "-primary").

(** After any assignments the angle is a right angle, and the type is the shape of the
    screen as it stands turned, primary for the first two quarter turns. *)
Theorem c43_history ops : let s := fold_left sstep ops new_screen in
  In (s_angle s) [0; 90; 180; 270] /\ orientation_type s = described (xorb (natural_landscape s) (turned s)) (upside s).
Proof.
  assert (R : forall ops s, In (s_angle s) [0; 90; 180; 270] -> In (s_angle (fold_left sstep ops s)) [0; 90; 180; 270]).
  { clear ops. induction ops as [|o ops IH]; intros s H; [exact H|]. cbn [fold_left]. apply IH. destruct o; try exact H. apply c43_four. }
  cbn zeta. assert (H := R ops new_screen ltac:(cbn; tauto)). split; [exact H|]. set (s := fold_left sstep ops new_screen) in *. clearbody s.
  unfold orientation_type, described, natural_landscape, turned, upside. destruct (s_height s <? s_width s), H as [<-|[<-|[<-|[<-|[]]]]]; reflexivity.
Qed.
Print Assumptions c43_history.
Example c43_history_ex : let s := fold_left sstep [SWidth 600; SHeight 800; SAngle 450; SDepth 30] new_screen in s_angle s = 90 /\ orientation_type s = lit "landscape-primary".
Proof. split; reflexivity. Qed.
(** Assigning one property leaves the others alone, and sizes only move the type. *)
Theorem c43_independent s o : 
  (match o with SWidth _ => True | _ => s_width (sstep s o) = s_width s end) /\ (match o with SHeight _ => True | _ => s_height (sstep s o) = s_height s end) /\
  (match o with SAngle _ => True | _ => s_angle (sstep s o) = s_angle s end) /\ (match o with SDepth _ => True | _ => s_depth (sstep s o) = s_depth s end) /\
  (match o with SHres _ => True | _ => s_hres (sstep s o) = s_hres s end) /\ (match o with SVres _ => True | _ => s_vres (sstep s o) = s_vres s end) /\
  (match o with SMono _ => True | _ => s_mono (sstep s o) = s_mono s end) /\ (match o with SRatio _ => True | _ => s_ratio (sstep s o) = s_ratio s end).
Proof. destruct o; repeat split. Qed.
Print Assumptions c43_independent.
(** A whole number assigned is the number read back. *)
Theorem c43_read_back s z : s_width (sstep s (SWidth (inject_Z z))) = z /\ s_height (sstep s (SHeight (inject_Z z))) = z /\ s_depth (sstep s (SDepth (inject_Z z))) = z /\
  s_hres (sstep s (SHres (inject_Z z))) = z /\ s_vres (sstep s (SVres (inject_Z z))) = z /\ s_mono (sstep s (SMono (inject_Z z))) = z.
Proof. assert (E : to_int (inject_Z z) = z) by (unfold to_int; cbn; apply Z.quot_1_r). cbn. now rewrite E. Qed.
Print Assumptions c43_read_back.
Example c43_read_back_ex : s_width (sstep new_screen (SWidth (19205 # 10))) = 1920. Proof. reflexivity. Qed.
