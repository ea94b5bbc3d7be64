(* Invariant of the trackball *)
From Coq Require Import ZArith List Lia Bool Ring Field.
From Verif Require Import MatrixModel MatrixSpec QuatModel QuatSpec QuatProofs QuatProofs2 CurveMemModel CurveMemSpec CurveMemProofs2 TrackGeoModel TrackGeoSpec TrackGeoProofs ArrLib.
Import ListNotations.
Close Scope nat_scope.
Close Scope Z_scope.

Section G.
  Variable T : ops.
  Hypothesis OF : ordered_field T.
  Add Field fld : (of_field T OF).
  Notation F := (scalar T).
  Variable f : funcs T.
  Variable acos : F -> F.
  Variable lerp : Z -> F * F -> Z -> F * F -> Z -> F * F.
  Variable near : F * F -> F * F -> bool.
  Hypothesis L : laws T f acos.
  Notation nneg x := (lt T x (zero T) = false).
  Notation pos x := (lt T (zero T) x = true).
  Notation history := (option (list ((F * F) * Z))).

  Definition radii (b : ball T) : Prop :=
    pos (fst (g_half b)) /\ pos (snd (g_half b)) /\ pos (g_ratio b) /\
    g_horz b = std_min T (fst (g_half b)) (div T (snd (g_half b)) (g_ratio b)) /\ g_vert b = mul T (g_horz b) (g_ratio b).

  Definition started (b : ball T) (g : history) : Prop :=
    match g with Some (_ :: _) => exists p, g_first_point b = Some p /\ on_sphere T p | _ => True end.

  Definition inv (b : ball T) (g : history) : Prop :=
    tb_rep (g_grab b) g /\ radii b /\ unit_axis T (g_base b) /\ unit_axis T (g_spin b) /\ started b g.

  Lemma div_pos : forall x y, pos x -> pos y -> pos (div T x y).
  Proof.
    intros x y X Y. pose proof (pos_nz T OF y Y) as N.
    assert (M : div T (one T) y <> zero T).
    { intros C. apply (F_1_neq_0 (of_field T OF)). transitivity (mul T (div T (one T) y) y); [field; exact N|rewrite C; ring]. }
    pose proof (of_mul T OF _ _ (of_mul T OF _ _ X Y) (square_pos T OF _ M)) as H.
    replace (mul T (mul T x y) (mul T (div T (one T) y) (div T (one T) y))) with (div T x y) in H by (field; exact N). exact H.
  Qed.
  Lemma radii_pos : forall b, radii b -> pos (g_horz b) /\ pos (g_vert b).
  Proof.
    intros b (A & B & C & D & E). assert (H : pos (g_horz b)).
    { rewrite D. unfold std_min. destruct (lt T (div T (snd (g_half b)) (g_ratio b)) (fst (g_half b))); [apply div_pos; assumption|exact A]. }
    split; [exact H|]. rewrite E. apply (of_mul T OF); assumption.
  Qed.
  Lemma radii_nz : forall b, radii b -> g_horz b <> zero T /\ g_vert b <> zero T.
  Proof. intros b R. apply radii_pos in R. split; apply (pos_nz T OF); apply R. Qed.
  Lemma point_ok : forall b p, radii b -> on_sphere T (get_ball_point T f b p).
  Proof. intros b p R. destruct (radii_nz b R) as [H V]. apply (ball_point T OF f acos L b p H V). Qed.
  Lemma update_ok : forall b, pos (fst (g_half b)) -> pos (snd (g_half b)) -> pos (g_ratio b) -> radii (update_radii T b).
  Proof. intros b A B C. unfold radii. cbn [update_radii g_half g_ratio g_horz g_vert]. auto. Qed.

  Lemma acquire_rep : forall (b : tball (F * F)) g, tb_rep b g -> tb_rep (tball_acquire b) (grab_step g Acquire).
  Proof.
    intros b [h|] H.
    - unfold tball_acquire. replace (t_acquired b) with true; [exact H|]. destruct h as [|[v0 t0] r]; symmetry; apply H.
    - destruct H as (H & h & M). unfold tball_acquire. rewrite H. cbn. eauto.
  Qed.
  Lemma leave_rep : forall (b : tball (F * F)) g, tb_rep b g -> tb_rep (tball_leave b) None.
  Proof.
    intros b [[|[v0 t0] r]|] H; split; try reflexivity; cbn [tball_leave t_mem].
    - destruct H as (_ & _ & H). exact H.
    - eexists. apply H.
    - destruct H as (_ & H). exact H.
  Qed.

  Lemma acquired_iff : forall (b : tball (F * F)) g, tb_rep b g -> t_acquired b = match g with None => false | _ => true end.
  Proof. intros b [[|[v0 t0] r]|] H; apply H. Qed.

  Lemma zero_turned : forall ax v, turned T f (Rotation ax (zero T)) v = v.
  Proof.
    intros ax v. destruct (l_zero T f acos L) as [Z1 Z2]. unfold turned. cbn [r_axis r_angle]. rewrite Z1, Z2. destruct v as [a b c], ax as [d e g]. unfold rotated, sum_of, scaled, scalar_product, vector_product.
    cbn [v_x v_y v_z]. f_equal; ring.
  Qed.

  Lemma free_unit : forall b t, unit_axis T (g_base b) -> unit_axis T (g_spin b) -> unit_axis T (get_free_orientation T f b t).
  Proof.
    intros b t A B. unfold get_free_orientation. destruct (eqb T _ _); [exact A|].
    apply (sum_turned T OF f acos L); [exact A|exact B].
  Qed.
  Lemma free_turned : forall b t v, unit_axis T (g_base b) -> unit_axis T (g_spin b) ->
    turned T f (get_free_orientation T f b t) v = turned T f (Rotation (r_axis (g_spin b)) (mul T (sub T t (g_release_time b)) (r_angle (g_spin b)))) (turned T f (g_base b) v).
  Proof.
    intros b t v A B. unfold get_free_orientation. destruct (eqb T (r_angle (g_spin b)) (zero T)) eqn:E.
    - apply (of_eqb T OF) in E. rewrite E. replace (mul T (sub T t (g_release_time b)) (zero T)) with (zero T) by ring. rewrite zero_turned. reflexivity.
    - destruct (sum_turned T OF f acos L (g_base b) (r_mul_l T (sub T t (g_release_time b)) (g_spin b)) A B) as [_ H]. rewrite H. reflexivity.
  Qed.

  (* The orientation in terms of the history *)
  Definition orientation_is (b : ball T) (g : history) (t : F) (r : rotation T) : Prop :=
    match g with
    | None => r = get_free_orientation T f b t
    | Some [] => r = g_base b
    | Some (((v0, t0) :: _) as h) => exists p, g_first_point b = Some p /\ r = r_add T f (g_base b) (calc_rotation T f acos p (get_ball_point T f b (fst (last h (v0, t0)))))
    end.
  Lemma orientation_ok : forall b g t, inv b g -> exists r, get_orientation T f acos b t = Some r /\ unit_axis T r /\ orientation_is b g t r.
  Proof.
    intros b g t (R & Ra & A & B & S). unfold get_orientation, get_track_orientation. rewrite (acquired_iff _ _ R).
    destruct g as [[|[v0 t0] r]|].
    - destruct R as (_ & N & _). rewrite N. cbn [obind negb]. exists (g_base b). cbn. auto.
    - destruct R as (_ & N & _ & _ & P & _). rewrite N, P. cbn [obind negb]. destruct S as (p & E & Q). rewrite E. cbn [obind]. eexists. split; [reflexivity|].
      split; [apply (sum_turned T OF f acos L); [exact A|apply (calc_unit T OF f acos L)]|]. exists p. split; [exact E|reflexivity].
    - eexists. split; [reflexivity|]. split; [apply free_unit; assumption|reflexivity].
  Qed.

  Lemma make_ok : exists b, make T = Some b /\ inv b None /\ g_half b = (one T, one T) /\ g_ratio b = one T /\ tball_make (zero T, zero T) = Some (g_grab b).
  Proof.
    unfold make. destruct (tball_make_rep (zero T, zero T)) as (m & E & R). rewrite E. cbn [obind]. eexists. split; [reflexivity|].
    split; [|cbn [g_half g_ratio g_grab]; auto]. split; [exact R|]. pose proof (pos_one T OF) as P1. split.
    { unfold radii. cbn [g_half g_ratio g_horz g_vert fst snd]. split; [exact P1|]. split; [exact P1|]. split; [exact P1|]. split; [|ring].
      unfold std_min. replace (div T (one T) (one T)) with (one T) by (field; apply (F_1_neq_0 (of_field T OF))). rewrite (of_irrefl T OF); reflexivity. }
    cbn [g_base g_spin]. split; [apply (no_rotation_unit T OF)|]. split; [apply (no_rotation_unit T OF)|exact I].
  Qed.

  Definition next (g : history) (e : ui_event T) : history := fold_left grab_step (of_grab T e) g.

  Lemma half_ok : forall x, pos x -> pos (div T x (two T)).
  Proof.
    intros x P. apply div_pos; [exact P|]. unfold two. apply (pos_add T OF); [apply (pos_one T OF)|right; apply (pos_one T OF)].
  Qed.

  Lemma step_ok : forall b g e, inv b g -> event_ok T e -> grab_ok g -> grab_ok (next g e) ->
    exists b', ui_step T f acos lerp near (Some b) e = Some b' /\ inv b' (next g e) /\
      tball_calls (zero T, zero T) lerp near (Some (g_grab b)) (of_grab T e) = Some (g_grab b') /\
      g_half b' = match e with Resize w h => (div T w (two T), div T h (two T)) | _ => g_half b end /\
      g_ratio b' = match e with Aspect r => r | _ => g_ratio b end.
  Proof.
    intros b g e I Ok G1 G2. pose proof I as (R & Ra & A & B & S). unfold ui_step, next, tball_calls in *. cbn [obind].
    destruct e as [now|p t|now|rot|rot now|w h|r]; cbn [of_grab fold_left event_ok tball_call obind] in *.
    - (* Press *)
      eexists. split; [reflexivity|]. unfold acquire. rewrite (acquired_iff _ _ R). destruct g as [h|].
      + split; [|split; [|auto]].
        * destruct h; exact I.
        * unfold tball_acquire. rewrite (acquired_iff _ _ R). reflexivity.
      + cbn [g_half g_ratio g_grab]. split; [|auto]. split; [apply (acquire_rep _ None R)|]. split; [exact Ra|]. cbn [g_base g_spin]. split; [apply free_unit; assumption|].
        split; [exact B|exact Logic.I].
    - (* Move *)
      destruct (tball_track_rep (g_grab b) g p t R G2) as (m & E & R'). unfold track. rewrite E. cbn [obind]. rewrite (acquired_iff _ _ R).
      destruct g as [h|].
      + destruct h as [|[v0 t0] r].
        * destruct R as (_ & N & _). rewrite N. cbn [obind]. eexists. split; [reflexivity|]. cbn [g_half g_ratio g_grab]. split; [|auto].
          split; [exact R'|]. split; [exact Ra|]. split; [exact A|]. split; [exact B|]. exists (get_ball_point T f b p). split; [reflexivity|]. apply point_ok, Ra.
        * destruct R as (_ & N & _). rewrite N. cbn [obind]. eexists. split; [reflexivity|]. cbn [g_half g_ratio g_grab]. split; [|auto].
          split; [exact R'|]. split; [exact Ra|]. split; [exact A|]. split; [exact B|]. exact S.
      + eexists. split; [reflexivity|]. split; [exact I|]. split; [|auto]. unfold tball_track in E. rewrite (acquired_iff _ _ R) in E. congruence.
    - (* Let_go *)
      destruct (tball_release_rep (zero T, zero T) lerp near (g_grab b) g R G1) as (m & out & E & R' & _). unfold release. rewrite E. cbn [obind fst]. rewrite (acquired_iff _ _ R).
      destruct g as [[|[v0 t0] r]|].
      + destruct R as (_ & N & _). rewrite N. cbn [obind]. eexists. split; [reflexivity|]. cbn [g_half g_ratio g_grab]. split; [|auto].
        split; [exact R'|]. split; [exact Ra|]. split; [exact A|]. split; [exact B|exact Logic.I].
      + destruct R as (_ & N & _). rewrite N. cbn [obind]. destruct S as (q & Eq & Q). rewrite Eq. cbn [obind]. eexists. split; [reflexivity|]. cbn [g_half g_ratio g_grab]. split; [|auto].
        split; [exact R'|]. split; [exact Ra|]. cbn [g_base g_spin]. split; [apply (sum_turned T OF f acos L); [exact A|apply (calc_unit T OF f acos L)]|].
        split; [|exact Logic.I]. destruct out; [exact B|exact B|]. exact (calc_unit T OF f acos L _ _).
      + eexists. split; [reflexivity|]. split; [exact I|]. split; [|auto]. unfold tball_release in E. rewrite (acquired_iff _ _ R) in E. congruence.
    - (* Orient *)
      eexists. split; [reflexivity|]. cbn [set_orientation g_half g_ratio g_grab]. split; [|auto].
      replace (grab_step g Leave) with (@None (list ((F * F) * Z))) by (destruct g; reflexivity).
      split; [exact (leave_rep _ _ R)|]. split; [exact Ra|]. split; [exact Ok|]. split; [exact B|exact Logic.I].
    - (* Spin *)
      unfold set_spin. destruct (orientation_ok b g now I) as (o & E & U & _). rewrite E. cbn [obind]. eexists. split; [reflexivity|]. cbn [g_half g_ratio g_grab]. split; [|auto].
      replace (grab_step g Leave) with (@None (list ((F * F) * Z))) by (destruct g; reflexivity).
      split; [exact (leave_rep _ _ R)|]. split; [exact Ra|]. split; [exact U|]. split; [exact Ok|exact Logic.I].
    - (* Resize *)
      eexists. split; [reflexivity|]. split; [|auto]. split; [exact R|]. destruct Ok as [O1 O2].
      split; [apply update_ok; cbn [g_half g_ratio fst snd]; [apply half_ok; exact O1|apply half_ok; exact O2|apply Ra]|]. split; [exact A|]. split; [exact B|]. exact S.
    - (* Aspect *)
      eexists. split; [reflexivity|]. split; [|auto]. split; [exact R|].
      split; [apply update_ok; cbn [g_half g_ratio fst snd]; [apply Ra|apply Ra|exact Ok]|]. split; [exact A|]. split; [exact B|]. exact S.
  Qed.

  Lemma grabs_app : forall es e, grabs T (es ++ [e]) = grabs T es ++ of_grab T e.
  Proof. intros. unfold grabs. rewrite flat_map_app. cbn [flat_map]. rewrite app_nil_r. reflexivity. Qed.
  Lemma grab_next : forall es e, grab (grabs T (es ++ [e])) = next (grab (grabs T es)) e.
  Proof. intros. rewrite grabs_app. unfold grab, next. apply fold_left_app. Qed.
  Lemma events_ok_app : forall es e, events_ok T (es ++ [e]) -> events_ok T es /\ event_ok T e /\ grab_ok (grab (grabs T es)) /\ grab_ok (next (grab (grabs T es)) e).
  Proof.
    intros es e [A B]. apply Forall_app in A. destruct A as [A1 A2]. inversion A2; subst. split; [split; [exact A1|]|split; [assumption|split]].
    - intros pre post ->. apply (B pre (post ++ [e])). rewrite app_assoc. reflexivity.
    - apply (B es [e] eq_refl).
    - rewrite <- grab_next. apply (B (es ++ [e]) []). rewrite app_nil_r. reflexivity.
  Qed.

  Lemma run_ok : forall es, events_ok T es -> exists b, run T f acos lerp near es = Some b /\ inv b (grab (grabs T es)) /\
    tball_calls (zero T, zero T) lerp near (tball_make (zero T, zero T)) (grabs T es) = Some (g_grab b) /\
    g_half b = (div T (fst (viewport T es)) (two T), div T (snd (viewport T es)) (two T)) /\ g_ratio b = aspect T es.
  Proof.
    induction es as [|e es IH] using rev_ind; intros Ok.
    - destruct make_ok as (b & E & I & H & R & M). exists b. split; [exact E|]. split; [exact I|]. split; [exact M|]. split; [|exact R].
      rewrite H. cbn [viewport fold_left fst snd]. fold (two T). assert (E1 : div T (two T) (two T) = one T) by (unfold two; field; exact (two_nonzero T OF)). rewrite E1. reflexivity.
    - destruct (events_ok_app es e Ok) as (Ok1 & Oe & G1 & G2). destruct (IH Ok1) as (b & E & I & M & H & R).
      destruct (step_ok b _ e I Oe G1 G2) as (b' & E' & I' & M' & H' & R'). exists b'. unfold run in *. rewrite fold_left_app, E. cbn [fold_left]. split; [exact E'|].
      rewrite grab_next. split; [exact I'|]. split; [|split].
      + rewrite grabs_app. unfold tball_calls in *. rewrite fold_left_app, M. exact M'.
      + rewrite H'. unfold viewport in *. rewrite fold_left_app. cbn [fold_left]. destruct e; try exact H. reflexivity.
      + rewrite R'. unfold aspect in *. rewrite fold_left_app. cbn [fold_left]. destruct e; try exact R. reflexivity.
  Qed.
End G.
