(* Theorems about the geometry of the trackball.  T is any ordered field in which the functions of the standard library are right (see laws); the real
   numbers are one (see QuatReals). *)
From Coq Require Import ZArith List Lia Bool Ring Field Reals Lra.
From Verif Require Import MatrixModel MatrixSpec QuatModel QuatSpec QuatProofs QuatProofs2 CurveMemModel CurveMemSpec CurveMemProofs2 CurveMemProps TrackGeoModel TrackGeoSpec TrackGeoProofs TrackGeoProofs2 QuatReals ArrLib.
Import ListNotations.
Close Scope R_scope.
Close Scope nat_scope.
Close Scope Z_scope.

Lemma prefix_of {A} (es pre post : list A) : es = pre ++ post -> pre = firstn (length pre) es.
Proof. intros ->. rewrite firstn_app, Nat.sub_diag, firstn_O, firstn_all, app_nil_r. reflexivity. Qed.
Ltac orderly := cbn; first [exact I|split;
  [intros i j y z Hij Hi Hj; do 3 (destruct i as [|i]; [do 3 (destruct j as [|j]; [cbn in Hi, Hj; first [lia|discriminate|injection Hi as <-; injection Hj as <-; cbn; lia]|]); cbn in Hj; destruct j; discriminate|]);
   cbn in Hi; destruct i; discriminate
  |intros y Hy; cbn in Hy; repeat (destruct Hy as [<-|Hy]; [cbn; lia|]); destruct Hy]].

Section Props.
  Variable T : ops.
  Hypothesis OF : ordered_field T.
  Add Field fld : (of_field T OF).
  Notation F := (scalar T).
  Variable f : funcs T.
  Variable acos : F -> F.
  Variable lerp : Z -> F * F -> Z -> F * F -> Z -> F * F.
  Variable near : F * F -> F * F -> bool.
  Hypothesis L : laws T f acos.
  Notation run := (run T f acos lerp near).
  Notation orientation := (get_orientation T f acos).
  Notation point := (get_ball_point T f).
  Notation turned := (turned T f).

  (* C187.  For all sequences of calls, no call reads a data member that was not set; the ball is the largest one that fits in the viewport and is
     round on the screen; at all times there is an orientation, and its axis is a unit vector. *)
  Theorem trackball_well_defined : forall es, events_ok T es ->
    exists b, run es = Some b /\
      let twice x := add T x x in
      lt T (fst (viewport T es)) (twice (g_horz b)) = false /\ lt T (snd (viewport T es)) (twice (g_vert b)) = false /\
      (twice (g_horz b) = fst (viewport T es) \/ twice (g_vert b) = snd (viewport T es)) /\
      g_vert b = mul T (aspect T es) (g_horz b) /\ lt T (zero T) (g_horz b) = true /\
      forall now, exists r, orientation b now = Some r /\ unit_axis T r.
  Proof.
    intros es Ok. destruct (run_ok T OF f acos lerp near L es Ok) as (b & E & I & _ & H & R). exists b. split; [exact E|]. pose proof I as (_ & Ra & _).
    destruct (radii_pos T OF b Ra) as [Ph Pv]. destruct Ra as (P1 & P2 & P3 & D1 & D2). rewrite H in *. rewrite R in *. cbn [fst snd] in *.
    set (w := fst (viewport T es)) in *. set (h := snd (viewport T es)) in *. set (k := aspect T es) in *. pose proof (pos_nz T OF k P3) as Nk. pose proof (two_nonzero T OF) as N2.
    assert (A : lt T w (add T (g_horz b) (g_horz b)) = false /\ lt T h (add T (g_vert b) (g_vert b)) = false /\ (add T (g_horz b) (g_horz b) = w \/ add T (g_vert b) (g_vert b) = h)).
    { rewrite D2. revert D1. unfold std_min. destruct (lt T (div T (div T h (two T)) k) (div T w (two T))) eqn:C; intros D1; rewrite D1.
      - replace (add T (mul T (div T (div T h (two T)) k) k) (mul T (div T (div T h (two T)) k) k)) with h by (unfold two in *; field; split; assumption).
        split; [|split; [apply (of_irrefl T OF)|right; reflexivity]].
        apply (sub_le T OF). apply (or_nneg T OF). right.
        pose proof (of_add T OF _ _ (opp T (div T (div T h (two T)) k)) C) as Q.
        replace (add T (div T (div T h (two T)) k) (opp T (div T (div T h (two T)) k))) with (zero T) in Q by ring.
        pose proof (pos_add T OF _ _ Q (or_intror Q)) as W.
        match type of W with lt T _ ?e = true => replace (sub T w (add T (div T (div T h (two T)) k) (div T (div T h (two T)) k))) with e; [exact W|] end.
        unfold two in *. field. split; assumption.
      - replace (add T (div T w (two T)) (div T w (two T))) with w by (unfold two in *; field; assumption).
        split; [apply (of_irrefl T OF)|]. split; [|left; reflexivity].
        apply (sub_le T OF). apply (le_sub T OF) in C. apply (nneg_or T OF) in C. apply (or_nneg T OF).
        assert (Y : sub T h (add T (mul T (div T w (two T)) k) (mul T (div T w (two T)) k)) = mul T (mul T (two T) k) (sub T (div T (div T h (two T)) k) (div T w (two T)))) by (unfold two in *; field; split; assumption).
        rewrite Y. destruct C as [C|C]; [left; rewrite C; ring|]. right. apply (of_mul T OF); [|exact C]. apply (of_mul T OF); [|exact P3].
        unfold two. apply (pos_add T OF); [apply (pos_one T OF)|right; apply (pos_one T OF)]. }
    cbv zeta. destruct A as (A1 & A2 & A3). split; [exact A1|]. split; [exact A2|]. split; [exact A3|]. split; [rewrite D2; ring|]. split; [exact Ph|].
    intros now. destruct (orientation_ok T OF f acos L b _ now I) as (r & E1 & U & _). exists r. auto.
  Qed.

  (* C188.  The point on the ball that belongs to a position of the pointer is on the front half of the unit sphere.  It is exactly under the pointer
     when that is inside of the ball, and otherwise the point on the rim in the same direction from the center. *)
  Theorem ball_point_right : forall es b x y, events_ok T es -> run es = Some b ->
    let p := point b (x, y) in
    let px := div T (sub T x (div T (fst (viewport T es)) (add T (one T) (one T)))) (g_horz b) in
    let py := div T (sub T (div T (snd (viewport T es)) (add T (one T) (one T))) y) (g_vert b) in
    let s := add T (mul T px px) (mul T py py) in
    on_sphere T p /\ lt T (v_z p) (zero T) = false /\ (lt T (one T) s = false -> v_x p = px /\ v_y p = py) /\
    (lt T (one T) s = true -> v_z p = zero T /\ exists k, lt T (zero T) k = true /\ mul T (mul T k k) s = one T /\ v_x p = mul T k px /\ v_y p = mul T k py).
  Proof.
    intros es b x y Ok E. destruct (run_ok T OF f acos lerp near L es Ok) as (b' & E' & I & _ & H & _). assert (b' = b) by congruence. subst b'.
    pose proof I as (_ & Ra & _). destruct (radii_nz T OF b Ra) as [N1 N2]. pose proof (ball_point T OF f acos L b (x, y) N1 N2) as P. rewrite H in P. exact P.
  Qed.

  (* C189.  Full statement: a point of the object that is under the pointer when the ball is grabbed stays under the pointer while it is dragged.  It
     is false when the pointer gets to the opposite end of the rim (below). *)
  Definition moved (m : (F * F) * Z) : ui_event T := Move (fst m) (snd m).

  Lemma dragged : forall es now v0 t0 moves b0, events_ok T (es ++ Press now :: Move v0 t0 :: map moved moves) -> grab (grabs T es) = None -> run es = Some b0 ->
    exists b, run (es ++ Press now :: Move v0 t0 :: map moved moves) = Some b /\ g_half b = g_half b0 /\ g_horz b = g_horz b0 /\ g_vert b = g_vert b0 /\
      g_base b = get_free_orientation T f b0 now /\ g_first_point b = Some (point b0 v0) /\
      grab (grabs T (es ++ Press now :: Move v0 t0 :: map moved moves)) = Some ((v0, t0) :: moves).
  Proof.
    intros es now v0 t0 moves b0. induction moves as [|[v t] moves IH] using rev_ind; intros Ok G E.
    - cbn [map] in *. replace (es ++ [Press now; Move v0 t0]) with ((es ++ [Press now]) ++ [Move v0 t0]) in * by (rewrite <- app_assoc; reflexivity).
      destruct (events_ok_app T _ _ Ok) as (Ok1 & _ & G1 & G2). destruct (events_ok_app T _ _ Ok1) as (Ok0 & _ & _ & _).
      destruct (run_ok T OF f acos lerp near L es Ok0) as (b0' & E' & I & _). assert (b0' = b0) by congruence. subst b0'. rewrite G in I.
      pose proof I as (R & _). pose proof (acquired_iff T _ _ R) as Aq.
      destruct (run_ok T OF f acos lerp near L _ Ok) as (b & Eb & _). exists b. split; [exact Eb|].
      assert (G' : grab (grabs T ((es ++ [Press now]) ++ [Move v0 t0])) = Some [(v0, t0)]) by (rewrite !grab_next, G; reflexivity).
      unfold TrackGeoSpec.run in Eb, E. rewrite !fold_left_app, E in Eb. cbn [fold_left ui_step obind] in Eb. unfold acquire in Eb. rewrite Aq in Eb.
      unfold track in Eb. cbn [g_grab] in Eb. unfold tball_acquire in Eb. rewrite Aq in Eb. cbn [t_acquired t_no_track_yet] in Eb.
      destruct (tball_track _ v0 t0) as [m|]; [|discriminate]. cbn [obind] in Eb. injection Eb as <-. cbn. rewrite G'. repeat split; reflexivity.
    - rewrite map_app in *. cbn [map] in *. unfold moved at 2 in Ok. unfold moved at 2 4. cbn [fst snd] in *.
      replace (es ++ Press now :: Move v0 t0 :: map moved moves ++ [Move v t]) with ((es ++ Press now :: Move v0 t0 :: map moved moves) ++ [Move v t]) in *
        by (rewrite <- app_assoc; reflexivity).
      destruct (events_ok_app T _ _ Ok) as (Ok1 & _ & G1 & G2). destruct (IH Ok1 G E) as (b & Eb & H1 & H2 & H3 & H4 & H5 & H6).
      destruct (run_ok T OF f acos lerp near L _ Ok1) as (bb & Ebb & I & _). assert (bb = b) by congruence. subst bb. rewrite H6 in I. pose proof I as (R & _).
      destruct (run_ok T OF f acos lerp near L _ Ok) as (b' & Eb' & _). exists b'. split; [exact Eb'|].
      assert (G' : grab (grabs T ((es ++ Press now :: Move v0 t0 :: map moved moves) ++ [Move v t])) = Some (((v0, t0) :: moves) ++ [(v, t)])) by (rewrite grab_next, H6; reflexivity).
      unfold TrackGeoSpec.run in Eb', Eb. rewrite fold_left_app, Eb in Eb'. cbn [fold_left ui_step obind] in Eb'. unfold track in Eb'.
      destruct (tball_track (g_grab b) v t) as [m|]; [|discriminate]. cbn [obind] in Eb'. destruct R as (A1 & A2 & _). rewrite A1, A2 in Eb'. cbn [obind] in Eb'. injection Eb' as <-.
      cbn [g_half g_horz g_vert g_base g_first_point]. rewrite G'. repeat split; assumption.
  Qed.

  Theorem drag_follows_pointer_partial : forall es now v0 t0 moves, events_ok T (es ++ Press now :: Move v0 t0 :: map moved moves) -> grab (grabs T es) = None ->
    let here := fst (last moves (v0, t0)) in
    exists b0 o b r, run es = Some b0 /\ orientation b0 now = Some o /\ run (es ++ Press now :: Move v0 t0 :: map moved moves) = Some b /\
      (forall later, orientation b later = Some r) /\ (forall p, point b p = point b0 p) /\
      forall p, turned o p = point b0 v0 -> point b0 here <> opposite T (point b0 v0) -> turned r p = point b0 here.
  Proof.
    intros es now v0 t0 moves Ok G here.
    assert (Ok0 : events_ok T es).
    { destruct Ok as [A B]. apply Forall_app in A. split; [apply A|]. intros pre post ->. apply (B pre (post ++ Press now :: Move v0 t0 :: map moved moves)). rewrite <- app_assoc. reflexivity. }
    destruct (run_ok T OF f acos lerp near L es Ok0) as (b0 & E0 & I0 & _). rewrite G in I0.
    destruct (orientation_ok T OF f acos L b0 _ now I0) as (o & Eo & Uo & Io). cbn [orientation_is] in Io.
    destruct (dragged es now v0 t0 moves b0 Ok G E0) as (b & Eb & H1 & H2 & H3 & H4 & H5 & H6).
    destruct (run_ok T OF f acos lerp near L _ Ok) as (bb & Ebb & I & _). assert (bb = b) by congruence. subst bb. rewrite H6 in I.
    assert (Pt : forall p, point b p = point b0 p) by (intros p; unfold get_ball_point; rewrite H1, H2, H3; reflexivity).
    assert (La : fst (last ((v0, t0) :: moves) (v0, t0)) = here) by (unfold here; destruct moves; reflexivity).
    exists b0, o, b, (r_add T f o (calc_rotation T f acos (point b0 v0) (point b0 here))).
    split; [exact E0|]. split; [exact Eo|]. split; [exact Eb|]. split; [|split; [exact Pt|]].
    - intros later. destruct (orientation_ok T OF f acos L b _ later I) as (r & Er & _ & Ir). rewrite Er. cbn [orientation_is] in Ir. destruct Ir as (p & Ep & ->).
      rewrite H5 in Ep. injection Ep as <-. rewrite H4, <- Io, La, Pt. reflexivity.
    - intros p Hp N. destruct (sum_turned T OF f acos L o (calc_rotation T f acos (point b0 v0) (point b0 here)) Uo (calc_unit T OF f acos L _ _)) as [_ S]. rewrite S, Hp.
      pose proof I0 as (_ & Ra & _). apply (calc_turned T OF f acos L); [apply (point_ok T OF f acos L), Ra|apply (point_ok T OF f acos L), Ra|exact N].
  Qed.

  (* C189.  From one end of the rim to the opposite one: the ball does not turn at all *)
  Theorem drag_follows_pointer_refuted : exists es now v0 t0 moves b0 o b r p,
    events_ok T (es ++ Press now :: Move v0 t0 :: map moved moves) /\ grab (grabs T es) = None /\ run es = Some b0 /\ orientation b0 now = Some o /\
    run (es ++ Press now :: Move v0 t0 :: map moved moves) = Some b /\ orientation b now = Some r /\
    turned o p = point b0 v0 /\ turned r p = point b0 v0 /\ point b (fst (last moves (v0, t0))) <> point b0 v0.
  Proof.
    pose (v0 := (two T, one T)). pose (v1 := (zero T, one T)).
    assert (Ok : events_ok T ([] ++ Press (zero T) :: Move v0 0 :: map moved [(v1, 100%Z)])).
    { cbn. split; [repeat constructor|]. intros pre post E. rewrite (prefix_of _ _ _ E). generalize (length pre). intros n. do 4 (destruct n as [|n]; [orderly|]). orderly. }
    destruct (make_ok T OF) as (b0 & E0 & I0 & Hh & _ & _). assert (Er : run [] = Some b0) by exact E0.
    assert (Eb0 : exists m, b0 = Ball (one T, one T) (one T) (one T) (one T) m (zero T) (no_rotation T) (no_rotation T) None).
    { unfold make in E0. destruct (tball_make (zero T, zero T)) as [m|]; [|discriminate]. cbn [obind] in E0. injection E0 as <-. exists m. reflexivity. }
    destruct Eb0 as (m & ->). set (b0 := Ball _ _ _ _ _ _ _ _ _) in *.
    assert (Zz : eqb T (zero T) (zero T) = true) by (apply (of_eqb T OF); reflexivity).
    assert (Fr : get_free_orientation T f b0 (zero T) = no_rotation T) by (unfold get_free_orientation, b0, no_rotation; cbn [g_spin r_angle g_base]; rewrite Zz; reflexivity).
    destruct (dragged [] (zero T) v0 0 [(v1, 100%Z)] b0 Ok eq_refl Er) as (b & Eb & H1 & H2 & H3 & H4 & H5 & H6).
    destruct (run_ok T OF f acos lerp near L _ Ok) as (bb & Ebb & I & _). assert (bb = b) by congruence. subst bb. rewrite H6 in I.
    destruct (l_root T f acos L (zero T) (of_irrefl T OF _)) as [R0 _]. unfold root_at in R0. apply (square_zero T OF) in R0.
    assert (Nb1 : one T <> zero T) by (apply (F_1_neq_0 (of_field T OF))).
    assert (P0 : point b0 v0 = V3 (one T) (zero T) (zero T)).
    { unfold get_ball_point, b0, v0. cbn [g_half g_horz g_vert fst snd].
      assert (X : div T (sub T (two T) (one T)) (one T) = one T) by (unfold two; field; exact Nb1). assert (Y : div T (sub T (one T) (one T)) (one T) = zero T) by (field; exact Nb1). rewrite X, Y.
      assert (Sx : add T (add T (zero T) (square T (one T))) (square T (zero T)) = one T) by (unfold square; ring). rewrite Sx, (of_irrefl T OF).
      assert (Z : sub T (one T) (one T) = zero T) by ring. rewrite Z, R0. reflexivity. }
    assert (P1 : point b0 v1 = V3 (opp T (one T)) (zero T) (zero T)).
    { unfold get_ball_point, b0, v1. cbn [g_half g_horz g_vert fst snd].
      assert (X : div T (sub T (zero T) (one T)) (one T) = opp T (one T)) by (field; exact Nb1). assert (Y : div T (sub T (one T) (one T)) (one T) = zero T) by (field; exact Nb1). rewrite X, Y.
      assert (Sx : add T (add T (zero T) (square T (opp T (one T)))) (square T (zero T)) = one T) by (unfold square; ring). rewrite Sx, (of_irrefl T OF).
      assert (Z : sub T (one T) (one T) = zero T) by ring. rewrite Z, R0. reflexivity. }
    assert (Pt : forall p, point b p = point b0 p) by (intros p; unfold get_ball_point; rewrite H1, H2, H3; reflexivity).
    destruct (orientation_ok T OF f acos L b _ (zero T) I) as (r & Eo & _ & Io). cbn [orientation_is] in Io. destruct Io as (q & Eq & Rq). rewrite H5 in Eq. injection Eq as <-.
    cbn [last fst] in Rq. rewrite H4, Fr, Pt, P0, P1 in Rq.
    assert (Cr : calc_rotation T f acos (V3 (one T) (zero T) (zero T)) (V3 (opp T (one T)) (zero T) (zero T)) = no_rotation T).
    { unfold calc_rotation. replace (v_sq_sum T _) with (zero T) by (unfold v_sq_sum, v_cross, square; cbn [v_x v_y v_z]; ring). rewrite Zz. reflexivity. }
    rewrite Cr in Rq.
    exists [], (zero T), v0, 0%Z, [(v1, 100%Z)], b0, (no_rotation T), b, r, (point b0 v0).
    split; [exact Ok|]. split; [reflexivity|]. split; [exact Er|]. split; [|split; [exact Eb|split; [exact Eo|]]].
    { destruct (orientation_ok T OF f acos L b0 _ (zero T) I0) as (r0 & E1 & _ & I1). cbn [orientation_is] in I1. rewrite E1, I1, Fr. reflexivity. }
    rewrite (no_rotation_turned T OF f acos L). split; [reflexivity|]. split.
    - rewrite Rq. destruct (sum_turned T OF f acos L (no_rotation T) (no_rotation T) (no_rotation_unit T OF) (no_rotation_unit T OF)) as [_ S]. rewrite S, !(no_rotation_turned T OF f acos L). reflexivity.
    - cbn [last fst]. rewrite Pt, P0, P1. intros C. injection C as C. apply (two_nonzero T OF). unfold two. transitivity (sub T (one T) (opp T (one T))); [ring|]. rewrite C. ring.
  Qed.

  (* C190.  None of the calls makes the ball jump, except for setting the orientation, which does what it says. *)
  Theorem trackball_continuous : forall es e, events_ok T (es ++ [e]) ->
    exists b b', run es = Some b /\ run (es ++ [e]) = Some b' /\
      match e with
      | Press now | Let_go now | Spin _ now => exists r r', orientation b now = Some r /\ orientation b' now = Some r' /\ forall v, turned r' v = turned r v
      | Move _ _ => match grab (grabs T es) with
                    | Some (_ :: _) => True
                    | _ => forall now, exists r r', orientation b now = Some r /\ orientation b' now = Some r' /\ forall v, turned r' v = turned r v
                    end
      | Orient rot => forall now, orientation b' now = Some rot
      | _ => True
      end.
  Proof.
    intros es e Ok. destruct (events_ok_app T _ _ Ok) as (Ok0 & Oe & G1 & G2).
    destruct (run_ok T OF f acos lerp near L es Ok0) as (b & E & I & _). destruct (run_ok T OF f acos lerp near L _ Ok) as (b' & E' & I' & _). exists b, b'.
    split; [exact E|]. split; [exact E'|]. rewrite grab_next in I'. unfold TrackGeoSpec.run in E, E'. rewrite fold_left_app, E in E'. cbn [fold_left ui_step obind] in E'.
    pose proof I as (R & Ra & A & B & S). pose proof (acquired_iff T _ _ R) as Aq. set (g := grab (grabs T es)) in *. destruct e as [now|p t|now|rot|rot now|w h|r]; try exact Logic.I.
    - (* Press *)
      injection E' as <-. destruct (orientation_ok T OF f acos L b _ now I) as (r & Er & _ & Ir).
      destruct (orientation_ok T OF f acos L _ _ now I') as (r' & Er' & _ & Ir'). exists r, r'. split; [exact Er|]. split; [exact Er'|]. intros v. f_equal.
      unfold next in Ir'. cbn [of_grab fold_left] in Ir'. unfold acquire in Er'. rewrite Aq in Er'. destruct g as [h|]; [congruence|]. cbn [orientation_is grab_step] in Ir, Ir'.
      unfold acquire in Ir'. rewrite Aq in Ir'. cbn [g_base] in Ir'. congruence.
    - (* Move *)
      destruct g as [[|m l]|] eqn:Eg; [|exact Logic.I|].
      + intros now. destruct (orientation_ok T OF f acos L b _ now I) as (r & Er & _ & Ir). destruct (orientation_ok T OF f acos L _ _ now I') as (r' & Er' & _ & Ir').
        exists r, r'. split; [exact Er|]. split; [exact Er'|]. cbn [orientation_is] in Ir. subst r. cbn in Ir'. destruct Ir' as (q & Eq & ->).
        unfold track in E'. destruct (tball_track (g_grab b) p t); [|discriminate]. cbn [obind] in E'. rewrite Aq in E'. destruct R as (_ & N & _). rewrite N in E'. cbn [obind] in E'.
        injection E' as <-. cbn [g_first_point g_base] in *. injection Eq as <-. intros v.
        destruct (sum_turned T OF f acos L (g_base b) (calc_rotation T f acos (point b p) (point b p)) A (calc_unit T OF f acos L _ _)) as [_ Q].
        change (get_ball_point T f (Ball _ _ _ _ _ _ _ _ _) p) with (point b p). rewrite Q. set (x := turned (g_base b) v). clearbody x. unfold calc_rotation.
        replace (v_sq_sum T (v_cross T (point b p) (point b p))) with (zero T) by (destruct (point b p); unfold v_sq_sum, v_cross, square; cbn [QuatModel.v_x QuatModel.v_y QuatModel.v_z]; ring).
        assert (Z : eqb T (zero T) (zero T) = true) by (apply (of_eqb T OF); reflexivity). rewrite Z. cbn [negb andb]. apply (no_rotation_turned T OF f acos L).
      + intros now. destruct (orientation_ok T OF f acos L b _ now I) as (r & Er & _ & Ir). exists r, r. split; [exact Er|]. split; [|reflexivity].
        unfold track in E'. destruct (tball_track (g_grab b) p t); [|discriminate]. cbn [obind] in E'. rewrite Aq in E'. congruence.
    - (* Let_go *)
      destruct (orientation_ok T OF f acos L b _ now I) as (r & Er & Ur & Ir). destruct (orientation_ok T OF f acos L _ _ now I') as (r' & Er' & _ & Ir').
      exists r, r'. split; [exact Er|]. split; [exact Er'|].
      replace (next T g (Let_go now)) with (@None (list ((F * F) * Z))) in Ir', I' by (destruct g; reflexivity). cbn [orientation_is] in Ir'. subst r'.
      destruct I' as (_ & _ & A' & B' & _). intros v. rewrite (free_turned T OF f acos L) by assumption.
      unfold release in E'. destruct (tball_release _ lerp near (g_grab b)) as [[m out]|] eqn:Rl; [|discriminate]. cbn [obind] in E'. rewrite Aq in E'.
      destruct g as [[|m0 l]|].
      + destruct R as (_ & N & _). rewrite N in E'. cbn [obind] in E'. injection E' as <-. cbn [g_spin g_base g_release_time r_axis r_angle].
        replace (mul T (sub T now now) (zero T)) with (zero T) by ring. rewrite (zero_turned T OF f acos L). cbn [orientation_is] in Ir. rewrite Ir. reflexivity.
      + destruct m0 as [v0 t0]. destruct R as (_ & N & _ & _ & P & _). rewrite N in E'. cbn [obind] in E'. cbn [orientation_is] in Ir. destruct Ir as (q & Eq & ->). rewrite Eq in E'. cbn [obind] in E'.
        injection E' as <-. cbn [g_spin g_base g_release_time]. rewrite P. replace (sub T now now) with (zero T) by ring.
        match goal with |- turned (Rotation _ (mul T (zero T) ?x)) _ = _ => replace (mul T (zero T) x) with (zero T) by ring end. rewrite (zero_turned T OF f acos L). reflexivity.
      + injection E' as <-. cbn [orientation_is] in Ir. rewrite Ir. symmetry. apply (free_turned T OF f acos L); assumption.
    - (* Orient *)
      injection E' as <-. intros now. unfold get_orientation, get_free_orientation. cbn [set_orientation g_grab tball_leave t_acquired g_spin r_angle g_base].
      assert (Z : eqb T (zero T) (zero T) = true) by (apply (of_eqb T OF); reflexivity). rewrite Z. reflexivity.
    - (* Spin *)
      destruct (orientation_ok T OF f acos L b _ now I) as (r & Er & Ur & Ir). destruct (orientation_ok T OF f acos L _ _ now I') as (r' & Er' & _ & Ir').
      exists r, r'. split; [exact Er|]. split; [exact Er'|].
      replace (next T g (Spin rot now)) with (@None (list ((F * F) * Z))) in Ir', I' by (destruct g; reflexivity). cbn [orientation_is] in Ir'. subst r'.
      destruct I' as (_ & _ & A' & B' & _). intros v. rewrite (free_turned T OF f acos L) by assumption. unfold set_spin in E'. rewrite Er in E'. cbn [obind] in E'. injection E' as <-.
      cbn [g_spin g_base g_release_time]. replace (sub T now now) with (zero T) by ring.
      match goal with |- turned (Rotation _ (mul T (zero T) ?x)) _ = _ => replace (mul T (zero T) x) with (zero T) by ring end. rewrite (zero_turned T OF f acos L). reflexivity.
  Qed.

  (* C191.  After its release, the ball stands still if it was not dragged, or only for a short time and distance.  Otherwise, it goes on as it was
     dragged at the end: in the time from the reference position (see C156) to the last position, it turns the point under the one to the point under
     the other, and it goes on at that rate. *)
  Lemma of_pos_pos : forall p, lt T (zero T) (of_pos T p) = true.
  Proof.
    assert (P2 : lt T (zero T) (two T) = true) by (unfold two; apply (pos_add T OF); [apply (pos_one T OF)|right; apply (pos_one T OF)]).
    induction p as [p IH|p IH|]; cbn [of_pos]; [|apply (of_mul T OF); assumption|apply (pos_one T OF)].
    apply (pos_add T OF); [apply (pos_one T OF)|right; apply (of_mul T OF); assumption].
  Qed.

  Theorem trackball_spin : forall es now h, events_ok T (es ++ [Let_go now]) -> grab (grabs T es) = Some h ->
    exists b b' o, run es = Some b /\ run (es ++ [Let_go now]) = Some b' /\ orientation b now = Some o /\
    match h with
    | [] => forall later, orientation b' later = Some o
    | (v0, t0) :: _ =>
      let (v1, t1) := last h (v0, t0) in
      if ((t1 - t0 <? 200)%Z && near v0 v1)%bool then forall later, orientation b' later = Some o
      else
        let back := Z.min 100 (t1 - t0) in
        exists v spin, curve_value (zero T, zero T) lerp (lastn 16 (samples_of 7 (rebased h))) (t1 - t0 - back) v /\ unit_axis T spin /\
          (point b v1 <> opposite T (point b v) -> turned spin (point b v) = point b v1) /\
          (t0 <> t1 -> forall k x, exists r,
            orientation b' (add T now (mul T k (div T (of_int T back) (of_int T 1000)))) = Some r /\
            turned r x = turned (Rotation (r_axis spin) (mul T k (r_angle spin))) (turned o x))
    end.
  Proof.
    intros es now h Ok G. destruct (events_ok_app T _ _ Ok) as (Ok0 & Oe & G1 & G2).
    destruct (run_ok T OF f acos lerp near L es Ok0) as (b & E & I & M & _). destruct (run_ok T OF f acos lerp near L _ Ok) as (b' & E' & I' & _).
    rewrite G in *. destruct (orientation_ok T OF f acos L b _ now I) as (o & Eo & Uo & Io). exists b, b', o. split; [exact E|]. split; [exact E'|]. split; [exact Eo|].
    rewrite grab_next, G in I'. change (next T (Some h) (Let_go now)) with (@None (list ((F * F) * Z))) in I'.
    unfold TrackGeoSpec.run in E, E'. rewrite fold_left_app, E in E'. cbn [fold_left ui_step obind] in E'.
    pose proof I as (R & Ra & A & B & S). pose proof (acquired_iff T _ _ R) as Aq. cbn iota in Aq.
    destruct (tball_release_rep (zero T, zero T) lerp near (g_grab b) _ R G1) as (m & out & Er & Rm & Ro). unfold release in E'. rewrite Er in E'. cbn [obind] in E'. rewrite Aq in E'.
    assert (Zz : eqb T (zero T) (zero T) = true) by (apply (of_eqb T OF); reflexivity).
    pose proof I' as (R' & _ & A' & B' & _). pose proof (acquired_iff T _ _ R') as Aq'. cbn iota in Aq'.
    destruct h as [|[v0 t0] l].
    - destruct R as (_ & N & _). rewrite N in E'. cbn [obind] in E'. injection E' as <-. cbn [orientation_is] in Io. subst o. intros later.
      unfold get_orientation, get_free_orientation. cbn [g_grab] in *. rewrite Aq'. cbn [g_spin r_angle g_base]. rewrite Zz. reflexivity.
    - destruct R as (_ & N & _ & _ & P & _). rewrite N in E'. cbn [obind] in E'. cbn [orientation_is] in Io. destruct Io as (q & Eq & ->). rewrite Eq in E'. cbn [obind] in E'.
      unfold release_ok in Ro. destruct (last ((v0, t0) :: l) (v0, t0)) as [v1 t1] eqn:La. cbn [fst] in *. rewrite P in E'.
      destruct ((t1 - t0 <? 200)%Z && near v0 v1)%bool.
      + subst out. injection E' as <-. intros later. unfold get_orientation, get_free_orientation. cbn [g_grab] in *. rewrite Aq'. cbn [g_spin r_angle g_base]. rewrite Zz. reflexivity.
      + destruct Ro as (v & -> & _ & Cv). exists v, (calc_rotation T f acos (point b v) (point b v1)). split; [exact Cv|]. split; [apply (calc_unit T OF f acos L)|].
        split; [intros D; apply (calc_turned T OF f acos L); [apply (point_ok T OF f acos L), Ra|apply (point_ok T OF f acos L), Ra|exact D]|].
        intros Nt k x. eexists. unfold get_orientation. apply (f_equal (fun o => match o with Some z => z | None => b' end)) in E'. cbv beta iota in E'. rewrite <- E' at 1. cbn [g_grab]. replace (t_acquired m) with false by (rewrite <- E' in Aq'; symmetry; exact Aq').
        split; [reflexivity|]. rewrite (free_turned T OF f acos L) by assumption. rewrite <- E'. cbn [g_spin g_base g_release_time r_mul_r r_axis r_angle]. f_equal. f_equal.
        assert (Hb : (0 < Z.min 100 (t1 - t0))%Z).
        { destruct G1 as [Hnd _]. assert (In (v1, t1) ((v0, t0) :: l)).
          { rewrite <- La. clear. generalize (v0, t0) at 1 3. induction l as [|y l IH]; intros d; [left; reflexivity|]. cbn [last]. destruct l; [right; left; reflexivity|].
            destruct (IH y) as [K|K]; [right; left; exact K|right; right; exact K]. }
          pose proof (nondecreasing_first v0 t0 l (v1, t1) Hnd H). cbn [snd] in H0. lia. }
        pose proof (pos_nz T OF _ (of_pos_pos 1000)) as N2. change (of_pos T 1000) with (of_int T 1000) in N2.
        assert (N1 : of_int T (Z.min 100 (t1 - t0)) <> zero T) by (destruct (Z.min 100 (t1 - t0)) as [|p|p]; try lia; apply (pos_nz T OF), of_pos_pos).
        revert N1 N2. generalize (of_int T (Z.min 100 (t1 - t0))) (of_int T 1000). intros y z N1 N2. field. split; assumption.
  Qed.
End Props.

(* C186.  Rotations of the real space, with the actual functions: no other hypotheses are needed *)
Theorem rotations_real : forall a b, unit_axis reals a -> unit_axis reals b ->
  unit_axis reals (r_add reals real_funcs a b) /\
  forall v, turned reals real_funcs (r_add reals real_funcs a b) v = turned reals real_funcs b (turned reals real_funcs a v)/\
    turned reals real_funcs (r_opp reals a) (turned reals real_funcs a v) = v /\
    turned reals real_funcs (r_sub reals real_funcs (r_add reals real_funcs a b) b) v = turned reals real_funcs a v.
Proof.
  intros a b A B. destruct (sum_turned reals reals_ordered_field real_funcs acos real_laws a b A B) as [U S]. split; [exact U|]. intros v. split; [apply S|].
  assert (O : forall r v, unit_axis reals r -> turned reals real_funcs (r_opp reals r) (turned reals real_funcs r v) = v).
  { intros r x R. apply (opp_ok reals reals_ordered_field); [exact R| |apply (l_even_odd reals real_funcs acos real_laws)].
    pose proof (sin2_cos2 (r_angle r)) as K. unfold Rsqr in K. unfold circle_at. cbn. rewrite Rplus_comm. exact K. }
  split; [apply O, A|]. unfold r_sub. destruct (sum_turned reals reals_ordered_field real_funcs acos real_laws (r_add reals real_funcs a b) (r_opp reals b) U B) as [_ S2].
  rewrite S2, S. apply O, B.
Qed.

(* ---- concrete cases: the real numbers ---- *)

Definition rn (x : R) : scalar reals := x.
Definition ex_events : list (ui_event reals) :=
  [Resize (rn 800) (rn 600); Aspect (rn 2); Spin (Rotation (V3 (rn 0) (rn 0) (rn 1)) (rn 1)) (rn 0); Press (rn 1); Move ((rn 400), (rn 300)) 1000; Move ((rn 450), (rn 300)) 1300].

Example trackball_case : ordered_field reals /\ laws reals real_funcs acos /\ events_ok reals (ex_events ++ [Let_go (rn 2)]) /\
  grab (grabs reals ex_events) = Some [(((rn 400), (rn 300)), 1000%Z); (((rn 450), (rn 300)), 1300%Z)] /\ grab (grabs reals (firstn 3 ex_events)) = None.
Proof.
  split; [exact reals_ordered_field|]. split; [exact real_laws|]. split; [|split; reflexivity]. split.
  - unfold ex_events. repeat constructor; cbn [event_ok]; try (apply reals_lt; unfold rn; cbn; lra). unfold unit_axis, rn. cbn. ring.
  - intros pre post E. rewrite (prefix_of _ _ _ E). generalize (length pre). intros n. unfold ex_events. do 8 (destruct n as [|n]; [orderly|]). orderly.
Qed.

Print Assumptions trackball_well_defined.
Print Assumptions ball_point_right.
Print Assumptions drag_follows_pointer_partial.
Print Assumptions drag_follows_pointer_refuted.
Print Assumptions trackball_continuous.
Print Assumptions trackball_spin.
Print Assumptions rotations_real.
