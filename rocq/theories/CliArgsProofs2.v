(* The parsing of the arguments of pattern functions, and the check of pattern functions. *)
From Coq Require Import List Arith Bool Lia.
From Verif Require Import CliPatternModel CliPatternSpec CliTreeProofs CliSpecModel CliRecorderModel CliRecorderSpec CliAmbigProofs CliValueProofs
  CliArgsModel CliArgsSpec CliArgsProofs ArrLib.
Import ListNotations.

Scheme ptype_mut := Induction for ptype Sort Prop
with pclass_mut := Induction for pclass Sort Prop
with ptypes_mut := Induction for ptypes Sort Prop
with pclasses_mut := Induction for pclasses Sort Prop.
Combined Scheme ptype_all from ptype_mut, pclass_mut, ptypes_mut, pclasses_mut.

(* ---- parameters ---- *)

Lemma num_params_length q : num_params q = length (params q).
Proof. induction q as [|e q IH]; cbn [num_params params]; [reflexivity|]. rewrite IH. now destruct (takes_param e). Qed.

(* the records of the parameters of a sequence *)
Definition param_recs (st : structure) (es : list elem) (l : list telem) : Prop :=
  Forall2 (fun e te => full_elem st e te /\ e_is_param e = true) es l.

Lemma full_is_param st e te : full_elem st e te -> e_is_param e = takes_param te.
Proof. intros H. inversion H; subst; cbn [takes_param]; assumption. Qed.

Section Check.
  Variable st : structure.

  Lemma param_elems_ok i n q : full_elems st i n q -> forall room, room = length (params q) ->
    exists es, param_elems st n i room = Some es /\ param_recs st es (params q).
  Proof.
    revert i n. induction q as [|e q IH];
      intros i n F room Hr; inversion F as [|? n' el ? ? En Fe F2]; subst; cbn [params param_elems].
    - exists []. split; [reflexivity|constructor].
    - rewrite En. cbn [obind]. rewrite (full_is_param st el e Fe). destruct (takes_param e) eqn:T.
      + cbn [length]. destruct (IH (S i) n' F2 _ eq_refl) as (es & A & B). rewrite A. exists (el :: es). split; [reflexivity|].
        constructor; [|exact B]. split; [exact Fe|]. now rewrite (full_is_param st el e Fe).
      + apply IH; auto.
  Qed.

  Lemma first_param_ok i n q : full_elems st i n q ->
    match params q with
    | [] => first_param st n i = Some None
    | e :: _ => exists el, first_param st n i = Some (Some el) /\ full_elem st el e
    end.
  Proof.
    revert i n. induction q as [|e q IH];
      intros i n F; inversion F as [|? n' el ? ? En Fe F2]; subst; cbn [params first_param].
    - reflexivity.
    - rewrite En. cbn [obind]. rewrite (full_is_param st el e Fe). destruct (takes_param e) eqn:T; [eauto|]. now apply IH.
  Qed.

  Definition tells (o : option bool) (P : Prop) : Prop := exists b, o = Some b /\ (b = true <-> P).
  Lemma tells_yes (P : Prop) : P -> tells (Some true) P. Proof. exists true. split; [reflexivity|tauto]. Qed.
  Lemma tells_no (P : Prop) : ~ P -> tells (Some false) P. Proof. exists false. split; [reflexivity|]. split; [discriminate|tauto]. Qed.
  Lemma tells_iff o P Q : tells o P -> (P <-> Q) -> tells o Q.
  Proof. intros (b & A & B) H. exists b. split; [exact A|]. tauto. Qed.

  Lemma collapsible_iff e q : (e_collapsible e = true <-> num_params q = 0) -> (e_collapsible e = true <-> params q = []).
  Proof. intros H. rewrite H, num_params_length. destruct (params q); cbn [length]; split; congruence. Qed.

  Lemma is_sym_type e te : full_elem st e te ->
    e_type e = match te with ESym _ _ => t_sym | EOpt _ => t_opt | ERep _ => t_rep | EAlt _ => t_alt end.
  Proof. intros H. inversion H; subst; assumption. Qed.

  Lemma params_one q : num_params q = 1 -> exists e, params q = [e].
  Proof. rewrite num_params_length. destruct (params q) as [|e [|e2 l]]; cbn; try discriminate. eauto. Qed.

  (* one step *)
  Lemma check_optional c e : check_param st (TOptional c) e =
    (if is_type e t_opt then let? q := nth_error (ps_seqs st) (e_index e) in check_class st c q else Some false).
  Proof. reflexivity. Qed.
  Lemma check_vector c e : check_param st (TVector c) e =
    (if is_type e t_rep then
        let? q := nth_error (ps_seqs st) (e_index e) in
        check_class st c q
      else if is_type e t_opt then
        let? q := nth_error (ps_seqs st) (e_index e) in
        if q_num_params q =? 1 then
          let? o := first_param st (q_num_elems q) (q_elems_offset q) in
          match o with
          | Some e2 =>
            if is_type e2 t_rep then
              let? q2 := nth_error (ps_seqs st) (e_index e2) in
              check_class st c q2
            else Some false
          | None => Some false
          end
        else Some false
      else Some false).
  Proof. reflexivity. Qed.
  Lemma check_variant cs e : check_param st (TVariant cs) e =
    (if is_type e t_alt then
        let? a := nth_error (ps_alts st) (e_index e) in
        if a_num_seqs a =? count_classes cs then check_branches st cs (a_seqs_offset a) else Some false
      else Some false).
  Proof. reflexivity. Qed.
  Lemma check_tuple ts q : check_class st (CTuple ts) q =
    (if q_num_params q =? count_types ts then
        let? l := param_elems st (q_num_elems q) (q_elems_offset q) (count_types ts) in
        check_types st ts l
      else Some false).
  Proof. reflexivity. Qed.
  Lemma check_plain t q : check_class st (CPlain t) q =
    (if q_num_params q =? 1 then
        let? l := param_elems st (q_num_elems q) (q_elems_offset q) 1 in
        match l with
        | e :: _ => check_param st t e
        | [] => None
        end
      else Some false).
  Proof. reflexivity. Qed.
  Lemma check_more t ts e l : check_types st (TCons t ts) (e :: l) =
    (let? b := check_param st t e in if b : bool then check_types st ts l else Some false).
  Proof. reflexivity. Qed.
  Lemma check_branch c cs i : check_branches st (CCons c cs) i =
    (let? q := nth_error (ps_seqs st) i in
     let? b := check_class st c q in
     if b : bool then check_branches st cs (S i) else Some false).
  Proof. reflexivity. Qed.

  Lemma check_ok :
    (forall t e te, full_elem st e te -> e_is_param e = true -> tells (check_param st t e) (fits true t te)) /\
    (forall c sq q, full_elems st (q_elems_offset sq) (q_num_elems sq) q -> q_num_params sq = num_params q -> tells (check_class st c sq) (fits_class true c q)) /\
    (forall ts es l, param_recs st es l -> count_types ts = length l -> tells (check_types st ts es) (fits_all true ts l)) /\
    (forall cs i nb b, full_branches st i nb b -> count_classes cs = nb -> tells (check_branches st cs i) (fits_branches true cs b)).
  Proof.
    apply ptype_all.
    - (* TValue *)
      intros c e te F Pm. cbn [check_param]. unfold is_type. rewrite (is_sym_type e te F), Pm.
      inversion F; subst; [apply tells_yes; now constructor|apply tells_no..]; intros X; inversion X.
    - (* TBool *)
      intros e te F Pm. cbn [check_param]. unfold is_type. rewrite (is_sym_type e te F), Pm.
      inversion F as [|? q T FS Co _ _|? q T FS Co _ _|? a b T]; subst; cbn [andb].
      + apply tells_yes. now constructor.
      + exists (e_collapsible e). split; [reflexivity|]. rewrite (collapsible_iff _ _ Co). split; [now constructor|]. intros X. now inversion X.
      + apply tells_no. intros X. inversion X.
      + apply tells_no. intros X. inversion X.
    - (* TSize *)
      intros e te F Pm. cbn [check_param]. unfold is_type. rewrite (is_sym_type e te F), Pm.
      inversion F as [|? q T FS Co _ _|? q T FS Co _ _|? a b T Ea FB Co]; subst; cbn [orb].
      + apply tells_yes. now constructor.
      + inversion FS as [? sq ? Es Fel Np _ _]; subst. rewrite Es. cbn [obind]. rewrite Np.
        destruct (Nat.eqb_spec (num_params q) 1) as [E1|E1].
        * destruct (params_one q E1) as (e1 & Ep). pose proof (first_param_ok _ _ _ Fel) as FP. rewrite Ep in FP.
          destruct FP as (el & Ef & Fe1). rewrite Ef. cbn [obind]. rewrite (is_sym_type el e1 Fe1).
          inversion Fe1 as [|? q1 T1 FS1 Co1 _ _|? q1 T1 FS1 Co1 _ _|]; subst; cbn [andb].
          -- apply tells_no. intros X. inversion X; congruence.
          -- apply tells_no. intros X. inversion X; congruence.
          -- exists (e_collapsible el). split; [reflexivity|]. rewrite (collapsible_iff _ _ Co1). split.
             ++ intros X. now apply (fits_opt_count true q q1).
             ++ intros X. inversion X as [| | |? q' A B| | | | |]; subst. congruence.
          -- apply tells_no. intros X. inversion X; congruence.
        * apply tells_no. intros X. inversion X as [| | |? q' A B| | | | |]; subst. rewrite num_params_length, A in E1. now apply E1.
      + exists (e_collapsible e). split; [reflexivity|]. rewrite (collapsible_iff _ _ Co). split; [now constructor|]. intros X. now inversion X.
      + exists (e_collapsible e). split; [reflexivity|]. rewrite Co. split.
        * intros X. constructor; [reflexivity|]. intros k q Hq. specialize (X k q Hq). rewrite num_params_length in X. now destruct (params q).
        * intros X k q Hq. inversion X as [| | | |? _ Y| | | |]; subst. rewrite num_params_length, (Y k q Hq). reflexivity.
    - (* TOptional *)
      intros c IH e te F Pm. rewrite check_optional. unfold is_type. rewrite (is_sym_type e te F).
      inversion F as [|? q T FS Co _ _|? q T FS Co _ _|? a b T]; subst.
      + apply tells_no. intros X. inversion X. discriminate.
      + inversion FS as [? sq ? Es Fel Np _ _]; subst. rewrite Es. cbn [obind]. eapply tells_iff; [exact (IH sq q Fel Np)|].
        split; [now constructor|]. intros X. now inversion X.
      + apply tells_no. intros X. inversion X.
      + apply tells_no. intros X. inversion X.
    - (* TVector *)
      intros c IH e te F Pm. rewrite check_vector. unfold is_type. rewrite (is_sym_type e te F).
      inversion F as [|? q T FS Co _ _|? q T FS Co _ _|? a b T]; subst.
      + apply tells_no. intros X. inversion X. discriminate.
      + inversion FS as [? sq ? Es Fel Np _ _]; subst. rewrite Es. cbn [obind]. rewrite Np.
        destruct (Nat.eqb_spec (num_params q) 1) as [E1|E1].
        * destruct (params_one q E1) as (e1 & Ep). pose proof (first_param_ok _ _ _ Fel) as FP. rewrite Ep in FP.
          destruct FP as (el & Ef & Fe1). rewrite Ef. cbn [obind]. rewrite (is_sym_type el e1 Fe1).
          inversion Fe1 as [|? q1 T1 FS1 Co1 _ _|? q1 T1 FS1 Co1 _ _|]; subst.
          -- apply tells_no. intros X. inversion X; congruence.
          -- apply tells_no. intros X. inversion X; congruence.
          -- inversion FS1 as [? sq1 ? Es1 Fel1 Np1 _ _]; subst. rewrite Es1. cbn [obind]. eapply tells_iff; [exact (IH sq1 q1 Fel1 Np1)|]. split.
             ++ intros X. now apply (fits_opt_vector true c q q1).
             ++ intros X. inversion X as [| | | | | | |? ? q' A B|]; subst. rewrite Ep in A. now injection A as ->.
          -- apply tells_no. intros X. inversion X; congruence.
        * apply tells_no. intros X. inversion X as [| | | | | | |? ? q' A B|]; subst. rewrite num_params_length, A in E1. now apply E1.
      + inversion FS as [? sq ? Es Fel Np _ _]; subst. rewrite Es. cbn [obind]. eapply tells_iff; [exact (IH sq q Fel Np)|].
        split; [now constructor|]. intros X. now inversion X.
      + apply tells_no. intros X. inversion X.
    - (* TVariant *)
      intros cs IH e te F Pm. rewrite check_variant. unfold is_type. rewrite (is_sym_type e te F).
      inversion F as [|? q T FS Co _ _|? q T FS Co _ _|? a b T Ea FB]; subst.
      + apply tells_no. intros X. inversion X. discriminate.
      + apply tells_no. intros X. inversion X.
      + apply tells_no. intros X. inversion X.
      + rewrite Ea. cbn [obind]. destruct (Nat.eqb_spec (a_num_seqs a) (count_classes cs)) as [E1|E1].
        * eapply tells_iff; [eapply IH; [exact FB|auto]|]. split; [now constructor|]. intros X. now inversion X.
        * apply tells_no. intros X. inversion X as [| | | | | | | |? ? Y]; subst. apply E1. clear - Y FB.
          revert FB. generalize (a_seqs_offset a) (a_num_seqs a). clear a. intros i n FB. revert i n FB.
          induction Y as [c q _|c cs q b _ Y IH]; intros i n FB; inversion FB; subst; cbn [count_classes]; [reflexivity|]. f_equal. now apply (IH (S i)).
    - (* CTuple *)
      intros ts IH sq q F Np. rewrite check_tuple, Np, num_params_length. destruct (Nat.eqb_spec (length (params q)) (count_types ts)) as [E|E].
      + destruct (param_elems_ok _ _ _ F (count_types ts) (eq_sym E)) as (es & A & B). rewrite A. cbn [obind].
        eapply tells_iff; [eapply IH; [exact B|auto]|]. split; [now constructor|]. intros X. now inversion X.
      + apply tells_no. intros X. inversion X as [? ? Y|]; subst. apply E. clear - Y. induction Y; cbn [length count_types]; auto.
    - (* CPlain *)
      intros t IH sq q F Np. rewrite check_plain, Np. destruct (Nat.eqb_spec (num_params q) 1) as [E|E].
      + destruct (params_one q E) as (e1 & Ep). rewrite num_params_length in E. destruct (param_elems_ok _ _ _ F 1 (eq_sym E)) as (es & A & B).
        rewrite A. cbn [obind]. rewrite Ep in B. inversion B as [|el ? ? ? [Fe Pm] _]; subst. eapply tells_iff; [exact (IH el e1 Fe Pm)|]. split.
        * intros X. now apply (fits_plain true t q e1).
        * intros X. inversion X as [|? ? e2 A2 B2]; subst. rewrite Ep in A2. now injection A2 as ->.
      + apply tells_no. intros X. inversion X as [|? ? e2 A2 B2]; subst. apply E. now rewrite num_params_length, A2.
    - intros es l P Hl. cbn [check_types]. destruct l; [|discriminate]. apply tells_yes. constructor.
    - intros t IHt ts IHts es l P Hl. inversion P as [|e te es' l' [Fe Pm] P2]; subst; [discriminate|]. rewrite check_more.
      destruct (IHt e te Fe Pm) as (b & A & B). rewrite A. cbn [obind]. destruct b.
      + eapply tells_iff; [eapply IHts; [exact P2|cbn in Hl; lia]|]. split; [intros X; constructor; tauto|]. intros X. now inversion X.
      + apply tells_no. intros X. inversion X; subst. apply B in H2. discriminate.
    - intros i nb b FB E. cbn in E. subst nb. inversion FB.
    - intros c IHc cs IHcs i nb b FB E. rewrite check_branch. rename E into Ec; inversion FB as [? q FS X1 X2 X3|? n q b' FS FB2 X1 X2 X3]; subst; inversion FS as [? sq ? Es Fel Np _ _]; subst;
        rewrite Es; cbn [obind]; destruct (IHc sq q Fel Np) as (x & A & B); rewrite A; cbn [obind].
      + destruct cs; [|discriminate]. cbn [check_branches]. exists x. split; [now destruct x|].
        rewrite B. split; [now constructor|]. intros X. now inversion X.
      + destruct x.
        * eapply tells_iff; [eapply IHcs; [exact FB2|cbn in X2; lia]|]. split; [intros X; constructor; tauto|]. intros X. now inversion X.
        * apply tells_no. intros X. inversion X; subst. apply B in H2. discriminate.
  Qed.
End Check.

(* ---- parsing ---- *)

(* the descriptions of the parameters of a sequence *)
Inductive says_params : list (telem * pval) -> list (telem * nat) -> Prop :=
| sp_nil : says_params [] []
| sp_cons : forall e v ps l1 l2, takes_param e = true -> says_elem e v l1 -> says_params ps l2 -> says_params ((e, v) :: ps) (l1 ++ l2).

Lemma says_seq_params q v l : says_seq q v l -> says_params (params_of q v) l /\ map fst (params_of q v) = params q.
Proof.
  induction 1 as [|e q v vs l1 l2 H1 H2 [A B]]; cbn [params_of params map]; [split; [constructor|reflexivity]|].
  destruct (takes_param e) eqn:T.
  - split; [now constructor|]. cbn [map fst]. now rewrite B.
  - destruct e; try discriminate. cbn [takes_param] in T. inversion H1; subst; [congruence|]. auto.
Qed.
Lemma says_no_params q v l : says_seq q v l -> params q = [] -> l = [].
Proof.
  intros H E. apply says_seq_params in H as [A B]. rewrite E in B. destruct (params_of q v); [|discriminate]. now inversion A.
Qed.
Lemma says_reps_no_params q vs l : says_reps q vs l -> params q = [] -> l = [].
Proof. induction 1 as [|? ? ? ? ? A B IH]; intros E; [reflexivity|]. now rewrite (says_no_params _ _ _ A E), IH. Qed.
Lemma says_one_rep q v l q' : says_seq q v l -> params q = [ERep q'] ->
  exists vs l', params_of q v = [(ERep q', VRep vs)] /\ l = (ERep q', length vs) :: l' /\ says_reps q' vs l'.
Proof.
  intros H E. apply says_seq_params in H as [A B]. rewrite E in B. destruct (params_of q v) as [|[e x] [|y l0]]; try discriminate.
  injection B as ->. inversion A as [|? ? ? l1 l2 _ S1 S2]; subst. inversion S2; subst. inversion S1; subst. rewrite app_nil_r. eauto.
Qed.
Lemma says_one q v l e : says_seq q v l -> params q = [e] -> exists x, params_of q v = [(e, x)] /\ says_elem e x l /\ takes_param e = true.
Proof.
  intros H E. apply says_seq_params in H as [A B]. rewrite E in B. destruct (params_of q v) as [|[e' x] [|y l0]]; try discriminate.
  injection B as ->. inversion A as [|? ? ? l1 l2 T S1 S2]; subst. inversion S2; subst. rewrite app_nil_r. eauto.
Qed.

Section Parse.
  Variable st : structure.
  Variable args : list text.
  Variable accepts : ptype -> text -> bool.

  (* one step *)
  Lemma parse_optional c s : parse_elem st args accepts (TOptional c) s =
    (let? (d, s) := next s in
      if is_type (d_elem d) t_opt then
        if d_value d <? 2 then
          if negb (0 <? d_value d) then Some (true, ANone, s)
          else let? (more, v, s) := parse_pattern st args accepts c s in Some (more, ASome v, s)
        else None
      else None).
  Proof. reflexivity. Qed.
  Lemma parse_vector c s : parse_elem st args accepts (TVector c) s =
    (let? (d, s) := next s in
      if is_type (d_elem d) t_opt && negb (0 <? d_value d) then Some (true, AVec [], s)
      else
        let? (d, s) := (if is_type (d_elem d) t_opt then next s else Some (d, s)) in
        if is_type (d_elem d) t_rep then
          let? (more, vs, s) := repeat_parse (parse_pattern st args accepts c) (d_value d) s in Some (more, AVec vs, s)
        else None).
  Proof. reflexivity. Qed.
  Lemma parse_variant_elem cs s : parse_elem st args accepts (TVariant cs) s =
    (let? (d, s) := next s in
      if is_type (d_elem d) t_alt then
        if d_value d <? count_classes cs then
          let? (more, v, s) := parse_variant st args accepts cs (d_value d) s in Some (more, AVar (d_value d) v, s)
        else None
      else None).
  Proof. reflexivity. Qed.
  Lemma parse_plain t s : parse_pattern st args accepts (CPlain t) s =
    (let? (more, v, s) := parse_elem st args accepts t s in Some (more, [v], s)).
  Proof. reflexivity. Qed.
  Lemma parse_class ts s : parse_pattern st args accepts (CTuple ts) s = parse_tuple st args accepts ts s.
  Proof. reflexivity. Qed.
  Lemma parse_more t ts s : parse_tuple st args accepts (TCons t ts) s =
    (let? (more, v, s) := parse_elem st args accepts t s in
      if more : bool then
        let? (more, vs, s) := parse_tuple st args accepts ts s in Some (more, v :: vs, s)
      else Some (false, [v], s)).
  Proof. reflexivity. Qed.
  Lemma parse_this c cs s : parse_variant st args accepts (CCons c cs) 0 s = parse_pattern st args accepts c s.
  Proof. reflexivity. Qed.
  Lemma parse_other c cs k s : parse_variant st args accepts (CCons c cs) (S k) s = parse_variant st args accepts cs k s.
  Proof. reflexivity. Qed.

  Definition reachable (l : list (telem * nat)) : Prop :=
    Forall (fun x => match fst x with ESym _ _ => snd x < length args | _ => True end) l.

  (* what remains after the rejection of some arguments *)
  Definition after (s : list desc) (err : bool) (errs r : list (nat * text)) : dstate :=
    Dstate s (err || negb (length r =? 0)) (errs ++ r).

  Lemma after_nil s err errs : Dstate s err errs = after s err errs [].
  Proof. unfold after. cbn. now rewrite orb_false_r, app_nil_r. Qed.
  Lemma after_app s err errs r1 r2 : after s (err || negb (length r1 =? 0)) (errs ++ r1) r2 = after s err errs (r1 ++ r2).
  Proof. unfold after. rewrite <- app_assoc, app_length, <- orb_assoc. f_equal. f_equal. destruct r1, r2; reflexivity. Qed.

  Lemma next_desc ds x l rest err errs : encodes st ds (x :: l) -> exists e d, ds = Desc e (snd x) :: d /\ full_elem st e (fst x) /\ encodes st d l /\
    next (Dstate (ds ++ rest) err errs) = Some (Desc e (snd x), Dstate (d ++ rest) err errs).
  Proof. intros H. inversion H as [|[e n] ? d ? [A B] C]; subst. cbn in B. subst n. exists e, d. split; [reflexivity|]. auto. Qed.

  Lemma is_type_full e te t : full_elem st e te -> is_type e t =
    match te, t with ESym _ _, t_sym | EOpt _, t_opt | ERep _, t_rep | EAlt _, t_alt => true | _, _ => false end.
  Proof. intros H. unfold is_type. rewrite (is_sym_type st e te H). destruct te, t; reflexivity. Qed.

  Lemma regular_ok t i s a el rest err errs : scalar t = true -> full_elem st el (ESym i s) -> a < length args ->
    exists y r, gives args accepts t (ESym i s) (VSym i a) y r /\
      parse_regular st args accepts t (Desc el a) (Dstate rest err errs) = Some (true, y, after rest err errs r).
  Proof.
    intros Sc F L. destruct (nth_error args a) as [x|] eqn:E; [|apply nth_error_None in E; lia].
    unfold parse_regular. cbn [d_elem d_value]. rewrite (is_type_full _ _ _ F), E. cbn [obind]. destruct (accepts t x) eqn:A.
    - exists (AParsed x), []. split; [now constructor|]. now rewrite after_nil.
    - exists AUnset, [(a, x)]. split; [now constructor|]. inversion F as [? ? ? _ Es| | |]; subst. rewrite Es. cbn [obind ds_rest ds_errors].
      unfold after. cbn [length Nat.eqb negb]. now rewrite orb_true_r.
  Qed.

  Definition good_e (t : ptype) : Prop := forall e v l ds rest err errs, fits false t e -> takes_param e = true -> says_elem e v l -> encodes st ds l -> reachable l ->
    exists y r, gives args accepts t e v y r /\ parse_elem st args accepts t (Dstate (ds ++ rest) err errs) = Some (true, y, after rest err errs r).
  Definition good_c (c : pclass) : Prop := forall q v l ds rest err errs, fits_class false c q -> says_seq q v l -> encodes st ds l -> reachable l ->
    exists y r, gives_class args accepts c q v y r /\ parse_pattern st args accepts c (Dstate (ds ++ rest) err errs) = Some (true, y, after rest err errs r).
  Definition good_ts (ts : ptypes) : Prop := forall ps l ds rest err errs, fits_all false ts (map fst ps) -> says_params ps l -> encodes st ds l -> reachable l ->
    exists y r, gives_all args accepts ts ps y r /\ parse_tuple st args accepts ts (Dstate (ds ++ rest) err errs) = Some (true, y, after rest err errs r).
  Definition good_cs (cs : pclasses) : Prop := forall b k q v l ds rest err errs, fits_branches false cs b -> branch b k = Some q -> says_seq q v l -> encodes st ds l -> reachable l ->
    exists c y r, class_at cs k = Some c /\ k < count_classes cs /\ gives_class args accepts c q v y r /\
      parse_variant st args accepts cs k (Dstate (ds ++ rest) err errs) = Some (true, y, after rest err errs r).

  Lemma encodes_split ds l1 l2 : encodes st ds (l1 ++ l2) -> exists d1 d2, ds = d1 ++ d2 /\ encodes st d1 l1 /\ encodes st d2 l2.
  Proof. intros H. apply Forall2_app_inv_r in H as (d1 & d2 & A & B & C). eauto. Qed.

  Lemma repeat_ok c q : good_c c -> fits_class false c q -> forall vs l ds rest err errs, says_reps q vs l -> encodes st ds l -> reachable l ->
    exists y r, gives_reps args accepts c q vs y r /\
      repeat_parse (parse_pattern st args accepts c) (length vs) (Dstate (ds ++ rest) err errs) = Some (true, y, after rest err errs r).
  Proof.
    intros G F. induction vs as [|v vs IH]; intros l ds rest err errs H E R; inversion H as [|? ? ? l1 l2 H1 H2]; subst.
    - inversion E; subst. exists [], []. split; [constructor|]. cbn [length repeat_parse app]. now rewrite after_nil.
    - apply encodes_split in E as (d1 & d2 & -> & E1 & E2). apply Forall_app in R as [R1 R2].
      destruct (G q v l1 d1 (d2 ++ rest) err errs F H1 E1 R1) as (y & r & Gy & P).
      destruct (IH l2 d2 rest (err || negb (length r =? 0)) (errs ++ r) H2 E2 R2) as (ys & r2 & Gys & P2).
      exists (y :: ys), (r ++ r2). split; [now constructor|]. cbn [length repeat_parse]. rewrite <- app_assoc, P. cbn [obind].
      unfold after at 1. rewrite P2. cbn [obind]. now rewrite after_app.
  Qed.

  Lemma parse_ok : (forall t, good_e t) /\ (forall c, good_c c) /\ (forall ts, good_ts ts) /\ (forall cs, good_cs cs).
  Proof.
    apply ptype_all.
    - intros c e v l ds rest err errs F T H E R. inversion F as [? i s Sc| | | | | | | |]; subst. cbn [takes_param] in T. inversion H; subst; [|congruence].
      destruct (next_desc ds _ _ rest err errs E) as (el & d & -> & Fe & Ed & N). inversion Ed; subst. cbn [fst snd app] in *.
      inversion R; subst. change (parse_elem st args accepts (TValue c) (Dstate (Desc el a :: rest) err errs)) with
        (let? (d, s) := next (Dstate (Desc el a :: rest) err errs) in parse_regular st args accepts (TValue c) d s).
      rewrite N. cbn [obind]. now apply regular_ok.
    - intros e v l ds rest err errs F T H E R.
      assert (Q : parse_elem st args accepts TBool (Dstate (ds ++ rest) err errs) =
        let? (d, s) := next (Dstate (ds ++ rest) err errs) in
        if negb (is_type (d_elem d) t_opt) then parse_regular st args accepts TBool d s
        else if e_collapsible (d_elem d) then Some (true, ABool (0 <? d_value d), s)
        else None) by reflexivity.
      inversion F as [? i s Sc|q Pq| | | | | | |]; subst.
      + cbn [takes_param] in T. inversion H; subst; [|congruence].
        destruct (next_desc ds _ _ rest err errs E) as (el & d & -> & Fe & Ed & N). inversion Ed; subst. cbn [fst snd app] in *.
        inversion R; subst. rewrite Q, N. cbn [obind d_elem]. rewrite (is_type_full _ _ _ Fe). cbn [negb]. now apply regular_ok.
      + assert (Co : forall el, full_elem st el (EOpt q) -> e_collapsible el = true).
        { intros el Fe. inversion Fe as [|? ? _ _ Co _ _| |]; subst. apply Co. now rewrite num_params_length, Pq. }
        inversion H as [| | |? v' l' Sv| |]; subst.
        * destruct (next_desc ds _ _ rest err errs E) as (el & d & -> & Fe & Ed & N). inversion Ed; subst. cbn [fst snd app] in *.
          exists (ABool false), []. split; [constructor|]. rewrite Q, N. cbn [obind d_elem d_value]. rewrite (is_type_full _ _ _ Fe), (Co el Fe). cbn [negb]. now rewrite after_nil.
        * rewrite (says_no_params _ _ _ Sv Pq) in E. destruct (next_desc ds _ _ rest err errs E) as (el & d & -> & Fe & Ed & N). inversion Ed; subst. cbn [fst snd app] in *.
          exists (ABool true), []. split; [constructor|]. rewrite Q, N. cbn [obind d_elem d_value]. rewrite (is_type_full _ _ _ Fe), (Co el Fe). cbn [negb]. now rewrite after_nil.
    - intros e v l ds rest err errs F T H E R.
      assert (Q : parse_elem st args accepts TSize (Dstate (ds ++ rest) err errs) =
        let? (d, s) := next (Dstate (ds ++ rest) err errs) in
        if negb (is_type (d_elem d) t_opt) then
          if negb (is_type (d_elem d) t_rep) then parse_regular st args accepts TSize d s
          else if e_collapsible (d_elem d) then Some (true, ASize (d_value d), s)
          else None
        else if negb (0 <? d_value d) then Some (true, ASize 0, s)
        else
          let? (d, s) := next s in
          if is_type (d_elem d) t_rep then
            if e_collapsible (d_elem d) then Some (true, ASize (d_value d), s) else None
          else None) by reflexivity.
      assert (Co : forall q el, params q = [] -> full_elem st el (ERep q) -> e_collapsible el = true).
      { intros q el Pq Fe. inversion Fe as [| |? ? _ _ Co _ _|]; subst. apply Co. now rewrite num_params_length, Pq. }
      inversion F as [? i s Sc| |q Pq|q q' Pq Pq'|? X _| | | |]; subst; [| | |discriminate].
      + cbn [takes_param] in T. inversion H; subst; [|congruence].
        destruct (next_desc ds _ _ rest err errs E) as (el & d & -> & Fe & Ed & N). inversion Ed; subst. cbn [fst snd app] in *.
        inversion R; subst. rewrite Q, N. cbn [obind d_elem]. rewrite !(is_type_full _ _ _ Fe). cbn [negb]. now apply regular_ok.
      + inversion H as [| | | |? vs l' Sv|]; subst. rewrite (says_reps_no_params _ _ _ Sv Pq) in E.
        destruct (next_desc ds _ _ rest err errs E) as (el & d & -> & Fe & Ed & N). inversion Ed; subst. cbn [fst snd app] in *.
        exists (ASize (length vs)), []. split; [constructor|]. rewrite Q, N. cbn [obind d_elem d_value]. rewrite !(is_type_full _ _ _ Fe), (Co q el Pq Fe). cbn [negb]. now rewrite after_nil.
      + inversion H as [| | |? v' l' Sv| |]; subst.
        * destruct (next_desc ds _ _ rest err errs E) as (el & d & -> & Fe & Ed & N). inversion Ed; subst. cbn [fst snd app] in *.
          exists (ASize 0), []. split; [constructor|]. rewrite Q, N. cbn [obind d_elem d_value]. rewrite (is_type_full _ _ _ Fe). cbn [negb Nat.ltb Nat.leb]. now rewrite after_nil.
        * destruct (says_one_rep _ _ _ _ Sv Pq) as (vs & l2 & Pv & -> & Sr). rewrite (says_reps_no_params _ _ _ Sr Pq') in E.
          destruct (next_desc ds _ _ rest err errs E) as (el & d & -> & Fe & Ed & N).
          destruct (next_desc d _ _ rest err errs Ed) as (el2 & d2 & -> & Fe2 & Ed2 & N2). inversion Ed2; subst. cbn [fst snd app] in *.
          exists (ASize (length vs)), []. split; [econstructor; exact Pv|]. rewrite Q, N. cbn [obind d_elem d_value]. rewrite (is_type_full _ _ _ Fe). cbn [negb Nat.ltb Nat.leb].
          rewrite N2. cbn [obind d_elem d_value]. rewrite (is_type_full _ _ _ Fe2), (Co q' el2 Pq' Fe2). now rewrite after_nil.
    - intros c IH e v l ds rest err errs F T H E R. inversion F as [? i s Sc| | | | |? q Fc| | |]; subst; [discriminate|]. rewrite parse_optional.
      inversion H as [| | |? v' l' Sv| |]; subst.
      + destruct (next_desc ds _ _ rest err errs E) as (el & d & -> & Fe & Ed & N). inversion Ed; subst. cbn [fst snd app] in *.
        exists ANone, []. split; [constructor|]. rewrite N. cbn [obind d_elem d_value]. rewrite (is_type_full _ _ _ Fe). cbn [negb Nat.ltb Nat.leb]. now rewrite after_nil.
      + destruct (next_desc ds _ _ rest err errs E) as (el & d & -> & Fe & Ed & N). cbn [fst snd app] in *. inversion R as [|? ? _ R2]; subst.
        destruct (IH q v' l' d rest err errs Fc Sv Ed R2) as (y & r & G & P). exists (ASome y), r. split; [now constructor|].
        rewrite N. cbn [obind d_elem d_value]. rewrite (is_type_full _ _ _ Fe). cbn [negb Nat.ltb Nat.leb]. now rewrite P.
    - intros c IH e v l ds rest err errs F T H E R. rewrite parse_vector. inversion F as [? i s Sc| | | | | |? q Fc|? q q' Pq Fc|]; subst; [discriminate| |].
      + inversion H as [| | | |? vs l' Sv|]; subst.
        destruct (next_desc ds _ _ rest err errs E) as (el & d & -> & Fe & Ed & N). cbn [fst snd app] in *. inversion R as [|? ? _ R2]; subst.
        destruct (repeat_ok c q IH Fc vs l' d rest err errs Sv Ed R2) as (y & r & G & P). exists (AVec y), r. split; [now constructor|].
        rewrite N. cbn [obind d_elem d_value]. rewrite !(is_type_full _ _ _ Fe). cbn [negb andb obind d_elem d_value]. rewrite (is_type_full _ _ _ Fe), P. reflexivity.
      + inversion H as [| | |? v' l' Sv| |]; subst.
        * destruct (next_desc ds _ _ rest err errs E) as (el & d & -> & Fe & Ed & N). inversion Ed; subst. cbn [fst snd app] in *.
          exists (AVec []), []. split; [constructor|]. rewrite N. cbn [obind d_elem d_value]. rewrite (is_type_full _ _ _ Fe). cbn [negb andb Nat.ltb Nat.leb]. now rewrite after_nil.
        * destruct (says_one_rep _ _ _ _ Sv Pq) as (vs & l2 & Pv & -> & Sr).
          destruct (next_desc ds _ _ rest err errs E) as (el & d & -> & Fe & Ed & N).
          destruct (next_desc d _ _ rest err errs Ed) as (el2 & d2 & -> & Fe2 & Ed2 & N2). cbn [fst snd app] in *. inversion R as [|? ? _ R2]; subst. inversion R2 as [|? ? _ R3]; subst.
          destruct (repeat_ok c q' IH Fc vs l2 d2 rest err errs Sr Ed2 R3) as (y & r & G & P). exists (AVec y), r. split; [econstructor; eassumption|].
          rewrite N. cbn [obind d_elem d_value]. rewrite !(is_type_full _ _ _ Fe). cbn [negb andb Nat.ltb Nat.leb]. rewrite N2. cbn [obind d_elem d_value].
          rewrite (is_type_full _ _ _ Fe2), P. reflexivity.
    - intros cs IH e v l ds rest err errs F T H E R. rewrite parse_variant_elem. inversion F as [? i s Sc| | | | | | | |? b Fb]; subst; [discriminate|].
      inversion H as [| | | | |? k q v' l' Eb Sv]; subst.
      destruct (next_desc ds _ _ rest err errs E) as (el & d & -> & Fe & Ed & N). cbn [fst snd app] in *. inversion R as [|? ? _ R2]; subst.
      destruct (IH b k q v' l' d rest err errs Fb Eb Sv Ed R2) as (c & y & r & Ec & Lc & G & P). exists (AVar k y), r. split; [econstructor; eassumption|].
      rewrite N. cbn [obind d_elem d_value]. rewrite (is_type_full _ _ _ Fe). rewrite (proj2 (Nat.ltb_lt _ _) Lc), P. reflexivity.
    - intros ts IH q v l ds rest err errs F H E R. inversion F as [? ? Fa|]; subst. rewrite parse_class. apply says_seq_params in H as [A B].
      rewrite <- B in Fa. destruct (IH _ l ds rest err errs Fa A E R) as (y & r & G & P). exists y, r. split; [now constructor|exact P].
    - intros t IH q v l ds rest err errs F H E R. inversion F as [|? ? e Pq Ft]; subst. rewrite parse_plain.
      destruct (says_one _ _ _ _ H Pq) as (x & Px & Sx & T). destruct (IH e x l ds rest err errs Ft T Sx E R) as (y & r & G & P).
      exists [y], r. split; [econstructor; eassumption|]. now rewrite P.
    - intros ps l ds rest err errs F H E R. inversion H; subst; inversion F. inversion E; subst. exists [], []. split; [constructor|]. cbn [app]. now rewrite after_nil.
    - intros t IHt ts IHts ps l ds rest err errs F H E R. rewrite parse_more. inversion H as [|e x ps' l1 l2 T S1 S2]; subst; inversion F as [|? ? ? ? F1 F2]; subst.
      apply encodes_split in E as (d1 & d2 & -> & E1 & E2). apply Forall_app in R as [R1 R2].
      destruct (IHt e x l1 d1 (d2 ++ rest) err errs F1 T S1 E1 R1) as (y & r & G & P).
      destruct (IHts ps' l2 d2 rest (err || negb (length r =? 0)) (errs ++ r) F2 S2 E2 R2) as (ys & r2 & G2 & P2).
      exists (y :: ys), (r ++ r2). split; [now constructor|]. rewrite <- app_assoc, P. cbn [obind]. unfold after at 1. rewrite P2. cbn [obind]. now rewrite after_app.
    - intros b k q v l ds rest err errs F. inversion F.
    - intros c IHc cs IHcs b k q v l ds rest err errs F Eb H E R. inversion F as [? q0 Fc|? ? q0 b' Fc Fb]; subst; destruct k as [|k]; cbn [branch] in Eb; try discriminate.
      + injection Eb as ->. destruct (IHc q v l ds rest err errs Fc H E R) as (y & r & G & P). exists c, y, r. rewrite parse_this. cbn. split; [reflexivity|]. split; [lia|auto].
      + injection Eb as ->. destruct (IHc q v l ds rest err errs Fc H E R) as (y & r & G & P). exists c, y, r. rewrite parse_this. cbn. split; [reflexivity|]. split; [lia|auto].
      + destruct (IHcs b' k q v l ds rest err errs Fb Eb H E R) as (c' & y & r & A & B & G & P). exists c', y, r. rewrite parse_other. cbn. split; [exact A|]. split; [lia|auto].
  Qed.

  Lemma parse_run ts q v l ds : fits_class false (CTuple ts) q -> says_seq q v l -> encodes st ds l -> reachable l ->
    exists y r, func_args args accepts ts q v y r /\ parse st args accepts ts ds = Some (y, length r =? 0, r).
  Proof.
    intros F H E R. destruct (proj1 (proj2 parse_ok) (CTuple ts) q v l ds [] false [] F H E R) as (y & r & G & P).
    exists y, r. split; [exact G|]. unfold parse. rewrite app_nil_r, parse_class in P. rewrite P. cbn [obind negb orb ds_rest ds_error ds_errors after].
    now rewrite negb_involutive.
  Qed.
End Parse.
