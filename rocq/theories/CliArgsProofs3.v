(* More about descriptions and arguments: they are determined by the values of the pattern;
   and whether a function fits depends only on which symbols are value slots. *)
From Coq Require Import List Arith Bool Lia.
From Verif Require Import CliPatternModel CliPatternSpec CliTreeProofs CliSpecModel CliRecorderModel CliRecorderSpec CliAmbigProofs CliValueProofs CliRecorderProofs2
  CliBuildSpec CliArgsModel CliArgsSpec CliArgsProofs CliArgsProofs2.
Import ListNotations.

Scheme says_elem_mut := Induction for says_elem Sort Prop
with says_seq_mut := Induction for says_seq Sort Prop
with says_reps_mut := Induction for says_reps Sort Prop.
Combined Scheme says_ind from says_elem_mut, says_seq_mut, says_reps_mut.

Lemma says_det :
  (forall e v l, says_elem e v l -> forall l', says_elem e v l' -> l = l') /\
  (forall q v l, says_seq q v l -> forall l', says_seq q v l' -> l = l') /\
  (forall q vs l, says_reps q vs l -> forall l', says_reps q vs l' -> l = l').
Proof.
  apply says_ind.
  - intros i s a H l' H'. inversion H'; subst; [reflexivity|congruence].
  - intros i s a H l' H'. inversion H'; subst; [congruence|reflexivity].
  - intros q l' H'. now inversion H'.
  - intros q v l H IH l' H'. inversion H'; subst. f_equal. now apply IH.
  - intros q vs l H IH l' H'. inversion H'; subst. f_equal. now apply IH.
  - intros b k q v l E H IH l' H'. inversion H' as [| | | | |? ? q' ? l0 E' H0]; subst. rewrite E in E'. injection E' as <-. f_equal. now apply IH.
  - intros l' H'. now inversion H'.
  - intros e q v vs l1 l2 H1 IH1 H2 IH2 l' H'. inversion H'; subst. f_equal; auto.
  - intros q l' H'. now inversion H'.
  - intros q v vs l1 l2 H1 IH1 H2 IH2 l' H'. inversion H'; subst. f_equal; auto.
Qed.

(* the arguments of value slots are those of the match *)
Definition slots_from (w : list (nat * nat)) (l : list (telem * nat)) : Prop := forall i s a, In (ESym i s, a) l -> In (i, a) w.
Lemma slots_from_app w1 w2 l1 l2 : slots_from w1 l1 -> slots_from w2 l2 -> slots_from (w1 ++ w2) (l1 ++ l2).
Proof. intros A B i s a H. apply in_app_iff in H as [H|H]; apply in_or_app; [left; eapply A|right; eapply B]; exact H. Qed.
Lemma says_from :
  (forall e v l, says_elem e v l -> forall w, val_elem e w v -> slots_from w l) /\
  (forall q v l, says_seq q v l -> forall w, val_seq q w v -> slots_from w l) /\
  (forall q vs l, says_reps q vs l -> forall w, val_reps q w vs -> slots_from w l).
Proof.
  apply says_ind.
  - intros i s a H w V. inversion V; subst. intros i' s' a' [X|[]]. injection X as <- <- <-. now left.
  - intros i s a H w V i' s' a' [].
  - intros q w V i' s' a' [X|[]]. discriminate.
  - intros q v l H IH w V i' s' a' [X|X]; [discriminate|]. inversion V; subst. eapply IH; eassumption.
  - intros q vs l H IH w V i' s' a' [X|X]; [discriminate|]. inversion V; subst. eapply IH; eassumption.
  - intros b k q v l E H IH w V i' s' a' [X|X]; [discriminate|]. inversion V as [| | | |? ? q' ? ? E' V']; subst. rewrite E in E'. injection E' as <-. eapply IH; eassumption.
  - intros w V i s a [].
  - intros e q v vs l1 l2 H1 IH1 H2 IH2 w V. inversion V; subst. apply slots_from_app; auto.
  - intros q w V i s a [].
  - intros q v vs l1 l2 H1 IH1 H2 IH2 w V. inversion V; subst.
    + inversion H2; subst. rewrite app_nil_r. now apply IH1.
    + apply slots_from_app; auto.
Qed.

(* ---- what a function is called with ---- *)

Section Gives.
  Variable args : list text.
  Variable accepts : ptype -> text -> bool.
  Scheme gives_mut := Induction for gives Sort Prop
  with gives_class_mut := Induction for gives_class Sort Prop
  with gives_all_mut := Induction for gives_all Sort Prop
  with gives_reps_mut := Induction for gives_reps Sort Prop.
  Combined Scheme gives_ind from gives_mut, gives_class_mut, gives_all_mut, gives_reps_mut.

  Lemma gives_det :
    (forall t e v y r, gives args accepts t e v y r -> forall y' r', gives args accepts t e v y' r' -> y = y' /\ r = r') /\
    (forall c q v y r, gives_class args accepts c q v y r -> forall y' r', gives_class args accepts c q v y' r' -> y = y' /\ r = r') /\
    (forall ts ps y r, gives_all args accepts ts ps y r -> forall y' r', gives_all args accepts ts ps y' r' -> y = y' /\ r = r') /\
    (forall c q vs y r, gives_reps args accepts c q vs y r -> forall y' r', gives_reps args accepts c q vs y' r' -> y = y' /\ r = r').
  Proof.
    apply gives_ind.
    - intros t i s a x Sc E A y' r' H. inversion H; subst; try discriminate; split; congruence.
    - intros t i s a x Sc E A y' r' H. inversion H; subst; try discriminate; split; congruence.
    - intros q y' r' H. inversion H; subst; auto.
    - intros q v y' r' H. inversion H; subst; auto.
    - intros q vs y' r' H. inversion H; subst; auto.
    - intros q y' r' H. inversion H; subst; auto.
    - intros q v q' vs E y' r' H. inversion H as [| | | | | |? ? q1 vs1 E1| | | | | | |]; subst. rewrite E in E1. injection E1 as _ ->. auto.
    - intros b k v y' r' H. inversion H; subst; auto.
    - intros c q y' r' H. inversion H; subst; auto.
    - intros c q v l r H IH y' r' H'. inversion H' as [| | | | | | | | |? ? ? ? ? X| | | |]; subst. destruct (IH _ _ X) as [-> ->]. auto.
    - intros c q vs l r H IH y' r' H'. inversion H' as [| | | | | | | | | |? ? ? ? ? X| | |]; subst. destruct (IH _ _ X) as [-> ->]. auto.
    - intros c q y' r' H. inversion H; subst; auto.
    - intros c q v q' vs l r E H IH y' r' H'. inversion H' as [| | | | | | | | | | | |? ? ? q1 vs1 ? ? E1 X|]; subst. rewrite E in E1. injection E1 as <- <-. destruct (IH _ _ X) as [-> ->]. auto.
    - intros cs c b k q v l r Ec Eb H IH y' r' H'. inversion H' as [| | | | | | | | | | | | |? c1 ? ? q1 ? ? ? Ec1 Eb1 X]; subst.
      rewrite Ec in Ec1. rewrite Eb in Eb1. injection Ec1 as <-. injection Eb1 as <-. destruct (IH _ _ X) as [-> ->]. auto.
    - intros ts q v l r H IH y' r' H'. inversion H'; subst. now apply IH.
    - intros t q v e x y r E H IH y' r' H'. inversion H' as [|? ? ? e1 x1 y1 ? E1 X]; subst. rewrite E in E1. injection E1 as <- <-. destruct (IH _ _ X) as [-> ->]. auto.
    - intros y' r' H. inversion H; subst; auto.
    - intros t ts e x ps y l r1 r2 H1 IH1 H2 IH2 y' r' H'. inversion H' as [|? ? ? ? ? ? ? ? ? X1 X2]; subst. destruct (IH1 _ _ X1) as [-> ->], (IH2 _ _ X2) as [-> ->]. auto.
    - intros c q y' r' H. inversion H; subst; auto.
    - intros c q v vs l ls r1 r2 H1 IH1 H2 IH2 y' r' H'. inversion H' as [|? ? ? ? ? ? ? ? X1 X2]; subst. destruct (IH1 _ _ X1) as [-> ->], (IH2 _ _ X2) as [-> ->]. auto.
  Qed.
End Gives.

(* ---- fitting, and symbols ---- *)

Definition plain_sym (s : psym) : psym := if is_slot s then Psym s_value_slot 0 else dummy_symbol.
Fixpoint plain_e (e : telem) : telem :=
  match e with
  | ESym i s => ESym i (plain_sym s)
  | EOpt q => EOpt (plain_q q)
  | ERep q => ERep (plain_q q)
  | EAlt b => EAlt (plain_b b)
  end
with plain_q (q : tseq) : tseq := match q with SNil => SNil | SCons e q => SCons (plain_e e) (plain_q q) end
with plain_b (b : tbranches) : tbranches := match b with BOne q => BOne (plain_q q) | BCons q b => BCons (plain_q q) (plain_b b) end.

Lemma plain_takes e : takes_param (plain_e e) = takes_param e.
Proof. destruct e as [i s|q|q|b]; try reflexivity. cbn. unfold plain_sym. now destruct (is_slot s) eqn:E. Qed.
Lemma plain_params q : params (plain_q q) = map plain_e (params q).
Proof. induction q as [|e q IH]; [reflexivity|]. cbn [plain_q params]. rewrite plain_takes. destruct (takes_param e); cbn [map]; now rewrite IH. Qed.
Lemma plain_branch b : forall k, branch (plain_b b) k = option_map plain_q (branch b k).
Proof. induction b as [q|q b IH]; intros [|k]; try reflexivity. cbn [plain_b branch]. apply IH. Qed.
Lemma plain_no_params q : params (plain_q q) = [] <-> params q = [].
Proof. rewrite plain_params. destruct (params q); [easy|]. split; discriminate. Qed.
Lemma plain_one q e : params (plain_q q) = [e] <-> exists e0, params q = [e0] /\ e = plain_e e0.
Proof.
  rewrite plain_params. destruct (params q) as [|x [|y l]]; cbn [map]; split; try discriminate.
  - intros (e0 & H & _). discriminate.
  - intros H. injection H as <-. eauto.
  - intros (e0 & H & ->). injection H as <-. reflexivity.
  - intros (e0 & H & _). discriminate.
Qed.

Ltac pick H := first [now apply (proj1 (H _)) | now apply (proj2 (H _))].
Lemma fits_plain_iff b :
  (forall t e, fits b t e <-> fits b t (plain_e e)) /\ (forall c q, fits_class b c q <-> fits_class b c (plain_q q)) /\
  (forall ts l, fits_all b ts l <-> fits_all b ts (map plain_e l)) /\ (forall cs br, fits_branches b cs br <-> fits_branches b cs (plain_b br)).
Proof.
  apply ptype_all.
  - intros c e. destruct e; cbn [plain_e]; split; intros H; inversion H; subst; now constructor.
  - intros e. destruct e as [i s|q|q|br]; cbn [plain_e]; split; intros H; inversion H; subst; try discriminate; try (now constructor); constructor; now apply plain_no_params.
  - intros e. destruct e as [i s|q|q|br]; cbn [plain_e]; split; intros H; inversion H; subst; try (now constructor).
    + apply fits_opt_count with (q' := plain_q q'); [|now apply plain_no_params]. apply plain_one. now exists (ERep q').
    + match goal with X : params _ = [ERep _] |- _ => apply plain_one in X; destruct X as (e0 & E & Y) end. destruct e0; try discriminate. injection Y as ->. apply (fits_opt_count b q q0); [exact E|now apply plain_no_params].
    + constructor. now apply plain_no_params.
    + constructor. now apply plain_no_params.
    + apply fits_choice; [reflexivity|]. intros k q E. rewrite plain_branch in E. destruct (branch br k) as [q0|] eqn:E0; [|discriminate]. injection E as <-. apply plain_no_params. eauto.
    + apply fits_choice; [reflexivity|]. intros k q E. apply plain_no_params. apply (H2 k). now rewrite plain_branch, E.
  - intros c IH e. destruct e as [i s|q|q|br]; cbn [plain_e]; split; intros H; inversion H; subst; try discriminate; constructor; pick IH.
  - intros c IH e. destruct e as [i s|q|q|br]; cbn [plain_e]; split; intros H; inversion H; subst; try discriminate.
    + apply fits_opt_vector with (q' := plain_q q'); [|pick IH]. apply plain_one. now exists (ERep q').
    + match goal with X : params _ = [ERep _] |- _ => apply plain_one in X; destruct X as (e0 & E & Y) end. destruct e0; try discriminate. injection Y as ->. apply (fits_opt_vector b c q q0); [exact E|pick IH].
    + constructor. pick IH.
    + constructor. pick IH.
  - intros cs IH e. destruct e as [i s|q|q|br]; cbn [plain_e]; split; intros H; inversion H; subst; try discriminate; constructor; pick IH.
  - intros ts IH q. split; intros H; inversion H; subst; constructor; [rewrite plain_params; pick IH|apply IH; now rewrite <- plain_params].
  - intros t IH q. split; intros H; inversion H; subst.
    + apply fits_plain with (e := plain_e e); [apply plain_one; eauto|pick IH].
    + match goal with X : params _ = [_] |- _ => apply plain_one in X; destruct X as (e0 & E & ->) end. apply (fits_plain b t q e0); [exact E|pick IH].
  - intros [|e l]; cbn [map]; split; intros H; inversion H; constructor.
  - intros t IHt ts IHts [|e l]; cbn [map]; split; intros H; inversion H; subst; constructor; try pick IHt; pick IHts.
  - intros br. split; intros H; inversion H.
  - intros c IHc cs IHcs br. destruct br as [q|q br]; cbn [plain_b]; split; intros H; inversion H; subst; constructor; try pick IHc; pick IHcs.
Qed.

Lemma plain_app a b : plain_q (seq_app a b) = seq_app (plain_q a) (plain_q b).
Proof. induction a as [|e a IH]; cbn [seq_app plain_q]; [reflexivity|]. now rewrite IH. Qed.
Lemma plain_br_app a b : plain_b (br_app a b) = br_app (plain_b a) (plain_b b).
Proof. induction a as [q|q a IH]; cbn [br_app plain_b]; [reflexivity|]. now rewrite IH. Qed.
Lemma plain_shape f f' t : slots_kept f -> slots_kept f' -> forall pos,
  plain_q (fst (shape f pos t)) = plain_q (fst (shape f' pos t)) /\ plain_b (snd (shape f pos t)) = plain_b (snd (shape f' pos t)).
Proof.
  intros A B. induction t as [l|a IH|a IH|a IHa b IHb|a IHa b IHb]; intros pos; cbn [shape fst snd plain_q plain_b plain_e].
  - unfold plain_sym. rewrite (A l), (B l). auto.
  - destruct (IH pos) as [-> _]. auto.
  - destruct (IH pos) as [-> _]. auto.
  - rewrite !plain_app. destruct (IHa pos) as [-> _], (IHb (pos + length (leaves a))) as [-> _]. auto.
  - rewrite !plain_br_app. destruct (IHa pos) as [_ ->], (IHb (pos + length (leaves a))) as [_ ->]. auto.
Qed.
Lemma fits_elements b c f f' t : slots_kept f -> slots_kept f' -> (fits_class b c (elements f t) <-> fits_class b c (elements f' t)).
Proof.
  intros A B. rewrite (proj1 (proj2 (fits_plain_iff b)) c (elements f t)), (proj1 (proj2 (fits_plain_iff b)) c (elements f' t)).
  destruct t as [t|]; [|reflexivity]. cbn [elements]. now rewrite (proj1 (plain_shape f f' t A B 0)).
Qed.

(* ---- alternatives without value slots ---- *)

Lemma fits_drop :
  (forall t e, fits true t e -> choices_free e -> fits false t e) /\ (forall c q, fits_class true c q -> all_free q -> fits_class false c q) /\
  (forall ts l, fits_all true ts l -> Forall choices_free l -> fits_all false ts l) /\
  (forall cs br, fits_branches true cs br -> (forall k q, branch br k = Some q -> all_free q) -> fits_branches false cs br).
Proof.
  assert (P : forall q, all_free q -> Forall choices_free (params q)).
  { intros q. induction q as [|e q IH]; intros F; [constructor|]. inversion F; subst. cbn [params]. destruct (takes_param e); auto. }
  apply ptype_all.
  - intros c e H F. inversion H; subst; now constructor.
  - intros e H F. inversion H; subst; try discriminate; now constructor.
  - intros e H F. inversion H; subst; try (now constructor); [now apply fits_opt_count with (q' := q')|]. inversion F as [| | |? N _]; subst. now destruct N.
  - intros c IH e H F. inversion H; subst; try discriminate. inversion F; subst. constructor. now apply IH.
  - intros c IH e H F. inversion H; subst; try discriminate; inversion F; subst.
    + constructor. now apply IH.
    + apply fits_opt_vector with (q' := q'); [assumption|]. apply IH; [assumption|]. specialize (P q). rewrite H1 in P. specialize (P H3). inversion P as [|? ? X]; subst. now inversion X.
  - intros cs IH e H F. inversion H; subst; try discriminate. inversion F; subst. constructor. now apply IH.
  - intros ts IH q H F. inversion H; subst. constructor. auto.
  - intros t IH q H F. inversion H; subst. apply fits_plain with (e := e); [assumption|]. apply IH; [assumption|]. specialize (P q F). rewrite H1 in P. now inversion P.
  - intros l H F. inversion H. constructor.
  - intros t IHt ts IHts l H F. inversion H; subst. inversion F; subst. constructor; auto.
  - intros br H F. inversion H.
  - intros c IHc cs IHcs br H F. inversion H; subst.
    + apply fits_last. apply IHc; [assumption|]. now apply (F 0).
    + apply fits_next; [apply IHc; [assumption|]; now apply (F 0)|]. apply IHcs; [assumption|]. intros k q0 E. now apply (F (S k)).
Qed.
