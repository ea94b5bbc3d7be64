(* Lemmas for RectPackProps. *)
From Coq Require Import ZArith Lia Bool List ZifyBool Permutation.
From Verif Require Import CInt IntProofs ArrLib RectPackModel RectPackSpec.
Import ListNotations.
Open Scope Z_scope.

Lemma nth_error_set {A} (l l' : list A) n x i : set_nth l n x = Some l' ->
  nth_error l' i = if Nat.eqb i n then Some x else nth_error l i.
Proof. apply nth_error_set_nth. Qed.

Lemma set_nth_ok {A} (l : list A) n x : (n < length l)%nat -> exists l', set_nth l n x = Some l'.
Proof. intros H. rewrite set_nth_some by assumption. eauto. Qed.

Lemma nodup_app {A} (a b : list A) : NoDup a -> NoDup b -> (forall x, In x a -> ~ In x b) -> NoDup (a ++ b).
Proof.
  intros Ha Hb Hd. induction Ha as [|x a Hx Ha IH]; [assumption|]. cbn. constructor.
  - intros H. apply in_app_or in H as [H|H]; [auto|]. exact (Hd x (or_introl eq_refl) H).
  - apply IH. intros y Hy. apply Hd. right. assumption.
Qed.

(* ---------------------------------------------------------------------- *)
(* the nodes of a bin form a tree: rep nodes i L if the indices of the tree with root i
   are L *)

Inductive rep (nodes : list node) : nat -> list nat -> Prop :=
| rep_free i nd : nth_error nodes i = Some nd -> n_occ nd = false -> rep nodes i [i]
| rep_occ i nd l1 l2 : nth_error nodes i = Some nd -> n_occ nd = true ->
    rep_opt nodes (n_right nd) l1 -> rep_opt nodes (n_down nd) l2 -> rep nodes i (i :: l1 ++ l2)
with rep_opt (nodes : list node) : option nat -> list nat -> Prop :=
| rep_none : rep_opt nodes None []
| rep_some i l : rep nodes i l -> rep_opt nodes (Some i) l.

Scheme rep_ind2 := Induction for rep Sort Prop
  with rep_opt_ind2 := Induction for rep_opt Sort Prop.
Combined Scheme rep_mut from rep_ind2, rep_opt_ind2.

Lemma rep_bound nodes i L : rep nodes i L -> forall j, In j L -> (j < length nodes)%nat.
Proof.
  intros H. revert i L H.
  apply (rep_ind2 nodes (fun i L _ => forall j, In j L -> (j < length nodes)%nat)
    (fun o L _ => forall j, In j L -> (j < length nodes)%nat)).
  - intros i nd E _ j [<-|[]]. apply nth_error_Some. congruence.
  - intros i nd l1 l2 E _ _ IH1 _ IH2 j [<-|Hj].
    + apply nth_error_Some. congruence.
    + apply in_app_or in Hj as [Hj|Hj]; auto.
  - intros j [].
  - auto.
Qed.

Lemma find_node_ok w h nodes : forall fuel i stack L Ls, rep nodes i L -> Forall2 (rep nodes) stack Ls ->
  (length L + length (concat Ls) <= fuel)%nat ->
  exists r, find_node fuel nodes w h i stack = Some r /\
    forall j, r = Some j -> In j (L ++ concat Ls) /\
      exists nd, nth_error nodes j = Some nd /\ n_occ nd = false /\ w <= n_w nd /\ h <= n_h nd.
Proof.
  induction fuel as [|fuel IH]; intros i stack L Ls Hi Hst Hf.
  - inversion Hi; subst; cbn in Hf; lia.
  - cbn [find_node]. inversion Hi as [? nd E Ho|? nd l1 l2 E Ho H1 H2]; subst.
    + rewrite E. cbn [obind]. rewrite Ho. cbn [negb].
      destruct ((w <=? n_w nd) && (h <=? n_h nd)) eqn:Ef; cbn [negb].
      * exists (Some i). split; [reflexivity|]. intros j [= <-]. split; [left; reflexivity|].
        exists nd. repeat split; try assumption; lia.
      * inversion Hst as [|k L' stack' Ls' Hk Hst']; subst.
        { exists None. split; [reflexivity|]. discriminate. }
        destruct (IH k stack' L' Ls' Hk Hst') as (r & Er & Hr).
        { cbn [length concat] in Hf. rewrite app_length in Hf. lia. }
        exists r. split; [assumption|]. intros j Hj. destruct (Hr j Hj) as [Hin Hnd].
        split; [|assumption]. right. exact Hin.
    + rewrite E. cbn [obind]. rewrite Ho. cbn [negb].
      set (st := match n_down nd with Some i => i :: stack | None => stack end).
      assert (Hst2 : exists Ls2, Forall2 (rep nodes) st Ls2 /\ concat Ls2 = l2 ++ concat Ls).
      { unfold st. inversion H2 as [E2|k l Hk E2]; subst.
        - exists Ls. auto.
        - exists (l2 :: Ls). split; [constructor; assumption|reflexivity]. }
      destruct Hst2 as (Ls2 & Hst2 & EL2).
      cbn [length] in Hf. rewrite app_length in Hf.
      inversion H1 as [E1|k l Hk E1]; subst.
      * inversion Hst2 as [Es El|k L' stack' Ls' Hk Hst' Es El].
        { exists None. split; [reflexivity|]. discriminate. }
        subst Ls2. cbn [concat] in EL2.
        destruct (IH k stack' L' Ls' Hk Hst') as (r & Er & Hr).
        { apply (f_equal (@length nat)) in EL2. rewrite !app_length in EL2. cbn [length] in Hf. lia. }
        exists r. split; [assumption|]. intros j Hj. destruct (Hr j Hj) as [Hin Hnd].
        split; [|assumption]. right. cbn [app]. rewrite <- EL2. exact Hin.
      * destruct (IH k st l1 Ls2 Hk Hst2) as (r & Er & Hr).
        { rewrite EL2, app_length. lia. }
        exists r. split; [assumption|]. intros j Hj. destruct (Hr j Hj) as [Hin Hnd].
        split; [|assumption]. right. rewrite EL2 in Hin. now rewrite <- app_assoc.
Qed.

(* replacing a free node by an occupied one with new children *)
Lemma rep_update nodes nodes' i rn dn l1 l2 x y w h :
  (forall nd, nth_error nodes i = Some nd -> n_occ nd = false) ->
  nth_error nodes' i = Some (Node true x y w h rn dn) ->
  (forall j nd, j <> i -> nth_error nodes j = Some nd -> nth_error nodes' j = Some nd) ->
  rep_opt nodes' rn l1 -> rep_opt nodes' dn l2 ->
  forall j L, rep nodes j L ->
  rep nodes' j (flat_map (fun k => if Nat.eqb k i then i :: l1 ++ l2 else [k]) L).
Proof.
  intros Hfree Hi Hother H1 H2.
  apply (rep_ind2 nodes
    (fun j L _ => rep nodes' j (flat_map (fun k => if Nat.eqb k i then i :: l1 ++ l2 else [k]) L))
    (fun o L _ => rep_opt nodes' o (flat_map (fun k => if Nat.eqb k i then i :: l1 ++ l2 else [k]) L))).
  - intros j nd E Ho. cbn [flat_map]. rewrite app_nil_r. destruct (Nat.eqb_spec j i) as [->|Hne].
    + now apply rep_occ with (nd := Node true x y w h rn dn).
    + apply rep_free with (nd := nd); auto.
  - intros j nd m1 m2 E Ho _ IH1 _ IH2. cbn [flat_map]. rewrite flat_map_app.
    destruct (Nat.eqb_spec j i) as [->|Hne].
    + specialize (Hfree nd E). congruence.
    + cbn [app]. apply rep_occ with (nd := nd); auto.
  - constructor.
  - intros j l _ IH. now constructor.
Qed.

Lemma rep_other nodes nodes' j L : (forall k nd, In k L -> nth_error nodes k = Some nd -> nth_error nodes' k = Some nd) ->
  rep nodes j L -> rep nodes' j L.
Proof.
  intros Ho Hr. revert j L Hr Ho.
  apply (rep_ind2 nodes
    (fun j L _ => (forall k nd, In k L -> nth_error nodes k = Some nd -> nth_error nodes' k = Some nd) -> rep nodes' j L)
    (fun o L _ => (forall k nd, In k L -> nth_error nodes k = Some nd -> nth_error nodes' k = Some nd) -> rep_opt nodes' o L)).
  - intros i nd E Hf Ho. apply rep_free with (nd := nd); [|assumption]. apply Ho; [left; reflexivity|assumption].
  - intros i nd l1 l2 E Hf _ IH1 _ IH2 Ho. apply rep_occ with (nd := nd); try assumption.
    + apply Ho; [left; reflexivity|assumption].
    + apply IH1. intros k n Hk. apply Ho. right. apply in_or_app. auto.
    + apply IH2. intros k n Hk. apply Ho. right. apply in_or_app. auto.
  - constructor.
  - intros i l _ IH Ho. constructor. auto.
Qed.

(* ---------------------------------------------------------------------- *)
(* geometry *)

Definition nbox (nd : node) : box := Box (n_x nd) (n_y nd) (n_w nd) (n_h nd).
Definition rbox (rc : rect) : box := Box (r_x rc) (r_y rc) (r_w rc) (r_h rc).
(* a lies in b *)
Definition sub (a b : box) : Prop :=
  bx b <= bx a /\ bx a + bw a <= bx b + bw b /\ by_ b <= by_ a /\ by_ a + bh a <= by_ b + bh b.
Definition solid (a : box) : Prop := 0 <= bw a /\ 0 <= bh a.

Lemma apart_sub d a a' b : sub a' a -> solid a' -> apart d a b -> apart d a' b.
Proof. unfold sub, apart, solid. lia. Qed.

Lemma apart_sym d a b : apart d a b -> apart d b a.
Proof. unfold apart. tauto. Qed.

Lemma sub_trans a b c : sub a b -> sub b c -> sub a c.
Proof. unfold sub. lia. Qed.

Lemma sub_refl a : sub a a.
Proof. unfold sub. lia. Qed.

Section S.
  Variable t : ity.
  Variables (sp mg : Z).
  Variables (rx ry rw rh : Z).
  Variable max_bins : nat.
  Hypothesis Ht : ity_ok t.
  Hypothesis Hsp : 0 <= sp <= imax t.
  Hypothesis Hrx : 0 <= rx.
  Hypothesis Hry : 0 <= ry.
  Hypothesis Hrw : 0 <= rw.
  Hypothesis Hrh : 0 <= rh.
  Hypothesis Hxw : rx + rw <= imax t.
  Hypothesis Hyh : ry + rh <= imax t.

  Notation root := (Box rx ry rw rh).

  Lemma imin_le : imin t <= 0.
  Proof.
    unfold imin. destruct (isigned t); [|lia].
    pose proof (Z.pow_nonneg 2 (iwidth t - 1) ltac:(lia)). lia.
  Qed.

  Lemma ar_ok z : 0 <= z <= imax t -> ar t z = Some z.
  Proof.
    intros H. pose proof imin_le. unfold ar. rewrite norm_in; [reflexivity| |now apply promo_ok].
    apply in_range_promo; [assumption|]. unfold in_range. lia.
  Qed.

  Lemma ct_ok z : 0 <= z <= imax t -> ct t z = z.
  Proof. intros H. pose proof imin_le. apply wrap_id; [assumption|]. unfold in_range. lia. Qed.

  (* occupying a node *)
  Lemma occupy_ok nodes b i nd w h : nth_error nodes i = Some nd -> n_occ nd = false ->
    sub (nbox nd) root -> 0 <= w <= n_w nd -> 0 <= h <= n_h nd ->
    exists nodes' rn dn l1 l2 mx my,
      occupy t sp nodes b i w h = Some (nodes', Bin (b_root b) mx my, n_x nd, n_y nd) /\
      mx = Z.max (b_max_x b) (n_x nd + w) /\ my = Z.max (b_max_y b) (n_y nd + h) /\
      (length nodes <= length nodes')%nat /\
      nth_error nodes' i = Some (Node true (n_x nd) (n_y nd) (n_w nd) (n_h nd) rn dn) /\
      (forall j n, j <> i -> nth_error nodes j = Some n -> nth_error nodes' j = Some n) /\
      (forall j n, (length nodes <= j)%nat -> nth_error nodes' j = Some n -> In j (l1 ++ l2)) /\
      rep_opt nodes' rn l1 /\ rep_opt nodes' dn l2 /\ NoDup (l1 ++ l2) /\
      (forall j, In j (l1 ++ l2) -> (length nodes <= j)%nat /\ exists n, nth_error nodes' j = Some n /\
         n_occ n = false /\ sub (nbox n) (nbox nd) /\ solid (nbox n) /\
         apart sp (nbox n) (Box (n_x nd) (n_y nd) w h)) /\
      (forall j k nj nk, In j (l1 ++ l2) -> In k (l1 ++ l2) -> j <> k ->
         nth_error nodes' j = Some nj -> nth_error nodes' k = Some nk -> apart sp (nbox nj) (nbox nk)).
  Proof.
    intros E Ho Hs Hw Hh. unfold sub, nbox in Hs. cbn [bx by_ bw bh] in Hs.
    unfold occupy. rewrite E. cbn [obind].
    rewrite (ar_ok (n_x nd + w)) by lia. cbn [obind].
    rewrite (ar_ok (n_y nd + h)) by lia. cbn [obind].
    rewrite (ar_ok (n_w nd - w)) by lia. cbn [obind].
    rewrite (ar_ok (n_h nd - h)) by lia. cbn [obind].
    rewrite !ct_ok by lia.
    assert (Hmx : (if n_x nd + w >? b_max_x b then n_x nd + w else b_max_x b) = Z.max (b_max_x b) (n_x nd + w)).
    { destruct (Z.gtb_spec (n_x nd + w) (b_max_x b)); lia. }
    assert (Hmy : (if n_y nd + h >? b_max_y b then n_y nd + h else b_max_y b) = Z.max (b_max_y b) (n_y nd + h)).
    { destruct (Z.gtb_spec (n_y nd + h) (b_max_y b)); lia. }
    rewrite Hmx, Hmy.
    assert (Hin : (i < length nodes)%nat) by (apply nth_error_Some; congruence).
    destruct (if n_h nd - h >=? n_w nd - w then (h, n_w nd) else (n_h nd, w)) as [h1 w2] eqn:Esplit.
    assert (Hsplit : (h1 = h /\ w2 = n_w nd) \/ (h1 = n_h nd /\ w2 = w)).
    { destruct (n_h nd - h >=? n_w nd - w); injection Esplit as <- <-; auto. }
    clear Esplit.
    set (n := length nodes).
    assert (Hnth : forall extra nd' nodes', set_nth (nodes ++ extra) i nd' = Some nodes' ->
      forall j, nth_error nodes' j = if Nat.eqb j i then Some nd' else
        if Nat.ltb j n then nth_error nodes j else nth_error extra (j - n)).
    { intros extra nd' nodes' Hset j. rewrite (nth_error_set _ _ _ _ j Hset).
      destruct (Nat.eqb_spec j i); [reflexivity|]. destruct (Nat.ltb_spec j n).
      - apply nth_error_app1. assumption.
      - apply nth_error_app2. assumption. }
    unfold add_node.
    destruct (n_w nd - w >=? sp) eqn:Er; destruct (n_h nd - h >=? sp) eqn:Ed.
    - rewrite (ar_ok (n_w nd - w - sp)) by lia. cbn [obind].
      rewrite (ar_ok (n_x nd + w + sp)) by lia. cbn [obind].
      rewrite (ar_ok (n_h nd - h - sp)) by lia. cbn [obind].
      rewrite (ar_ok (n_y nd + h + sp)) by lia. cbn [obind].
      rewrite !ct_ok by lia. rewrite <- app_assoc. cbn [app]. rewrite app_length. cbn [length].
      replace (length nodes + 1)%nat with (S n) by (unfold n; lia).
      set (n1 := Node false (n_x nd + w + sp) (n_y nd) (n_w nd - w - sp) h1 None None).
      set (n2 := Node false (n_x nd) (n_y nd + h + sp) w2 (n_h nd - h - sp) None None).
      destruct (set_nth_ok (nodes ++ [n1; n2]) i
        (Node true (n_x nd) (n_y nd) (n_w nd) (n_h nd) (Some n) (Some (S n)))) as [nodes' Es].
      { rewrite app_length. lia. }
      rewrite Es. cbn [obind]. specialize (Hnth _ _ _ Es).
      assert (G1 : nth_error nodes' n = Some n1).
      { rewrite Hnth. destruct (Nat.eqb_spec n i); [lia|]. destruct (Nat.ltb_spec n n); [lia|].
        now rewrite Nat.sub_diag. }
      assert (G2 : nth_error nodes' (S n) = Some n2).
      { rewrite Hnth. destruct (Nat.eqb_spec (S n) i); [lia|]. destruct (Nat.ltb_spec (S n) n); [lia|].
        now replace (S n - n)%nat with 1%nat by lia. }
      exists nodes', (Some n), (Some (S n)), [n], [S n], (Z.max (b_max_x b) (n_x nd + w)), (Z.max (b_max_y b) (n_y nd + h)).
      split; [reflexivity|]. split; [reflexivity|]. split; [reflexivity|].
      split; [rewrite (set_nth_length _ _ _ _ Es), app_length; lia|].
      split; [rewrite Hnth, Nat.eqb_refl; reflexivity|].
      split. { intros j nj Hj Ej. rewrite Hnth. apply Nat.eqb_neq in Hj. rewrite Hj.
        assert (j < n)%nat by (apply nth_error_Some; congruence). destruct (Nat.ltb_spec j n); [assumption|lia]. }
      split. { intros j nj Hj Ej. assert (j < length nodes')%nat by (apply nth_error_Some; congruence).
        rewrite (set_nth_length _ _ _ _ Es), app_length in H. cbn [length] in H. cbn [app In]. lia. }
      split; [constructor; now apply rep_free with (nd := n1)|].
      split; [constructor; now apply rep_free with (nd := n2)|].
      split. { cbn [app]. constructor; [cbn [In]; lia|]. constructor; [intros []|constructor]. }
      split.
      { intros j Hj. cbn [app In] in Hj. assert (j = n \/ j = S n) as [-> | ->] by lia.
        - split; [lia|]. exists n1. unfold sub, nbox, solid, apart, n1. cbn. repeat split; try assumption; lia.
        - split; [lia|]. exists n2. unfold sub, nbox, solid, apart, n2. cbn. repeat split; try assumption; lia. }
      intros j k nj nk Hj Hk Hjk Ej Ek. cbn [app In] in Hj, Hk.
      assert ((j = n /\ k = S n) \/ (j = S n /\ k = n)) as [[-> ->]|[-> ->]] by lia;
        rewrite ?G1, ?G2 in *; injection Ej as <-; injection Ek as <-;
        unfold nbox, apart, n1, n2; cbn [bx by_ bw bh n_x n_y n_w n_h]; lia.
    - rewrite (ar_ok (n_w nd - w - sp)) by lia. cbn [obind].
      rewrite (ar_ok (n_x nd + w + sp)) by lia. cbn [obind].
      rewrite !ct_ok by lia.
      set (n1 := Node false (n_x nd + w + sp) (n_y nd) (n_w nd - w - sp) h1 None None).
      destruct (set_nth_ok (nodes ++ [n1]) i
        (Node true (n_x nd) (n_y nd) (n_w nd) (n_h nd) (Some n) None)) as [nodes' Es].
      { rewrite app_length. lia. }
      rewrite Es. cbn [obind]. specialize (Hnth _ _ _ Es).
      assert (G1 : nth_error nodes' n = Some n1).
      { rewrite Hnth. destruct (Nat.eqb_spec n i); [lia|]. destruct (Nat.ltb_spec n n); [lia|].
        now rewrite Nat.sub_diag. }
      exists nodes', (Some n), None, [n], [], (Z.max (b_max_x b) (n_x nd + w)), (Z.max (b_max_y b) (n_y nd + h)).
      split; [reflexivity|]. split; [reflexivity|]. split; [reflexivity|].
      split; [rewrite (set_nth_length _ _ _ _ Es), app_length; lia|].
      split; [rewrite Hnth, Nat.eqb_refl; reflexivity|].
      split. { intros j nj Hj Ej. rewrite Hnth. apply Nat.eqb_neq in Hj. rewrite Hj.
        assert (j < n)%nat by (apply nth_error_Some; congruence). destruct (Nat.ltb_spec j n); [assumption|lia]. }
      split. { intros j nj Hj Ej. assert (j < length nodes')%nat by (apply nth_error_Some; congruence).
        rewrite (set_nth_length _ _ _ _ Es), app_length in H. cbn [length] in H. cbn [app In]. lia. }
      split; [constructor; now apply rep_free with (nd := n1)|].
      split; [constructor|].
      split. { cbn [app]. constructor; [intros []|constructor]. }
      split.
      { intros j Hj. cbn [app In] in Hj. assert (j = n) as -> by lia.
        split; [lia|]. exists n1. unfold sub, nbox, solid, apart, n1. cbn. repeat split; try assumption; lia. }
      intros j k nj nk Hj Hk Hjk Ej Ek. cbn [app In] in Hj, Hk. lia.
    - rewrite (ar_ok (n_h nd - h - sp)) by lia. cbn [obind].
      rewrite (ar_ok (n_y nd + h + sp)) by lia. cbn [obind].
      rewrite !ct_ok by lia.
      fold n.
      set (n2 := Node false (n_x nd) (n_y nd + h + sp) w2 (n_h nd - h - sp) None None).
      destruct (set_nth_ok (nodes ++ [n2]) i
        (Node true (n_x nd) (n_y nd) (n_w nd) (n_h nd) None (Some n))) as [nodes' Es].
      { rewrite app_length. lia. }
      rewrite Es. cbn [obind]. specialize (Hnth _ _ _ Es).
      assert (G1 : nth_error nodes' n = Some n2).
      { rewrite Hnth. destruct (Nat.eqb_spec n i); [lia|]. destruct (Nat.ltb_spec n n); [lia|].
        now rewrite Nat.sub_diag. }
      exists nodes', None, (Some n), [], [n], (Z.max (b_max_x b) (n_x nd + w)), (Z.max (b_max_y b) (n_y nd + h)).
      split; [reflexivity|]. split; [reflexivity|]. split; [reflexivity|].
      split; [rewrite (set_nth_length _ _ _ _ Es), app_length; lia|].
      split; [rewrite Hnth, Nat.eqb_refl; reflexivity|].
      split. { intros j nj Hj Ej. rewrite Hnth. apply Nat.eqb_neq in Hj. rewrite Hj.
        assert (j < n)%nat by (apply nth_error_Some; congruence). destruct (Nat.ltb_spec j n); [assumption|lia]. }
      split. { intros j nj Hj Ej. assert (j < length nodes')%nat by (apply nth_error_Some; congruence).
        rewrite (set_nth_length _ _ _ _ Es), app_length in H. cbn [length] in H. cbn [app In]. lia. }
      split; [constructor|].
      split; [constructor; now apply rep_free with (nd := n2)|].
      split. { cbn [app]. constructor; [intros []|constructor]. }
      split.
      { intros j Hj. cbn [app In] in Hj. assert (j = n) as -> by lia.
        split; [lia|]. exists n2. unfold sub, nbox, solid, apart, n2. cbn. repeat split; try assumption; lia. }
      intros j k nj nk Hj Hk Hjk Ej Ek. cbn [app In] in Hj, Hk. lia.
    - cbn [obind].
      destruct (set_nth_ok (nodes ++ []) i
        (Node true (n_x nd) (n_y nd) (n_w nd) (n_h nd) None None)) as [nodes' Es].
      { rewrite app_length. lia. }
      pose proof Es as Es'. rewrite app_nil_r in Es'. rewrite Es'. cbn [obind]. specialize (Hnth _ _ _ Es).
      exists nodes', None, None, [], [], (Z.max (b_max_x b) (n_x nd + w)), (Z.max (b_max_y b) (n_y nd + h)).
      split; [reflexivity|]. split; [reflexivity|]. split; [reflexivity|].
      split; [rewrite (set_nth_length _ _ _ _ Es'); lia|].
      split; [rewrite Hnth, Nat.eqb_refl; reflexivity|].
      split. { intros j nj Hj Ej. rewrite Hnth. apply Nat.eqb_neq in Hj. rewrite Hj.
        assert (j < n)%nat by (apply nth_error_Some; congruence). destruct (Nat.ltb_spec j n); [assumption|lia]. }
      split. { intros j nj Hj Ej. assert (j < length nodes')%nat by (apply nth_error_Some; congruence).
        rewrite (set_nth_length _ _ _ _ Es') in H. lia. }
      split; [constructor|]. split; [constructor|]. split; [constructor|].
      split; [intros j []|]. intros j k nj nk [].
  Qed.

  (* -------------------------------------------------------------------- *)
  (* the invariant; placed are the indices of the rectangles already placed *)

  Record Inv (rects : list rect) (placed : list nat) (bins : list bin) (nodes : list node)
    (Ls : list (list nat)) : Prop := {
    i_rep : Forall2 (fun b L => rep nodes (b_root b) L) bins Ls;
    i_nodup : NoDup (concat Ls);
    i_box : forall i nd, nth_error nodes i = Some nd -> n_occ nd = false ->
      sub (nbox nd) root /\ solid (nbox nd);
    i_ff : forall k L i j ni nj, nth_error Ls k = Some L -> In i L -> In j L -> i <> j ->
      nth_error nodes i = Some ni -> n_occ ni = false -> nth_error nodes j = Some nj -> n_occ nj = false ->
      apart sp (nbox ni) (nbox nj);
    i_pl : forall p, In p placed -> exists rc, nth_error rects p = Some rc /\ (r_bin rc < length bins)%nat /\
      sub (rbox rc) root;
    i_fr : forall L i ni p rc, In p placed -> nth_error rects p = Some rc -> nth_error Ls (r_bin rc) = Some L ->
      In i L -> nth_error nodes i = Some ni -> n_occ ni = false -> apart sp (nbox ni) (rbox rc);
    i_rr : forall p q rp rq, In p placed -> In q placed -> p <> q ->
      nth_error rects p = Some rp -> nth_error rects q = Some rq -> r_bin rp = r_bin rq ->
      apart sp (rbox rp) (rbox rq);
    i_mx : forall k b, nth_error bins k = Some b ->
      rx <= b_max_x b <= rx + rw /\ ry <= b_max_y b <= ry + rh /\
      (b_max_x b = rx \/ exists p rc, In p placed /\ nth_error rects p = Some rc /\ r_bin rc = k /\
         r_x rc + r_w rc = b_max_x b) /\
      (b_max_y b = ry \/ exists p rc, In p placed /\ nth_error rects p = Some rc /\ r_bin rc = k /\
         r_y rc + r_h rc = b_max_y b) /\
      (forall p rc, In p placed -> nth_error rects p = Some rc -> r_bin rc = k ->
         r_x rc + r_w rc <= b_max_x b /\ r_y rc + r_h rc <= b_max_y b) }.

  (* bin k holds a rectangle *)
  Definition used (rects : list rect) (placed : list nat) (k : nat) : Prop :=
    exists p rc, In p placed /\ nth_error rects p = Some rc /\ r_bin rc = k.

  Lemma inv_empty rects : Inv rects [] [] [] [].
  Proof.
    constructor.
    - constructor.
    - constructor.
    - intros [|i]; discriminate.
    - intros [|k]; discriminate.
    - intros p [].
    - intros L i ni p rc [].
    - intros p q rp rq [].
    - intros [|k]; discriminate.
  Qed.

  Lemma Forall2_nth_error {A B} (P : A -> B -> Prop) l m k x : Forall2 P l m -> nth_error l k = Some x ->
    exists y, nth_error m k = Some y /\ P x y.
  Proof.
    intros H. revert k. induction H as [|a b l m Hab _ IH]; intros k Hk; [destruct k; discriminate|].
    destruct k; cbn in *; [injection Hk as <-; eauto|]. auto.
  Qed.

  Lemma Forall2_len {A B} (P : A -> B -> Prop) l m : Forall2 P l m -> length l = length m.
  Proof. induction 1; cbn; congruence. Qed.

  Lemma in_concat_nth {A} (Ls : list (list A)) k L i : nth_error Ls k = Some L -> In i L -> In i (concat Ls).
  Proof. intros H Hi. apply in_concat. exists L. split; [now apply nth_error_In in H|assumption]. Qed.

  (* an element of one of the lists is not in another *)
  Lemma concat_disjoint (Ls : list (list nat)) k k' L L' i : NoDup (concat Ls) -> nth_error Ls k = Some L ->
    nth_error Ls k' = Some L' -> In i L -> In i L' -> k = k'.
  Proof.
    revert k k'. induction Ls as [|M Ls IH]; intros k k' Hn Hk Hk' Hi Hi'; [destruct k; discriminate|].
    cbn in Hn.
    assert (Hd : forall j x X, nth_error Ls j = Some X -> In x X -> ~ In x M).
    { intros j x X HX Hx Hm. apply (in_concat_nth _ _ _ _ HX) in Hx. clear - Hn Hm Hx.
      induction M as [|m M IHM]; [destruct Hm|]. cbn in Hn. apply NoDup_cons_iff in Hn as [Hn1 Hn2].
      destruct Hm as [->|Hm]; [|auto]. apply Hn1. apply in_or_app. auto. }
    assert (Hr : NoDup (concat Ls)).
    { clear - Hn. induction M as [|m M IHM]; [assumption|]. cbn in Hn. apply NoDup_cons_iff in Hn. tauto. }
    destruct k, k'; cbn in Hk, Hk'.
    - reflexivity.
    - injection Hk as <-. exfalso. eapply Hd; eauto.
    - injection Hk' as <-. exfalso. eapply Hd; eauto.
    - f_equal. eapply IH; eauto.
  Qed.

  Lemma rep_count nodes bins Ls : Forall2 (fun b L => rep nodes (b_root b) L) bins Ls -> NoDup (concat Ls) ->
    forall k L, nth_error Ls k = Some L -> (length L <= length nodes)%nat.
  Proof.
    intros HF Hn k L Hk.
    assert (H1 : incl L (seq 0 (length nodes))).
    { intros i Hi. apply in_seq. 
      assert (exists b, nth_error bins k = Some b) as [b Hb].
      { destruct (nth_error bins k) eqn:E; [eauto|]. apply nth_error_None in E.
        rewrite (Forall2_len _ _ _ HF) in E. apply nth_error_None in E. congruence. }
      destruct (Forall2_nth_error _ _ _ _ _ HF Hb) as (L' & EL & HR). rewrite Hk in EL. injection EL as <-.
      pose proof (rep_bound _ _ _ HR i Hi). lia. }
    assert (H2 : NoDup L).
    { clear - Hn Hk. revert k Hk. induction Ls as [|M Ls IH]; intros k Hk; [destruct k; discriminate|].
      cbn in Hn. destruct k; cbn in Hk.
      - injection Hk as <-. clear - Hn. induction M as [|m M IHM]; [constructor|]. cbn in Hn.
        apply NoDup_cons_iff in Hn as [Ha Hb]. constructor; [|auto]. intros Hm. apply Ha. apply in_or_app. auto.
      - apply (IH) with (k := k); [|assumption]. clear - Hn. induction M as [|m M IHM]; [assumption|].
        cbn in Hn. apply NoDup_cons_iff in Hn. tauto. }
    pose proof (NoDup_incl_length H2 H1) as H. now rewrite seq_length in H.
  Qed.

  (* opening a bin *)
  Lemma inv_open rects placed bins nodes Ls : Inv rects placed bins nodes Ls ->
    Inv rects placed (bins ++ [Bin (length nodes) rx ry]) (add_node nodes rx ry rw rh) (Ls ++ [[length nodes]]).
  Proof.
    intros [Irep Ind Ibox Iff Ipl Ifr Irr Imx].
    pose proof (Forall2_len _ _ _ Irep) as HL.
    assert (Hold : forall j n, nth_error nodes j = Some n -> nth_error (add_node nodes rx ry rw rh) j = Some n).
    { intros j n Hj. unfold add_node. rewrite nth_error_app1; [assumption|]. apply nth_error_Some. congruence. }
    assert (Hnew : nth_error (add_node nodes rx ry rw rh) (length nodes) = Some (Node false rx ry rw rh None None)).
    { unfold add_node. now rewrite nth_error_app2, Nat.sub_diag by lia. }
    assert (Hback : forall j n, (j < length nodes)%nat -> nth_error (add_node nodes rx ry rw rh) j = Some n ->
      nth_error nodes j = Some n).
    { intros j n Hj. unfold add_node. now rewrite nth_error_app1. }
    assert (Hin : forall k L i, nth_error Ls k = Some L -> In i L -> (i < length nodes)%nat).
    { intros k L i Hk Hi. clear - Irep Hk Hi. revert k Hk. induction Irep as [|b L' bs Ls Hb _ IH]; intros k Hk.
      - destruct k; discriminate.
      - destruct k; cbn in Hk; [injection Hk as ->; eapply rep_bound; eauto|]. eauto. }
    constructor.
    - apply Forall2_app.
      + clear - Irep Hold. induction Irep as [|b L bs Ls Hb _ IH]; constructor; [|assumption].
        apply (rep_other nodes); auto.
      + constructor; [|constructor]. cbn [b_root]. now apply rep_free with (nd := Node false rx ry rw rh None None).
    - rewrite concat_app. cbn [concat app].
      apply (Permutation_NoDup (l := length nodes :: concat Ls)).
      + apply Permutation_cons_append.
      + constructor; [|assumption]. intros Hi. apply in_concat in Hi as (L & HL1 & HL2).
        apply In_nth_error in HL1 as [k Hk]. pose proof (Hin k L _ Hk HL2). lia.
    - intros i nd Hi Hf. destruct (Nat.lt_ge_cases i (length nodes)) as [Hlt|Hge].
      + apply (Ibox i nd); auto.
      + assert (i = length nodes).
        { assert (i < length (add_node nodes rx ry rw rh))%nat by (apply nth_error_Some; congruence).
          unfold add_node in H. rewrite app_length in H. cbn in H. lia. }
        subst i. rewrite Hnew in Hi. injection Hi as <-. unfold sub, solid, nbox. cbn. lia.
    - intros k L i j ni nj Hk Hi Hj Hij Hni Hfi Hnj Hfj.
      destruct (Nat.lt_ge_cases k (length Ls)) as [Hlt|Hge].
      + rewrite nth_error_app1 in Hk by assumption.
        apply (Iff k L i j); eauto.
      + rewrite nth_error_app2 in Hk by assumption. destruct (k - length Ls)%nat as [|[|?]]; try discriminate.
        injection Hk as <-. cbn in Hi, Hj. lia.
    - intros p Hp. destruct (Ipl p Hp) as (rc & E & Hb & Hs). exists rc. rewrite app_length. cbn [length].
      split; [assumption|]. split; [lia|assumption].
    - intros L i ni p rc Hp Hrc Hk Hi Hni Hf. destruct (Ipl p Hp) as (rc' & E & Hb & _).
      rewrite Hrc in E. injection E as <-. rewrite nth_error_app1 in Hk by lia.
      apply (Ifr L i ni p rc); eauto.
    - assumption.
    - intros k b Hk. destruct (Nat.lt_ge_cases k (length bins)) as [Hlt|Hge].
      + rewrite nth_error_app1 in Hk by assumption. exact (Imx k b Hk).
      + rewrite nth_error_app2 in Hk by assumption. destruct (k - length bins)%nat as [|[|?]]; try discriminate.
        injection Hk as <-. cbn [b_max_x b_max_y]. split; [lia|]. split; [lia|]. split; [auto|]. split; [auto|].
        intros p rc Hp Hrc Hk. destruct (Ipl p Hp) as (rc' & E & Hb & _). rewrite Hrc in E. injection E as <-. lia.
  Qed.

  (* placing rectangle p in a free node of bin k *)
  Lemma inv_place rects placed bins nodes Ls p w h k b L i nd :
    Inv rects placed bins nodes Ls -> ~ In p placed -> (p < length rects)%nat ->
    nth_error bins k = Some b -> nth_error Ls k = Some L -> In i L ->
    nth_error nodes i = Some nd -> n_occ nd = false -> 0 <= w <= n_w nd -> 0 <= h <= n_h nd ->
    exists nodes' b' bins' rects' Ls', occupy t sp nodes b i w h = Some (nodes', b', n_x nd, n_y nd) /\
      set_nth bins k b' = Some bins' /\ set_nth rects p (Rect w h (n_x nd) (n_y nd) k) = Some rects' /\
      Inv rects' (p :: placed) bins' nodes' Ls'.
  Proof.
    intros HI Hp Hpl Hb HL Hi Hnd Hfree Hw Hh.
    pose proof HI as [Irep Ind Ibox Iff Ipl Ifr Irr Imx].
    destruct (Ibox i nd Hnd Hfree) as [Hsub Hsol].
    destruct (occupy_ok nodes b i nd w h Hnd Hfree Hsub Hw Hh)
      as (nodes' & rn & dn & l1 & l2 & mx & my & Eo & Emx & Emy & Hlen & Hni & Hother & Hnewin & R1 & R2 & Hnd12 & Hnew & Hpair).
    set (b' := Bin (b_root b) mx my) in *.
    assert (Hkb : (k < length bins)%nat) by (apply nth_error_Some; congruence).
    destruct (set_nth_ok bins k b' Hkb) as [bins' Eb].
    set (rc' := Rect w h (n_x nd) (n_y nd) k) in *.
    destruct (set_nth_ok rects p rc' Hpl) as [rects' Er].
    set (f := fun j => if Nat.eqb j i then i :: l1 ++ l2 else [j]).
    assert (Hinlt : (i < length nodes)%nat) by (apply nth_error_Some; congruence).
    pose proof (Forall2_len _ _ _ Irep) as HLen.
    assert (HLb : forall k0 L0 j, nth_error Ls k0 = Some L0 -> In j L0 -> (j < length nodes)%nat).
    { intros k0 L0 j Hk0 Hj. clear - Irep Hk0 Hj. revert k0 Hk0.
      induction Irep as [|b0 L' bs Ls Hb0 _ IH]; intros k0 Hk0.
      - destruct k0; discriminate.
      - destruct k0; cbn in Hk0; [injection Hk0 as ->; eapply rep_bound; eauto|]. eauto. }
    assert (Hfin : forall j L0, In j (flat_map f L0) <-> (In j L0 \/ (In i L0 /\ In j (l1 ++ l2)))).
    { intros j L0. rewrite in_flat_map. unfold f. split.
      - intros (m & Hm & Hj). destruct (Nat.eqb_spec m i) as [->|Hne].
        + destruct Hj as [<-|Hj]; auto.
        + destruct Hj as [<-|[]]; auto.
      - intros [Hj|[Hi0 Hj]].
        + exists j. split; [assumption|]. destruct (Nat.eqb_spec j i) as [->|Hne]; left; reflexivity.
        + exists i. split; [assumption|]. rewrite Nat.eqb_refl. right. assumption. }
    (* free nodes afterwards: a free node from before other than i, or a new one *)
    assert (Hfr : forall j n, nth_error nodes' j = Some n -> n_occ n = false ->
      (j <> i /\ nth_error nodes j = Some n) \/ In j (l1 ++ l2)).
    { intros j n Hj Hf. destruct (Nat.eq_dec j i) as [->|Hne].
      - rewrite Hni in Hj. injection Hj as <-. discriminate.
      - destruct (Nat.lt_ge_cases j (length nodes)) as [Hlt|Hge].
        + left. split; [assumption|]. destruct (nth_error nodes j) as [m|] eqn:Em.
          * rewrite (Hother j m Hne Em) in Hj. congruence.
          * apply nth_error_None in Em. lia.
        + right. eapply Hnewin; eauto. }
    assert (Hnewdat : forall j n, In j (l1 ++ l2) -> nth_error nodes' j = Some n ->
      (length nodes <= j)%nat /\ sub (nbox n) (nbox nd) /\ solid (nbox n) /\
      apart sp (nbox n) (Box (n_x nd) (n_y nd) w h)).
    { intros j n Hj Hn. destruct (Hnew j Hj) as (Hge & n' & Hn' & _ & Ha & Hb' & Hc).
      rewrite Hn in Hn'. injection Hn' as <-. auto. }
    assert (Hrsub : sub (rbox rc') (nbox nd)).
    { unfold sub, rbox, nbox, rc'. cbn. lia. }
    assert (Hrsol : solid (rbox rc')) by (unfold solid, rbox, rc'; cbn; lia).
    assert (Hrect : forall q, In q placed -> nth_error rects' q = nth_error rects q).
    { intros q Hq. rewrite (nth_error_set _ _ _ _ q Er). destruct (Nat.eqb_spec q p) as [->|]; [contradiction|reflexivity]. }
    assert (Hrectp : nth_error rects' p = Some rc').
    { rewrite (nth_error_set _ _ _ _ p Er). now rewrite Nat.eqb_refl. }
    assert (Hbins : forall k0, nth_error bins' k0 = if Nat.eqb k0 k then Some b' else nth_error bins k0).
    { intros k0. apply (nth_error_set _ _ _ _ k0 Eb). }
    assert (Hbl : length bins' = length bins) by (exact (set_nth_length _ _ _ _ Eb)).
    exists nodes', b', bins', rects', (map (flat_map f) Ls).
    split; [exact Eo|]. split; [exact Eb|]. split; [exact Er|].
    constructor.
    - (* trees *)
      assert (Hfree' : forall nd0, nth_error nodes i = Some nd0 -> n_occ nd0 = false).
      { intros nd0 H0. congruence. }
      pose proof (rep_update nodes nodes' i rn dn l1 l2 _ _ _ _ Hfree' Hni Hother R1 R2) as HU.
      apply set_nth_inv in Eb as [_ ->].
      assert (HF : Forall2 (fun b0 L0 => rep nodes' (b_root b0) (flat_map f L0)) bins Ls).
      { clear - Irep HU. induction Irep; constructor; auto. }
      clear - HF Hb. revert k Hb. induction HF as [|b0 L0 bs Ls0 Hb0 HF IH]; intros k Hb.
      + destruct k; discriminate.
      + destruct k; cbn in Hb.
        * injection Hb as ->. cbn. constructor; [exact Hb0|].
          clear - HF. induction HF; cbn; constructor; auto.
        * cbn. constructor; [exact Hb0|]. exact (IH k Hb).
    - assert (E : concat (map (flat_map f) Ls) = flat_map f (concat Ls)).
      { clear. induction Ls as [|L0 Ls IH]; [reflexivity|]. cbn. now rewrite flat_map_app, IH. }
      rewrite E.
      assert (Hall : forall j, In j (concat Ls) -> (j < length nodes)%nat).
      { intros j Hj. apply in_concat in Hj as (L0 & HL1 & HL2). apply In_nth_error in HL1 as [k0 Hk0].
        eapply HLb; eauto. }
      clear - Ind Hall Hnew Hnd12 Hinlt. induction (concat Ls) as [|j l IH]; [constructor|].
      apply NoDup_cons_iff in Ind as [Hj Hl].
      assert (IH' := IH Hl (fun m Hm => Hall m (or_intror Hm))). clear IH.
      assert (Hin : forall m, In m (flat_map f l) -> In m l \/ (In i l /\ In m (l1 ++ l2))).
      { intros m. rewrite in_flat_map. unfold f. intros (q & Hq & Hm). destruct (Nat.eqb_spec q i) as [->|].
        - destruct Hm as [<-|Hm]; auto.
        - destruct Hm as [<-|[]]; auto. }
      assert (Hge : forall m, In m (l1 ++ l2) -> (length nodes <= m)%nat) by (intros m Hm; apply (Hnew m Hm)).
      cbn [flat_map]. unfold f at 1. destruct (Nat.eqb_spec j i) as [->|Hne].
      + cbn [app]. constructor.
        * intros H. apply in_app_or in H as [H|H].
          -- specialize (Hge _ H). lia.
          -- apply Hin in H as [H|[H _]]; auto.
        * apply nodup_app; [assumption|exact IH'|]. intros m Hm Hm2. apply Hin in Hm2 as [Hm2|[Hm2 _]]; [|auto].
          specialize (Hge _ Hm). specialize (Hall m (or_intror Hm2)). lia.
      + cbn [app]. constructor; [|exact IH'].
        intros H. apply Hin in H as [H|[_ H]]; [auto|].
        specialize (Hge _ H). specialize (Hall j (or_introl eq_refl)). lia.
    - intros j n Hj Hf. destruct (Hfr j n Hj Hf) as [[Hne Ho]|Hjn].
      + exact (Ibox j n Ho Hf).
      + destruct (Hnewdat j n Hjn Hj) as (_ & H1 & H2 & _). split; [|assumption]. eapply sub_trans; eauto.
    - intros k0 L0 j1 j2 n1 n2 HL0 H1 H2 H12 En1 Hf1 En2 Hf2.
      rewrite nth_error_map in HL0. destruct (nth_error Ls k0) as [L00|] eqn:EL00; [|discriminate].
      injection HL0 as <-. apply Hfin in H1. apply Hfin in H2.
      destruct (Hfr j1 n1 En1 Hf1) as [[Hne1 Ho1]|Hn1]; destruct (Hfr j2 n2 En2 Hf2) as [[Hne2 Ho2]|Hn2].
      + assert (In j1 L00).
        { destruct H1 as [|[_ H1]]; [assumption|]. apply Hnew in H1 as [H1 _].
          assert (j1 < length nodes)%nat by (apply nth_error_Some; congruence). lia. }
        assert (In j2 L00).
        { destruct H2 as [|[_ H2]]; [assumption|]. apply Hnew in H2 as [H2 _].
          assert (j2 < length nodes)%nat by (apply nth_error_Some; congruence). lia. }
        apply (Iff k0 L00 j1 j2); auto.
      + assert (In j1 L00).
        { destruct H1 as [|[_ H1]]; [assumption|]. apply Hnew in H1 as [H1 _].
          assert (j1 < length nodes)%nat by (apply nth_error_Some; congruence). lia. }
        assert (In i L00).
        { destruct H2 as [H2|[H2 _]]; [|assumption]. apply Hnew in Hn2 as [Hn2 _].
          pose proof (HLb _ _ _ EL00 H2). lia. }
        destruct (Hnewdat j2 n2 Hn2 En2) as (_ & Hs & Hso & _).
        apply apart_sym. apply (apart_sub _ (nbox nd)); auto. apply (Iff k0 L00 i j1); auto.
      + assert (In j2 L00).
        { destruct H2 as [|[_ H2]]; [assumption|]. apply Hnew in H2 as [H2 _].
          assert (j2 < length nodes)%nat by (apply nth_error_Some; congruence). lia. }
        assert (In i L00).
        { destruct H1 as [H1|[H1 _]]; [|assumption]. apply Hnew in Hn1 as [Hn1 _].
          pose proof (HLb _ _ _ EL00 H1). lia. }
        destruct (Hnewdat j1 n1 Hn1 En1) as (_ & Hs & Hso & _).
        apply (apart_sub _ (nbox nd)); auto. apply (Iff k0 L00 i j2); auto.
      + apply (Hpair j1 j2); auto.
    - intros q [<-|Hq].
      + exists rc'. split; [assumption|]. split; [cbn; lia|]. eapply sub_trans; eauto.
      + destruct (Ipl q Hq) as (rc & E & H1 & H2). exists rc. rewrite Hrect by assumption. split; [assumption|].
        split; [lia|assumption].
    - intros L0 j n q rc Hq Hrc HL0 Hj Hn Hf.
      rewrite nth_error_map in HL0. destruct (nth_error Ls (r_bin rc)) as [L00|] eqn:EL00; [|discriminate].
      injection HL0 as <-. apply Hfin in Hj.
      destruct (Hfr j n Hn Hf) as [[Hne Ho]|Hjn].
      + assert (HjL : In j L00).
        { destruct Hj as [|[_ H1]]; [assumption|]. apply Hnew in H1 as [H1 _].
          assert (j < length nodes)%nat by (apply nth_error_Some; congruence). lia. }
        destruct Hq as [<-|Hq].
        * rewrite Hrectp in Hrc. injection Hrc as <-. cbn [r_bin rc'] in EL00.
          apply apart_sym. apply (apart_sub _ (nbox nd)); [exact Hrsub|exact Hrsol|].
          rewrite HL in EL00. injection EL00 as <-. apply (Iff k L i j); auto.
        * rewrite Hrect in Hrc by assumption. apply (Ifr L00 j n q rc); auto.
      + assert (HiL : In i L00).
        { destruct Hj as [Hj|[Hj _]]; [|assumption]. apply Hnew in Hjn as [Hjn _].
          pose proof (HLb _ _ _ EL00 Hj). lia. }
        destruct (Hnewdat j n Hjn Hn) as (_ & Hs & Hso & Ha).
        destruct Hq as [<-|Hq].
        * rewrite Hrectp in Hrc. injection Hrc as <-. exact Ha.
        * rewrite Hrect in Hrc by assumption. apply (apart_sub _ (nbox nd)); auto. apply (Ifr L00 i nd q rc); auto.
    - assert (Hone : forall q rq, In q placed -> nth_error rects q = Some rq -> r_bin rq = k ->
        apart sp (rbox rc') (rbox rq)).
      { intros q rq Hq Erq Hk. apply (apart_sub _ (nbox nd)); [exact Hrsub|exact Hrsol|].
        apply (Ifr L i nd q rq); auto. now rewrite Hk. }
      intros q1 q2 r1 r2 H1 H2 H12 E1 E2 Hk. destruct H1 as [<-|H1], H2 as [<-|H2].
      + congruence.
      + rewrite Hrectp in E1. injection E1 as <-. rewrite Hrect in E2 by assumption. apply (Hone q2 r2); auto.
      + rewrite Hrectp in E2. injection E2 as <-. rewrite Hrect in E1 by assumption. apply apart_sym.
        apply (Hone q1 r1); auto.
      + rewrite Hrect in E1, E2 by assumption. apply (Irr q1 q2 r1 r2); auto.
    - intros k0 b0 Hb0. rewrite Hbins in Hb0. unfold sub, nbox in Hsub. cbn [bx by_ bw bh] in Hsub.
      destruct (Nat.eqb_spec k0 k) as [->|Hne].
      + injection Hb0 as <-. cbn [b' b_max_x b_max_y].
        destruct (Imx k b Hb) as (M1 & M2 & M3 & M4 & M5).
        split; [lia|]. split; [lia|]. split; [|split].
        * destruct (Z.max_spec (b_max_x b) (n_x nd + w)) as [[_ Em]|[_ Em]]; rewrite Emx, Em.
          -- right. exists p, rc'. repeat split; auto. left. reflexivity.
          -- destruct M3 as [M3|(q & rc & Hq & Eq & Hk & Hx)]; [auto|]. right. exists q, rc.
             rewrite Hrect by assumption. repeat split; auto. right. assumption.
        * destruct (Z.max_spec (b_max_y b) (n_y nd + h)) as [[_ Em]|[_ Em]]; rewrite Emy, Em.
          -- right. exists p, rc'. repeat split; auto. left. reflexivity.
          -- destruct M4 as [M4|(q & rc & Hq & Eq & Hk & Hx)]; [auto|]. right. exists q, rc.
             rewrite Hrect by assumption. repeat split; auto. right. assumption.
        * intros q rc [<-|Hq] Erc Hk.
          -- rewrite Hrectp in Erc. injection Erc as <-. cbn. lia.
          -- rewrite Hrect in Erc by assumption. destruct (M5 q rc Hq Erc Hk). lia.
      + destruct (Imx k0 b0 Hb0) as (M1 & M2 & M3 & M4 & M5).
        split; [assumption|]. split; [assumption|]. split; [|split].
        * destruct M3 as [M3|(q & rc & Hq & Eq & Hk & Hx)]; [auto|]. right. exists q, rc.
          rewrite Hrect by assumption. repeat split; auto. right. assumption.
        * destruct M4 as [M4|(q & rc & Hq & Eq & Hk & Hx)]; [auto|]. right. exists q, rc.
          rewrite Hrect by assumption. repeat split; auto. right. assumption.
        * intros q rc [<-|Hq] Erc Hk.
          -- rewrite Hrectp in Erc. injection Erc as <-. cbn in Hk. congruence.
          -- rewrite Hrect in Erc by assumption. exact (M5 q rc Hq Erc Hk).
  Qed.

  Lemma used_count rects placed n : (forall k, (k < n)%nat -> used rects placed k) -> (n <= length placed)%nat.
  Proof.
    intros H. set (g := fun p => match nth_error rects p with Some rc => r_bin rc | None => 0%nat end).
    assert (Hi : incl (seq 0 n) (map g placed)).
    { intros k Hk. apply in_seq in Hk. destruct (H k ltac:(lia)) as (p & rc & Hp & E & Hb).
      apply in_map_iff. exists p. split; [|assumption]. unfold g. now rewrite E. }
    pose proof (NoDup_incl_length (seq_NoDup n 0) Hi) as HH. now rewrite seq_length, map_length in HH.
  Qed.

  Lemma insert_ok p rc : 0 <= r_w rc -> 0 <= r_h rc -> forall fuel rects placed bins nodes Ls k,
    Inv rects placed bins nodes Ls -> ~ In p placed -> (p < length rects)%nat ->
    (forall j, (j < length bins)%nat -> used rects placed j) -> (length bins <= max_bins)%nat ->
    (k <= length bins)%nat -> (length bins - k < fuel)%nat ->
    exists r bins' nodes', insert_rect t sp fuel rx ry rw rh max_bins rc bins nodes k = Some (r, bins', nodes') /\
      (length bins' <= max_bins)%nat /\
      match r with
      | Some rc' => r_w rc' = r_w rc /\ r_h rc' = r_h rc /\ exists rects' Ls', set_nth rects p rc' = Some rects' /\
          Inv rects' (p :: placed) bins' nodes' Ls' /\
          (forall j, (j < length bins')%nat -> used rects' (p :: placed) j)
      | None => bins' = bins /\ (length bins = max_bins \/ r_w rc > rw \/ r_h rc > rh)
      end.
  Proof.
    intros Hw Hh. induction fuel as [|fuel IH]; intros rects placed bins nodes Ls k HI Hp Hpl Hus Hmb Hk Hf; [lia|].
    cbn [insert_rect].
    assert (Hold : forall rc' rects' j, set_nth rects p rc' = Some rects' -> used rects placed j -> used rects' (p :: placed) j).
    { intros rc' rects' j Hs (q & rq & Hq & Eq & Hj). exists q, rq. split; [right; assumption|].
      rewrite (nth_error_set _ _ _ _ q Hs). destruct (Nat.eqb_spec q p) as [->|]; [contradiction|]. auto. }
    assert (Hnewu : forall rc' rects', set_nth rects p rc' = Some rects' -> used rects' (p :: placed) (r_bin rc')).
    { intros rc' rects' Hs. exists p, rc'. split; [left; reflexivity|].
      rewrite (nth_error_set _ _ _ _ p Hs), Nat.eqb_refl. auto. }
    destruct (Nat.eqb_spec k (length bins)) as [Ek|Ek].
    - destruct (Nat.eqb_spec k max_bins) as [Em|Em]; cbn [orb andb].
      { exists None, bins, nodes. split; [reflexivity|]. split; [assumption|]. split; [reflexivity|]. left. lia. }
      destruct (Z.gtb_spec (r_w rc) rw); cbn [orb].
      { exists None, bins, nodes. split; [reflexivity|]. split; [assumption|]. split; [reflexivity|]. right. left. lia. }
      destruct (Z.gtb_spec (r_h rc) rh).
      { exists None, bins, nodes. split; [reflexivity|]. split; [assumption|]. split; [reflexivity|]. right. right. lia. }
      rewrite Ek. rewrite nth_error_app2, Nat.sub_diag by lia. cbn [nth_error obind b_root].
      pose proof (inv_open _ _ _ _ _ HI) as HI2.
      assert (Hn : nth_error (add_node nodes rx ry rw rh) (length nodes) = Some (Node false rx ry rw rh None None)).
      { unfold add_node. now rewrite nth_error_app2, Nat.sub_diag by lia. }
      unfold add_node at 1. rewrite app_length, Nat.add_1_r. cbn [length find_node]. rewrite Hn. cbn [obind n_occ negb n_w n_h].
      destruct (Z.leb_spec (r_w rc) rw); [|lia]. destruct (Z.leb_spec (r_h rc) rh); [|lia]. cbn [andb negb obind].
      pose proof (Forall2_len _ _ _ (i_rep _ _ _ _ _ HI)) as HLen.
      destruct (inv_place _ _ _ _ _ p (r_w rc) (r_h rc) (length bins) (Bin (length nodes) rx ry) [length nodes]
        (length nodes) (Node false rx ry rw rh None None) HI2 Hp Hpl) as (nodes' & b' & bins' & rects' & Ls' & Eo & Eb & Er & HI3);
        try exact Hn; try reflexivity; cbn [n_w n_h]; try lia.
      { now rewrite nth_error_app2, Nat.sub_diag by lia. }
      { rewrite HLen. now rewrite nth_error_app2, Nat.sub_diag by lia. }
      { left. reflexivity. }
      rewrite Eo. cbn [obind]. rewrite Eb. cbn [obind].
      eexists (Some _), bins', nodes'. split; [reflexivity|].
      pose proof (set_nth_length _ _ _ _ Eb) as Hl. rewrite app_length in Hl. cbn in Hl.
      split; [lia|]. split; [reflexivity|]. split; [reflexivity|].
      exists rects', Ls'. split; [exact Er|]. split; [exact HI3|].
      intros j Hj. destruct (Nat.eq_dec j (length bins)) as [->|Hne].
      + exact (Hnewu _ _ Er).
      + apply (Hold _ _ _ Er). apply Hus. lia.
    - cbn [andb].
      destruct (nth_error bins k) as [b|] eqn:Ebk; [|apply nth_error_None in Ebk; lia]. cbn [obind].
      destruct (Forall2_nth_error _ _ _ _ _ (i_rep _ _ _ _ _ HI) Ebk) as (L & EL & HR).
      pose proof (rep_count _ _ _ (i_rep _ _ _ _ _ HI) (i_nodup _ _ _ _ _ HI) _ _ EL) as HC.
      destruct (find_node_ok (r_w rc) (r_h rc) nodes (length nodes) (b_root b) [] L [] HR ltac:(constructor)
        ltac:(cbn; lia)) as (r & Er & Hr).
      rewrite Er. cbn [obind]. destruct r as [i|].
      + destruct (Hr i eq_refl) as (Hi & nd & Hnd & Hfree & Hw2 & Hh2). cbn [concat] in Hi. rewrite app_nil_r in Hi.
        destruct (inv_place _ _ _ _ _ p (r_w rc) (r_h rc) k b L i nd HI Hp Hpl Ebk EL Hi Hnd Hfree
          ltac:(lia) ltac:(lia)) as (nodes' & b' & bins' & rects' & Ls' & Eo & Eb & Ers & HI3).
        rewrite Eo. cbn [obind]. rewrite Eb. cbn [obind].
        eexists (Some _), bins', nodes'. split; [reflexivity|].
        pose proof (set_nth_length _ _ _ _ Eb) as Hl.
        split; [lia|]. split; [reflexivity|]. split; [reflexivity|].
        exists rects', Ls'. split; [exact Ers|]. split; [exact HI3|].
        intros j Hj. apply (Hold _ _ _ Ers). apply Hus. lia.
      + apply (IH rects placed bins nodes Ls (S k)); auto; lia.
  Qed.

  (* sizes are not changed *)
  Definition dims (rc : rect) : Z * Z := (r_w rc, r_h rc).

  Lemma set_nth_map {A B} (f : A -> B) l l' n x : set_nth l n x = Some l' -> nth_error (map f l) n = Some (f x) ->
    map f l' = map f l.
  Proof.
    revert l' n. induction l as [|a l IH]; intros l' n Hs Hn; [discriminate|].
    destruct n; cbn in *.
    - injection Hs as <-. cbn. congruence.
    - destruct (set_nth l n x) as [l2|] eqn:E; [|discriminate]. injection Hs as <-. cbn. f_equal. eauto.
  Qed.

  Lemma place_ok order : forall rects placed bins nodes Ls,
    Forall (fun rc => 0 <= r_w rc /\ 0 <= r_h rc) rects ->
    Inv rects placed bins nodes Ls -> (forall j, (j < length bins)%nat -> used rects placed j) ->
    (length bins <= max_bins)%nat -> NoDup (order ++ placed) -> (forall i, In i order -> (i < length rects)%nat) ->
    exists ok rects' bins' nodes',
      place_loop t sp order rx ry rw rh max_bins (Packer rects bins nodes) = Some (ok, Packer rects' bins' nodes') /\
      map dims rects' = map dims rects /\ (length bins' <= max_bins)%nat /\
      match ok with
      | true => exists placed' Ls', Permutation placed' (order ++ placed) /\ Inv rects' placed' bins' nodes' Ls' /\
          (forall j, (j < length bins')%nat -> used rects' placed' j)
      | false => exists i rc, In i order /\ nth_error rects i = Some rc /\
          (r_w rc > rw \/ r_h rc > rh \/ (max_bins < length order + length placed)%nat)
      end.
  Proof.
    induction order as [|p order IH]; intros rects placed bins nodes Ls HF HI Hus Hmb Hnd Hlt.
    - exists true, rects, bins, nodes. split; [reflexivity|]. split; [reflexivity|]. split; [assumption|].
      exists placed, Ls. auto.
    - cbn [place_loop p_rects p_bins p_nodes].
      assert (Hp : (p < length rects)%nat) by (apply Hlt; left; reflexivity).
      destruct (nth_error rects p) as [rc|] eqn:Erc; [|apply nth_error_None in Erc; lia]. cbn [obind].
      cbn [app] in Hnd. apply NoDup_cons_iff in Hnd as [Hnp Hnd].
      assert (Hrc : 0 <= r_w rc /\ 0 <= r_h rc).
      { rewrite Forall_forall in HF. apply HF. eapply nth_error_In; eauto. }
      destruct (insert_ok p rc (proj1 Hrc) (proj2 Hrc) (S (length bins)) rects placed bins nodes Ls 0 HI)
        as (r & bins' & nodes' & E & Hmb' & Hr); auto; try lia.
      { intros H. apply Hnp. apply in_or_app. auto. }
      rewrite E. cbn [obind]. destruct r as [rc'|].
      + destruct Hr as (Ew & Eh & rects' & Ls' & Es & HI' & Hus').
        rewrite Es. cbn [obind].
        assert (Hdim : map dims rects' = map dims rects).
        { apply (set_nth_map dims _ _ _ _ Es). rewrite nth_error_map, Erc. cbn. unfold dims. now rewrite Ew, Eh. }
        assert (Hlen : length rects' = length rects) by (exact (set_nth_length _ _ _ _ Es)).
        destruct (IH rects' (p :: placed) bins' nodes' Ls') as (ok & rects2 & bins2 & nodes2 & E2 & Hd2 & Hm2 & H2); auto.
        { apply Forall_forall. intros rq Hq. apply In_nth_error in Hq as [q Hq].
          pose proof (nth_error_set _ _ _ _ q Es) as Hsq. rewrite Hq in Hsq.
          destruct (Nat.eqb q p); [injection Hsq as ->; lia|]. rewrite Forall_forall in HF. apply HF.
          eapply nth_error_In; eauto. }
        { apply (Permutation_NoDup (l := p :: order ++ placed)); [apply Permutation_middle|].
          now constructor. }
        { intros i Hi. rewrite Hlen. apply Hlt. right. assumption. }
        exists ok, rects2, bins2, nodes2. split; [exact E2|]. split; [congruence|]. split; [assumption|].
        destruct ok.
        * destruct H2 as (placed' & Ls2 & HP & HH). exists placed', Ls2. split; [|exact HH].
          rewrite HP. cbn [app]. symmetry. apply Permutation_middle.
        * destruct H2 as (i & rq & Hi & Eq & Hrq).
          assert (Eq' : exists rq', nth_error rects i = Some rq' /\ dims rq' = dims rq).
          { assert (Hm : nth_error (map dims rects') i = Some (dims rq)) by (now rewrite nth_error_map, Eq).
            rewrite Hdim, nth_error_map in Hm. destruct (nth_error rects i) as [rq'|]; [|discriminate].
            exists rq'. split; [reflexivity|]. cbn [option_map] in Hm. congruence. }
          destruct Eq' as (rq' & Eq' & Hdd). unfold dims in Hdd. injection Hdd as Hd1 Hd3.
          exists i, rq'. split; [right; assumption|]. split; [assumption|]. rewrite Hd1, Hd3.
          cbn [length] in *. destruct Hrq as [|[|]]; [auto|auto|]. right. right. lia.
      + destruct Hr as (-> & Hr). exists false, rects, bins, nodes'. split; [reflexivity|].
        split; [reflexivity|]. split; [assumption|]. exists p, rc. split; [left; reflexivity|].
        split; [assumption|]. destruct Hr as [Hr|[Hr|Hr]]; auto.
        right. right. pose proof (used_count rects placed (length bins) Hus). cbn [length]. lia.
  Qed.
End S.

(* the sort *)
Lemma insert_sorted_ok rects i : (i < length rects)%nat -> forall l, (forall j, In j l -> (j < length rects)%nat) ->
  exists l', insert_sorted rects i l = Some l' /\ Permutation l' (i :: l).
Proof.
  intros Hi. induction l as [|j l IH]; intros Hl.
  - exists [i]. cbn. auto.
  - cbn [insert_sorted]. unfold before.
    assert (Hj : (j < length rects)%nat) by (apply Hl; left; reflexivity).
    destruct (nth_error rects j) as [a|] eqn:Ea; [|apply nth_error_None in Ea; lia]. cbn [obind].
    destruct (nth_error rects i) as [b|] eqn:Eb; [|apply nth_error_None in Eb; lia]. cbn [obind].
    destruct ((r_h a >? r_h b) || _).
    + destruct IH as (l' & E & HP); [intros k Hk; apply Hl; right; assumption|]. rewrite E. cbn [obind].
      exists (j :: l'). split; [reflexivity|]. rewrite HP. apply perm_swap.
    + exists (i :: j :: l). auto.
Qed.

Lemma stable_sort_ok rects : forall l, (forall j, In j l -> (j < length rects)%nat) ->
  exists l', stable_sort rects l = Some l' /\ Permutation l' l.
Proof.
  induction l as [|i l IH]; intros Hl.
  - exists []. auto.
  - cbn [stable_sort]. destruct IH as (l' & E & HP); [intros k Hk; apply Hl; right; assumption|]. rewrite E. cbn [obind].
    destruct (insert_sorted_ok rects i ltac:(apply Hl; left; reflexivity) l') as (l2 & E2 & HP2).
    { intros j Hj. apply Hl. right. now rewrite <- HP. }
    exists l2. split; [assumption|]. rewrite HP2. now constructor.
Qed.
