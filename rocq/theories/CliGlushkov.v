(* Regular expressions over positions, and the sets of first, last and following positions
   that characterise their words (Glushkov). *)
From Coq Require Import List Arith Bool Lia.
Import ListNotations.

Inductive re :=
| Empty
| Eps
| Sym (p : nat)
| Cat (a b : re)
| Union (a b : re)
| Opt (a : re)
| Plus (a : re).

Inductive L : re -> list nat -> Prop :=
| L_eps : L Eps []
| L_sym : forall p, L (Sym p) [p]
| L_cat : forall a b u v, L a u -> L b v -> L (Cat a b) (u ++ v)
| L_left : forall a b u, L a u -> L (Union a b) u
| L_right : forall a b u, L b u -> L (Union a b) u
| L_none : forall a, L (Opt a) []
| L_some : forall a u, L a u -> L (Opt a) u
| L_one : forall a u, L a u -> L (Plus a) u
| L_more : forall a u v, L a u -> L (Plus a) v -> L (Plus a) (u ++ v).

Fixpoint gnull (r : re) : bool :=
  match r with
  | Empty => false
  | Eps => true
  | Sym _ => false
  | Cat a b => gnull a && gnull b
  | Union a b => gnull a || gnull b
  | Opt _ => true
  | Plus a => gnull a
  end.

Fixpoint gfirst (r : re) : list nat :=
  match r with
  | Empty | Eps => []
  | Sym p => [p]
  | Cat a b => if gnull a then gfirst a ++ gfirst b else gfirst a
  | Union a b => gfirst a ++ gfirst b
  | Opt a | Plus a => gfirst a
  end.

Fixpoint glast (r : re) : list nat :=
  match r with
  | Empty | Eps => []
  | Sym p => [p]
  | Cat a b => if gnull b then glast a ++ glast b else glast b
  | Union a b => glast a ++ glast b
  | Opt a | Plus a => glast a
  end.

Fixpoint gfol (r : re) : list (nat * nat) :=
  match r with
  | Empty | Eps | Sym _ => []
  | Cat a b => gfol a ++ gfol b ++ list_prod (glast a) (gfirst b)
  | Union a b => gfol a ++ gfol b
  | Opt a => gfol a
  | Plus a => gfol a ++ list_prod (glast a) (gfirst a)
  end.

(* the positions are those from lo to hi, in order *)
Fixpoint wf (lo : nat) (r : re) (hi : nat) : Prop :=
  match r with
  | Empty | Eps => lo = hi
  | Sym p => p = lo /\ hi = S lo
  | Cat a b | Union a b => exists mid, wf lo a mid /\ wf mid b hi
  | Opt a | Plus a => wf lo a hi
  end.

Lemma wf_le r : forall lo hi, wf lo r hi -> lo <= hi.
Proof.
  induction r; intros lo hi; cbn [wf]; try lia.
  - intros (m & H1 & H2). specialize (IHr1 _ _ H1). specialize (IHr2 _ _ H2). lia.
  - intros (m & H1 & H2). specialize (IHr1 _ _ H1). specialize (IHr2 _ _ H2). lia.
  - apply IHr.
  - apply IHr.
Qed.

Lemma gfirst_range r : forall lo hi p, wf lo r hi -> In p (gfirst r) -> lo <= p < hi.
Proof.
  induction r; intros lo hi q; cbn [wf gfirst].
  - intros _ [].
  - intros _ [].
  - intros [-> ->] [<-|[]]. lia.
  - intros (m & H1 & H2) Hi. pose proof (wf_le _ _ _ H1). pose proof (wf_le _ _ _ H2).
    destruct (gnull r1); [apply in_app_iff in Hi as [Hi|Hi]|];
      [specialize (IHr1 _ _ _ H1 Hi)|specialize (IHr2 _ _ _ H2 Hi)|specialize (IHr1 _ _ _ H1 Hi)]; lia.
  - intros (m & H1 & H2) Hi. pose proof (wf_le _ _ _ H1). pose proof (wf_le _ _ _ H2).
    apply in_app_iff in Hi as [Hi|Hi]; [specialize (IHr1 _ _ _ H1 Hi)|specialize (IHr2 _ _ _ H2 Hi)]; lia.
  - apply IHr.
  - apply IHr.
Qed.

Lemma glast_range r : forall lo hi p, wf lo r hi -> In p (glast r) -> lo <= p < hi.
Proof.
  induction r; intros lo hi q; cbn [wf glast].
  - intros _ [].
  - intros _ [].
  - intros [-> ->] [<-|[]]. lia.
  - intros (m & H1 & H2) Hi. pose proof (wf_le _ _ _ H1). pose proof (wf_le _ _ _ H2).
    destruct (gnull r2); [apply in_app_iff in Hi as [Hi|Hi]|];
      [specialize (IHr1 _ _ _ H1 Hi)|specialize (IHr2 _ _ _ H2 Hi)|specialize (IHr2 _ _ _ H2 Hi)]; lia.
  - intros (m & H1 & H2) Hi. pose proof (wf_le _ _ _ H1). pose proof (wf_le _ _ _ H2).
    apply in_app_iff in Hi as [Hi|Hi]; [specialize (IHr1 _ _ _ H1 Hi)|specialize (IHr2 _ _ _ H2 Hi)]; lia.
  - apply IHr.
  - apply IHr.
Qed.

Lemma gfol_range r : forall lo hi p q, wf lo r hi -> In (p, q) (gfol r) -> lo <= p < hi /\ lo <= q < hi.
Proof.
  induction r; intros lo hi x y; cbn [wf gfol].
  - intros _ [].
  - intros _ [].
  - intros _ [].
  - intros (m & H1 & H2) Hi. pose proof (wf_le _ _ _ H1). pose proof (wf_le _ _ _ H2).
    rewrite !in_app_iff in Hi. destruct Hi as [Hi|[Hi|Hi]].
    + specialize (IHr1 _ _ _ _ H1 Hi). lia.
    + specialize (IHr2 _ _ _ _ H2 Hi). lia.
    + apply in_prod_iff in Hi as [A B]. apply (glast_range _ _ _ _ H1) in A. apply (gfirst_range _ _ _ _ H2) in B. lia.
  - intros (m & H1 & H2) Hi. pose proof (wf_le _ _ _ H1). pose proof (wf_le _ _ _ H2).
    rewrite !in_app_iff in Hi. destruct Hi as [Hi|Hi].
    + specialize (IHr1 _ _ _ _ H1 Hi). lia.
    + specialize (IHr2 _ _ _ _ H2 Hi). lia.
  - apply IHr.
  - intros H Hi. rewrite in_app_iff in Hi. destruct Hi as [Hi|Hi]; [now apply IHr|].
    apply in_prod_iff in Hi as [A B]. apply (glast_range _ _ _ _ H) in A. apply (gfirst_range _ _ _ _ H) in B. lia.
Qed.

(* ---- words by first, following and last positions ---- *)

Fixpoint chain (F : list (nat * nat)) (a : nat) (w : list nat) (Z : list nat) : Prop :=
  match w with
  | [] => In a Z
  | b :: w => In (a, b) F /\ chain F b w Z
  end.

Definition word (r : re) (w : list nat) : Prop :=
  match w with
  | [] => gnull r = true
  | a :: w => In a (gfirst r) /\ chain (gfol r) a w (glast r)
  end.

Lemma chain_mono F G Z Y w : (forall x, In x F -> In x G) -> (forall x, In x Z -> In x Y) ->
  forall a, chain F a w Z -> chain G a w Y.
Proof. intros H1 H2. induction w as [|b w IH]; intros a; cbn [chain]; [auto|]. intros [A B]. auto. Qed.

Lemma chain_app F G Z Y w b v : (forall x, In x F -> In x G) -> (forall x, In x Z -> In (x, b) G) -> chain G b v Y ->
  forall a, chain F a w Z -> chain G a (w ++ b :: v) Y.
Proof.
  intros H1 H2 H3. induction w as [|c w IH]; intros a; cbn [chain app]; [auto|]. intros [A B]. auto.
Qed.

Lemma L_word r w : L r w -> word r w.
Proof.
  induction 1 as [|p|a b u v Ha IHa Hb IHb|a b u H IH|a b u H IH|a|a u H IH|a u H IH|a u v Ha IHa Hb IHb]; cbn [word].
  - reflexivity.
  - cbn. auto.
  - destruct u as [|x u]; cbn [app word] in *.
    + destruct v as [|y v]; cbn [word] in *; cbn [gnull gfirst glast gfol].
      * now rewrite IHa, IHb.
      * rewrite IHa. destruct IHb as [B1 B2]. split; [apply in_app_iff; auto|].
        eapply chain_mono; [| |exact B2]; [intros z; rewrite !in_app_iff; auto|].
        intros z Hz. destruct (gnull b); [apply in_app_iff; auto|exact Hz].
    + destruct IHa as [A1 A2]. cbn [gnull gfirst glast gfol]. split.
      { destruct (gnull a); [apply in_app_iff; auto|exact A1]. }
      destruct v as [|y v]; cbn [word] in *.
      * rewrite app_nil_r, IHb. eapply chain_mono; [| |exact A2]; intros z; rewrite !in_app_iff; auto.
      * destruct IHb as [B1 B2]. eapply chain_app; [| | |exact A2].
        -- intros z. rewrite !in_app_iff. auto.
        -- intros z Hz. rewrite !in_app_iff. right. right. now apply in_prod_iff.
        -- eapply chain_mono; [| |exact B2]; [intros z; rewrite !in_app_iff; auto|].
           intros z Hz. destruct (gnull b); [apply in_app_iff; auto|exact Hz].
  - destruct u as [|x u]; cbn [word gnull gfirst gfol glast] in *; [now rewrite IH|]. destruct IH as [A B].
    split; [apply in_app_iff; auto|]. eapply chain_mono; [| |exact B]; intros z; rewrite in_app_iff; auto.
  - destruct u as [|x u]; cbn [word gnull gfirst gfol glast] in *; [rewrite IH; apply orb_true_r|]. destruct IH as [A B].
    split; [apply in_app_iff; auto|]. eapply chain_mono; [| |exact B]; intros z; rewrite in_app_iff; auto.
  - reflexivity.
  - destruct u as [|x u]; cbn [word gnull gfirst gfol glast] in *; [reflexivity|exact IH].
  - destruct u as [|x u]; cbn [word gnull gfirst gfol glast] in *; [exact IH|]. destruct IH as [A B].
    split; [exact A|]. eapply chain_mono; [| |exact B]; intros z; rewrite ?in_app_iff; auto.
  - destruct u as [|x u]; cbn [app]; [exact IHb|]. cbn [word gnull gfirst gfol glast] in *. destruct IHa as [A B].
    split; [exact A|]. destruct v as [|y v].
    + rewrite app_nil_r. eapply chain_mono; [| |exact B]; intros z; rewrite ?in_app_iff; auto.
    + cbn [word gnull gfirst gfol glast] in IHb. destruct IHb as [B1 B2]. eapply chain_app; [| |exact B2|exact B].
      * intros z. rewrite in_app_iff. auto.
      * intros z Hz. rewrite in_app_iff. right. now apply in_prod_iff.
Qed.

(* chains of a concatenation or a union that start on the right stay there *)
Lemma chain_right F1 F2 Z1 Z2 lo mid hi :
  (forall p q, In (p, q) F1 -> lo <= p < mid) -> (forall p q, In (p, q) F2 -> mid <= p < hi /\ mid <= q < hi) ->
  (forall p, In p Z1 -> lo <= p < mid) ->
  forall w a, mid <= a -> chain (F1 ++ F2) a w (Z1 ++ Z2) -> chain F2 a w Z2.
Proof.
  intros H1 H2 H3. induction w as [|b w IH]; intros a Ha; cbn [chain].
  - intros Hi. apply in_app_iff in Hi as [Hi|Hi]; [specialize (H3 _ Hi); lia|exact Hi].
  - intros [A B]. apply in_app_iff in A as [A|A]; [specialize (H1 _ _ A); lia|]. split; [exact A|].
    apply IH; [apply H2 in A; lia|exact B].
Qed.

Lemma chain_left F1 F2 Z1 Z2 lo mid hi :
  (forall p q, In (p, q) F1 -> lo <= p < mid /\ lo <= q < mid) -> (forall p q, In (p, q) F2 -> mid <= p < hi) ->
  (forall p, In p Z2 -> mid <= p < hi) ->
  forall w a, a < mid -> chain (F1 ++ F2) a w (Z1 ++ Z2) -> chain F1 a w Z1.
Proof.
  intros H1 H2 H3. induction w as [|b w IH]; intros a Ha; cbn [chain].
  - intros Hi. apply in_app_iff in Hi as [Hi|Hi]; [exact Hi|specialize (H3 _ Hi); lia].
  - intros [A B]. apply in_app_iff in A as [A|A]; [|specialize (H2 _ _ A); lia]. split; [exact A|].
    apply IH; [apply H1 in A; lia|exact B].
Qed.

Lemma word_L r : forall lo hi w, wf lo r hi -> word r w -> L r w.
Proof.
  induction r as [| |p|a IHa b IHb|a IHa b IHb|a IH|a IH]; intros lo hi w Hwf Hw; cbn [wf] in Hwf.
  - destruct w; cbn [word gnull gfirst] in Hw; [discriminate|now destruct Hw].
  - destruct w; cbn [word gnull gfirst] in Hw; [constructor|now destruct Hw].
  - destruct w as [|x w]; cbn [word gnull gfirst gfol glast] in Hw; [discriminate|]. destruct Hw as [[<-|[]] Hc].
    destruct w; cbn [chain In] in Hc; [constructor|tauto].
  - destruct Hwf as (mid & Ha & Hb). specialize (IHa lo mid). specialize (IHb mid hi).
    (* on the right *)
    assert (R : forall w x, mid <= x -> chain (gfol (Cat a b)) x w (glast (Cat a b)) -> chain (gfol b) x w (glast b)).
    { intros w' x Hx Hc. apply (chain_right (gfol a ++ list_prod (glast a) (gfirst b)) (gfol b) (glast a) (glast b) lo mid hi).
      - intros p q Hi. apply in_app_iff in Hi as [Hi|Hi]; [now apply (gfol_range a lo mid p q)|].
        apply in_prod_iff in Hi as [Hi _]. now apply (glast_range a lo mid).
      - intros p q. now apply gfol_range.
      - intros p. now apply glast_range.
      - exact Hx.
      - eapply chain_mono; [| |exact Hc]; cbn [gfol glast].
        + intros z. rewrite !in_app_iff. tauto.
        + intros z. destruct (gnull b); rewrite ?in_app_iff; auto. }
    (* on the left *)
    assert (LL : forall w x, x < mid -> chain (gfol (Cat a b)) x w (glast (Cat a b)) ->
      exists u v, w = u ++ v /\ chain (gfol a) x u (glast a) /\ word b v).
    { induction w0 as [|y w' IHw]; intros x Hx Hc; cbn [chain] in Hc.
      - exists [], []. split; [reflexivity|]. cbn [chain word]. cbn [glast] in Hc. destruct (gnull b) eqn:E.
        + split; [|reflexivity]. apply in_app_iff in Hc as [Hc|Hc]; [exact Hc|].
          apply (glast_range b mid hi) in Hc; [lia|exact Hb].
        + apply (glast_range b mid hi) in Hc; [lia|exact Hb].
      - destruct Hc as [A B]. cbn [gfol] in A. rewrite !in_app_iff in A. destruct A as [A|[A|A]].
        + assert (Hy : y < mid) by (apply (gfol_range a lo mid) in A; [lia|exact Ha]).
          destruct (IHw y Hy B) as (u & v & -> & P & Q). exists (y :: u), v. split; [reflexivity|]. split; [now split|exact Q].
        + apply (gfol_range b mid hi) in A; [lia|exact Hb].
        + apply in_prod_iff in A as [A1 A2]. exists [], (y :: w'). split; [reflexivity|]. split; [exact A1|].
          split; [exact A2|]. apply R; [apply (gfirst_range b mid hi) in A2; [lia|exact Hb]|exact B]. }
    destruct w as [|x w]; cbn [word] in Hw.
    + cbn [gnull] in Hw. apply andb_true_iff in Hw as [W1 W2]. apply (L_cat a b [] []); [now apply IHa|now apply IHb].
    + destruct Hw as [Hf Hc].
      assert (Hx : In x (gfirst a) \/ gnull a = true /\ In x (gfirst b)).
      { cbn [gfirst] in Hf. destruct (gnull a); [apply in_app_iff in Hf|]; tauto. }
      destruct Hx as [Hx|[Hn Hx]].
      * destruct (LL w x) as (u & v & -> & P & Q); [apply (gfirst_range a lo mid) in Hx; [lia|exact Ha]|exact Hc|].
        apply (L_cat a b (x :: u) v); [apply IHa; [exact Ha|now split]|now apply IHb].
      * apply (L_cat a b [] (x :: w)); [now apply IHa|]. apply IHb; [exact Hb|]. split; [exact Hx|].
        apply R; [apply (gfirst_range b mid hi) in Hx; [lia|exact Hb]|exact Hc].
  - destruct Hwf as (mid & Ha & Hb). destruct w as [|x w]; cbn [word] in Hw.
    + cbn [gnull] in Hw. apply orb_true_iff in Hw as [W|W]; [apply L_left; now apply (IHa lo mid)|apply L_right; now apply (IHb mid hi)].
    + destruct Hw as [Hf Hc]. cbn [gfirst gfol glast] in *. apply in_app_iff in Hf as [Hf|Hf].
      * apply L_left. apply (IHa lo mid); [exact Ha|]. split; [exact Hf|].
        eapply (chain_left (gfol a) (gfol b) (glast a) (glast b) lo mid hi); [| | | |exact Hc].
        -- intros p q. now apply gfol_range.
        -- intros p q Hi. now apply (gfol_range b mid hi p q).
        -- intros p. now apply glast_range.
        -- apply (gfirst_range a lo mid) in Hf; [lia|exact Ha].
      * apply L_right. apply (IHb mid hi); [exact Hb|]. split; [exact Hf|].
        eapply (chain_right (gfol a) (gfol b) (glast a) (glast b) lo mid hi); [| | | |exact Hc].
        -- intros p q Hi. now apply (gfol_range a lo mid p q).
        -- intros p q. now apply gfol_range.
        -- intros p. now apply glast_range.
        -- apply (gfirst_range b mid hi) in Hf; [lia|exact Hb].
  - destruct w as [|x w]; [apply L_none|]. apply L_some. apply (IH lo hi); [exact Hwf|exact Hw].
  - (* repetition *)
    assert (Sp : forall w x, chain (gfol (Plus a)) x w (glast a) ->
      exists u v, w = u ++ v /\ chain (gfol a) x u (glast a) /\
        (v = [] \/ exists y v', v = y :: v' /\ In y (gfirst a) /\ chain (gfol (Plus a)) y v' (glast a))).
    { induction w0 as [|y w' IHw]; intros x Hc; cbn [chain] in Hc.
      - exists [], []. auto.
      - destruct Hc as [A B]. cbn [gfol] in A. apply in_app_iff in A as [A|A].
        + destruct (IHw y B) as (u & v & -> & P & Q). exists (y :: u), v. split; [reflexivity|]. split; [now split|exact Q].
        + apply in_prod_iff in A as [A1 A2]. exists [], (y :: w'). split; [reflexivity|]. split; [exact A1|].
          right. exists y, w'. auto. }
    destruct w as [|x w]; [apply L_one; now apply (IH lo hi)|]. destruct Hw as [Hf Hc]. cbn [gfirst glast] in *.
    assert (G : forall n x w, length w <= n -> In x (gfirst a) -> chain (gfol (Plus a)) x w (glast a) -> L (Plus a) (x :: w)).
    { induction n as [|n IHn]; intros y v Hn Hy Hv; destruct (Sp v y Hv) as (u & v' & -> & P & [->|(z & v2 & -> & Q1 & Q2)]).
      - apply L_one. rewrite app_nil_r. apply (IH lo hi); [exact Hwf|now split].
      - rewrite app_length in Hn. cbn [length] in Hn. lia.
      - apply L_one. rewrite app_nil_r. apply (IH lo hi); [exact Hwf|now split].
      - apply (L_more a (y :: u) (z :: v2)).
        + apply (IH lo hi); [exact Hwf|now split].
        + apply IHn; [|exact Q1|exact Q2]. rewrite app_length in Hn. cbn [length] in Hn. lia. }
    now apply (G (length w)).
Qed.

Lemma L_iff r lo hi w : wf lo r hi -> (L r w <-> word r w).
Proof. intros H. split; [apply L_word|now apply (word_L r lo hi)]. Qed.

Lemma L_nil r lo hi : wf lo r hi -> (L r [] <-> gnull r = true).
Proof. intros H. now rewrite (L_iff r lo hi). Qed.

(* ---- every position occurs in a word ---- *)

Fixpoint productive (r : re) : Prop :=
  match r with
  | Empty => False
  | Eps | Sym _ => True
  | Cat a b => productive a /\ productive b
  | Union a b => (a = Empty \/ productive a) /\ productive b
  | Opt a | Plus a => productive a
  end.

Fixpoint poss (r : re) : list nat :=
  match r with
  | Empty | Eps => []
  | Sym p => [p]
  | Cat a b | Union a b => poss a ++ poss b
  | Opt a | Plus a => poss a
  end.

Lemma poss_range r : forall lo hi p, wf lo r hi -> (In p (poss r) <-> lo <= p < hi).
Proof.
  induction r; intros lo hi q; cbn [wf poss].
  - intros ->. cbn [In]. lia.
  - intros ->. cbn [In]. lia.
  - intros [-> ->]. cbn [In]. lia.
  - intros (m & H1 & H2). rewrite in_app_iff, (IHr1 _ _ _ H1), (IHr2 _ _ _ H2).
    apply wf_le in H1, H2. lia.
  - intros (m & H1 & H2). rewrite in_app_iff, (IHr1 _ _ _ H1), (IHr2 _ _ _ H2).
    apply wf_le in H1, H2. lia.
  - apply IHr.
  - apply IHr.
Qed.

Lemma L_some_word r : productive r -> exists w, L r w.
Proof.
  induction r as [| |p|a IHa b IHb|a IHa b IHb|a IH|a IH]; cbn [productive]; intros H.
  - contradiction.
  - exists []. constructor.
  - exists [p]. constructor.
  - destruct H as [H1 H2]. destruct (IHa H1) as [u Hu], (IHb H2) as [v Hv]. exists (u ++ v). now constructor.
  - destruct H as [_ H2]. destruct (IHb H2) as [v Hv]. exists v. now apply L_right.
  - exists []. constructor.
  - destruct (IH H) as [u Hu]. exists u. now apply L_one.
Qed.

Lemma L_occurs r p : productive r -> In p (poss r) -> exists u v, L r (u ++ p :: v).
Proof.
  induction r as [| |q|a IHa b IHb|a IHa b IHb|a IH|a IH]; cbn [productive poss]; intros H Hi.
  - contradiction.
  - contradiction.
  - destruct Hi as [<-|[]]. exists [], []. constructor.
  - destruct H as [H1 H2]. apply in_app_iff in Hi as [Hi|Hi].
    + destruct (IHa H1 Hi) as (u & v & E), (L_some_word b H2) as [x Hx]. exists u, (v ++ x).
      replace (u ++ p :: v ++ x) with ((u ++ p :: v) ++ x) by (rewrite <- app_assoc; reflexivity). now constructor.
    + destruct (IHb H2 Hi) as (u & v & E), (L_some_word a H1) as [x Hx]. exists (x ++ u), v.
      rewrite <- app_assoc. now constructor.
  - destruct H as [H1 H2]. apply in_app_iff in Hi as [Hi|Hi].
    + destruct H1 as [->|H1]; [contradiction|]. destruct (IHa H1 Hi) as (u & v & E). exists u, v. now apply L_left.
    + destruct (IHb H2 Hi) as (u & v & E). exists u, v. now apply L_right.
  - destruct (IH H Hi) as (u & v & E). exists u, v. now apply L_some.
  - destruct (IH H Hi) as (u & v & E). exists u, v. now apply L_one.
Qed.

(* from every position there is a way to the end *)
Lemma chain_split F Z w b v : forall a, chain F a (w ++ b :: v) Z -> chain F b v Z.
Proof. induction w as [|c w IH]; intros a; cbn [app chain]; [tauto|]. intros [_ H]. now apply (IH c). Qed.

Lemma chain_out r lo hi p : wf lo r hi -> productive r -> lo <= p < hi -> exists v, chain (gfol r) p v (glast r).
Proof.
  intros Hw Hp Hr. destruct (L_occurs r p Hp) as (u & v & H); [now apply (poss_range r lo hi)|].
  apply L_word in H. exists v. destruct u as [|x u]; cbn [app word] in H; [tauto|]. destruct H as [_ H]. now apply (chain_split _ _ u p v x).
Qed.
