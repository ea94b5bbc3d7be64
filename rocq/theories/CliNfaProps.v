(* Theorems about the construction of the NFA over the positions of command-line patterns. *)
From Coq Require Import List Arith Bool Lia.
From Verif Require Import CliPatternModel CliPatternSpec CliBuilderProofs CliNfaProofs.
Import ListNotations.

Lemma fuel_bound ts : exists f, forall fuel, f <= fuel -> forall t, In t ts -> qsteps t < fuel.
Proof.
  induction ts as [|a ts (f & IH)].
  - exists 0. intros fuel _ t [].
  - exists (f + S (qsteps a)). intros fuel Hf t [->|H]; [lia|]. apply (IH fuel); [lia|exact H].
Qed.

Lemma build_nfa_total st patterns ts : Forall2 (rep_pattern st) patterns ts ->
  exists f n, (forall fuel, f <= fuel -> build_nfa st fuel (Nfa [] []) 0 patterns = Some n) /\ nfa_ok n ts.
Proof.
  intros H. destruct (fuel_bound ts) as (f & Hf).
  destruct (build_nfa_ok st f patterns ts H (Hf f (le_n f)) (Nfa [] []) [] empty_ok) as (n & E & K).
  cbn [length app] in *. exists f, n. split; [|exact K].
  intros fuel Hl. destruct (build_nfa_ok st fuel patterns ts H (Hf fuel Hl) (Nfa [] []) [] empty_ok) as (n' & E' & _).
  cbn [length] in E'. rewrite E'. clear - E E' Hl.
  assert (M : forall st pi f f', f <= f' -> forall fr stack n ps r, build_loop st pi f fr stack n ps = Some r ->
      build_loop st pi f' fr stack n ps = Some r).
  { clear. induction f as [|f IH]; intros f' Hl fr stack n ps r H; [discriminate|].
    destruct f' as [|f']; [lia|]. assert (Hl' : f <= f') by lia. cbn [build_loop] in H |- *.
    unfold ArrLib.obind in *.
    repeat match goal with
    | H : context [match ?x with _ => _ end] |- _ =>
      lazymatch x with
      | build_loop _ _ _ _ _ _ _ => fail
      | _ => destruct x eqn:?; try discriminate; try (apply (IH f' Hl'); assumption); try assumption
      end
    end. }
  assert (A : forall st pi f f', f <= f' -> forall n s r, add_pattern st pi f n s = Some r -> add_pattern st pi f' n s = Some r).
  { intros st' pi f1 f2 Hf n0 s r. unfold add_pattern, ArrLib.obind. destruct (init_seq st' s) as [fr|]; [|discriminate].
    destruct (build_loop st' pi f1 fr [] n0 []) as [z|] eqn:Ez; [|discriminate].
    now rewrite (M _ _ _ _ Hf _ _ _ _ _ Ez). }
  enough (B : forall patterns n i r, build_nfa st f n i patterns = Some r -> build_nfa st fuel n i patterns = Some r).
  { rewrite (B _ _ _ _ E) in E'. congruence. }
  induction patterns0 as [|s l IH]; intros n0 i r; cbn [build_nfa]; [auto|]. unfold ArrLib.obind.
  destruct (add_pattern st i f n0 s) as [z|] eqn:Ez; [|discriminate]. rewrite (A _ _ _ _ Hl _ _ _ Ez). apply IH.
Qed.

(* C74: for every list of patterns that are represented in the structure, the builder
   completes (no assertion fails, no access is outside of a vector), and the resulting NFA
   accepts, for each pattern, exactly what the pattern matches, symbol by symbol with the
   positions of the symbols in the pattern. *)
Theorem nfa_exact : forall st patterns ts, Forall2 (rep_pattern st) patterns ts ->
  exists f n, (forall fuel, f <= fuel -> build_nfa st fuel (Nfa [] []) 0 patterns = Some n) /\
    forall i w, nfa_accepts n i w <-> exists t, nth_error ts i = Some t /\ m_seq t w.
Proof.
  intros st patterns ts H. destruct (build_nfa_total st patterns ts H) as (f & n & E & K).
  exists f, n. split; [exact E|]. intros i w. exact (accepts_iff n ts K i w).
Qed.
Print Assumptions nfa_exact.

(* Two patterns: keyword 0, optional option 0, one or more of (value or keyword 1); and
   optional keyword 0. *)
Definition ex_kw0 := Psym s_keyword 0.
Definition ex_kw1 := Psym s_keyword 1.
Definition ex_op0 := Psym s_proto_option 0.
Definition ex_val := Psym s_value_slot 0.
Definition ex_st : structure := Structure
  [ex_kw0; ex_op0; ex_val; ex_kw1; ex_kw0]
  [ Elem t_sym false true 1 2;                                    (* 0: in [ ] *)
    Elem t_sym true false 2 3; Elem t_sym false true 3 4;         (* 1, 2: branches *)
    Elem t_alt true false 0 4;                                    (* 3: operand of repetition *)
    Elem t_sym false true 0 1; Elem t_opt true false 0 2; Elem t_rep true false 3 4; (* 4-6: first pattern *)
    Elem t_sym false true 4 1;                                    (* 7: in [ ] *)
    Elem t_opt true false 5 1 ]                                   (* 8: second pattern *)
  [ Seq 1 0 0 2 false; Seq 1 1 1 3 false; Seq 1 2 0 4 false; Seq 1 3 1 4 false; Seq 3 4 2 4 false;
    Seq 1 7 0 1 false; Seq 1 8 1 1 true ]
  [ Alt 2 1 0 ].
Definition ex_t0 : tseq :=
  SCons (ESym 0 ex_kw0) (SCons (EOpt (SCons (ESym 1 ex_op0) SNil))
    (SCons (ERep (SCons (EAlt (BCons (SCons (ESym 2 ex_val) SNil) (BOne (SCons (ESym 3 ex_kw1) SNil)))) SNil)) SNil)).
Definition ex_t1 : tseq := SCons (EOpt (SCons (ESym 0 ex_kw0) SNil)) SNil.

Ltac empty_absurd :=
  repeat match goal with
  | H : m_seq (SCons _ _) _ |- _ => inversion H; clear H; subst
  | H : m_seq SNil _ |- _ => inversion H; clear H; subst
  | H : m_elem (ESym _ _) _ |- _ => inversion H; clear H; subst
  | H : m_elem (EAlt _) _ |- _ => inversion H; clear H; subst
  | H : m_branches _ _ |- _ => inversion H; clear H; subst
  | H : _ ++ _ = [] |- _ => apply app_eq_nil in H; destruct H; subst
  | H : _ :: _ = [] |- _ => discriminate
  | H : (_ :: _) ++ _ = [] |- _ => discriminate
  end.

Lemma ex_rep : Forall2 (rep_pattern ex_st) [4; 6] [ex_t0; ex_t1].
Proof.
  assert (S0 : rep_seq ex_st 0 (SCons (ESym 1 ex_op0) SNil)).
  { econstructor; [reflexivity|repeat (econstructor; try reflexivity)|split; intro; [discriminate|empty_absurd]]. }
  assert (S1 : rep_seq ex_st 1 (SCons (ESym 2 ex_val) SNil)).
  { econstructor; [reflexivity|repeat (econstructor; try reflexivity)|split; intro; [discriminate|empty_absurd]]. }
  assert (S2 : rep_seq ex_st 2 (SCons (ESym 3 ex_kw1) SNil)).
  { econstructor; [reflexivity|repeat (econstructor; try reflexivity)|split; intro; [discriminate|empty_absurd]]. }
  assert (S3 : rep_seq ex_st 3 (SCons (EAlt (BCons (SCons (ESym 2 ex_val) SNil) (BOne (SCons (ESym 3 ex_kw1) SNil)))) SNil)).
  { econstructor; [reflexivity| |split; intro; [discriminate|empty_absurd]].
    cbn. eapply rep_cons; [reflexivity| |apply rep_nil]. eapply rep_alt; [reflexivity|reflexivity|]. cbn.
    apply rep_more; [exact S1|]. apply rep_one. exact S2. }
  assert (S4 : rep_seq ex_st 4 ex_t0).
  { econstructor; [reflexivity| |split; intro; [discriminate|exfalso; unfold ex_t0 in *; empty_absurd]].
    cbn. eapply rep_cons; [reflexivity|eapply rep_sym; reflexivity|].
    eapply rep_cons; [reflexivity|eapply rep_opt; [reflexivity|exact S0]|].
    eapply rep_cons; [reflexivity|eapply rep_rep; [reflexivity|exact S3]|]. apply rep_nil. }
  assert (S5 : rep_seq ex_st 5 (SCons (ESym 0 ex_kw0) SNil)).
  { econstructor; [reflexivity|repeat (econstructor; try reflexivity)|split; intro; [discriminate|empty_absurd]]. }
  assert (S6 : rep_seq ex_st 6 ex_t1).
  { econstructor; [reflexivity| |].
    - cbn. eapply rep_cons; [reflexivity|eapply rep_opt; [reflexivity|exact S5]|apply rep_nil].
    - split; intros _; [|reflexivity]. change (@nil (nat * psym)) with (@nil (nat * psym) ++ []).
      apply m_cons; [apply m_opt_absent|apply m_nil]. }
  constructor; [|constructor; [|constructor]].
  - split; [exact S4|]. split; [reflexivity|]. eexists. split; reflexivity.
  - split; [exact S6|]. split; [reflexivity|]. eexists. split; reflexivity.
Qed.

(* the NFA, and a match of the first pattern in it *)
Example nfa_concrete :
  build_nfa ex_st 100 (Nfa [] []) 0 [4; 6] = Some (Nfa
    [ Position 0 0 ex_kw0 [1; 2; 3]; Position 0 1 ex_op0 [2; 3]; Position 0 2 ex_val [2; 3; 4];
      Position 0 3 ex_kw1 [2; 3; 4]; Position 0 4 dummy_symbol []; Position 1 0 ex_kw0 [6];
      Position 1 1 dummy_symbol [] ] [0; 5; 6]).
Proof. vm_compute. reflexivity. Qed.

Example nfa_exact_concrete : exists f n, build_nfa ex_st f (Nfa [] []) 0 [4; 6] = Some n /\
  nfa_accepts n 1 [(0, ex_kw0)] /\ nfa_accepts n 1 [] /\ ~ nfa_accepts n 0 [] /\
  nfa_accepts n 0 [(0, ex_kw0); (2, ex_val)].
Proof.
  destruct (nfa_exact ex_st [4; 6] [ex_t0; ex_t1] ex_rep) as (f & n & E & A). exists f, n. split; [apply E; lia|].
  repeat split.
  - apply A. exists ex_t1. split; [reflexivity|]. change [(0, ex_kw0)] with ([(0, ex_kw0)] ++ []).
    apply m_cons; [|apply m_nil]. apply m_opt_present. change [(0, ex_kw0)] with ([(0, ex_kw0)] ++ []).
    apply m_cons; [apply m_sym|apply m_nil].
  - apply A. exists ex_t1. split; [reflexivity|]. change (@nil (nat * psym)) with (@nil (nat * psym) ++ []).
    apply m_cons; [apply m_opt_absent|apply m_nil].
  - intro H. apply A in H. destruct H as (t & [= <-] & H). unfold ex_t0 in H. empty_absurd.
  - apply A. exists ex_t0. split; [reflexivity|].
    change [(0, ex_kw0); (2, ex_val)] with ([(0, ex_kw0)] ++ [] ++ ([(2, ex_val)] ++ []) ++ []).
    apply m_cons; [apply m_sym|]. apply m_cons; [apply m_opt_absent|]. apply m_cons; [|apply m_nil].
    apply m_rep_last. rewrite app_nil_r. change [(2, ex_val)] with ([(2, ex_val)] ++ []).
    apply m_cons; [|apply m_nil]. apply m_alt. apply m_this.
    change [(2, ex_val)] with ([(2, ex_val)] ++ []). apply m_cons; [apply m_sym|apply m_nil].
Qed.
