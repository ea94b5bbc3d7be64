(* Theorems about key bindings (src/archon/render/impl/key_bindings.cpp) and the built-in handlers for modifier keys
   (src/archon/render/noinst/engine_impl.cpp) *)
From Coq Require Import List ZArith Bool Lia Sorted.
From Verif Require Import KeyBindModel KeyBindSpec KeyBindProofs KeyBindProofs2 KeyBindProofs3 KeyBindProofs4.
Import ListNotations.
Open Scope Z_scope.

(* C175.  Whatever happens, and whatever the handlers do short of binding keys, there is no undefined behaviour, and the handlers that are called, and
   in which modifier mode, follow from what has happened. *)
Theorem key_bindings_conform : forall e evs, quiet e -> obeys e [] evs (run e kb_init evs).
Proof. intros e evs Qu. apply run_ok; [exact Qu|apply kbrel_init]. Qed.

(* C176.  The calls for each key alternate between down and up, the up call is for the same handler as the down call, and a call is outstanding
   precisely when the key is held after a handler was selected, provided that no key is bound while a call is outstanding. *)
Theorem key_calls_balanced : forall e evs l k, quiet e -> run e kb_init evs = map Some (rev l) -> lawful l -> undisturbed l ->
  balance (all_calls l) k None = Some (active l k).
Proof. intros e evs l k Qu R L U. destruct (run_log e evs l Qu R L) as [F _]. eapply balanced; eauto. Qed.

(* After a release of the key, or a completed loss of focus, no call is outstanding. *)
Theorem key_calls_finished : forall e evs l en k, quiet e -> run e kb_init evs = map Some (rev (en :: l)) -> lawful (en :: l) -> undisturbed (en :: l) ->
  ((exists t, en_event en = Up k t) \/ (en_event en = Blur /\ en_ok en = true)) -> balance (all_calls (en :: l)) k None = Some None.
Proof.
  intros e evs l en k Qu R L U C. rewrite (key_calls_balanced e evs (en :: l) k Qu R L U). cbn [active]. unfold forgets.
  destruct C as [[t ->]|[-> ->]]; [rewrite same_key_refl; reflexivity|reflexivity].
Qed.

(* C177.  Without that proviso it is false: when a key is bound while it is held, what is known about it is forgotten, so the handler that was called
   when the key was pressed is never called to say that the key was released. *)
Theorem rebinding_balanced_refuted : ~ (forall e evs l en k, quiet e -> run e kb_init evs = map Some (rev (en :: l)) -> lawful (en :: l) ->
  ((exists t, en_event en = Up k t) \/ (en_event en = Blur /\ en_ok en = true)) -> balance (all_calls (en :: l)) k None = Some None).
Proof.
  intros H. set (e := HEnv (fun _ _ _ => true) (fun _ _ m => m) (fun _ _ _ => [])). set (k := (0, 7) : key).
  set (l := [Entry (Bind (Binding k 1 1 0)) 0 [] true; Entry (Down k 10) 0 [Call k 0 true true] true; Entry (Bind (plain k 0)) 0 [] true; Entry Register 0 [] true]).
  assert (X := H e [Register; Bind (plain k 0); Down k 10; Bind (Binding k 1 1 0); Up k 20] l (Entry (Up k 20) 0 [] true) k).
  assert (Y : balance (all_calls (Entry (Up k 20) 0 [] true :: l)) k None = Some None); [|vm_compute in Y; discriminate Y].
  apply X.
  - intros ? ? ?. reflexivity.
  - reflexivity.
  - cbn. unfold time_max, int_max. repeat split; lia.
  - left. eexists. reflexivity.
Qed.

(* C178.  Binding a new key from a handler is sanctioned (engine.hpp:280-282), but when the handler runs because the window lost focus, the iteration
   over the keys goes on with invalid iterators. *)
Theorem handlers_may_bind_refuted : ~ (forall e evs l ev, run e kb_init evs = map Some (rev l) -> lawful l -> allowed l ev ->
  (forall n h d b, In b (binds e n h d) -> 1 <= b_mult b <= int_max) -> run e kb_init (evs ++ [ev]) <> map Some (rev l) ++ [None]).
Proof.
  intros H. set (k := (0, 7) : key).
  set (e := HEnv (fun _ _ _ => true) (fun _ _ m => m) (fun _ _ d => if d then [] else [Binding (0, 8) 0 1 0])).
  apply (H e [Register; Bind (plain k 0); Down k 10]
    [Entry (Down k 10) 0 [Call k 0 true true] true; Entry (Bind (plain k 0)) 0 [] true; Entry Register 0 [] true] Blur).
  - reflexivity.
  - cbn. unfold time_max, int_max. repeat split; lia.
  - reflexivity.
  - intros n h d b. destruct d; [contradiction|]. intros [<-|[]]. cbn. unfold int_max. lia.
  - reflexivity.
Qed.

(* C179.  As long as the built-in handlers for modifier keys are bound in no other mode than none, as they are, the modifier mode is none, shift,
   control, alt, or meta.  A combination is never in effect, so handlers that are bound in one are never called. *)
Theorem modes_are_simple : forall e lk rk evs l en, quiet e -> (forall h d m, sets_mode e h d m = builtin_sets_mode h d m) ->
  run e kb_init (builtin_events lk rk ++ evs) = map Some (rev (en :: l)) -> lawful (en :: l) ->
  Forall (fun ev => match ev with Bind b => 0 <= b_handler b <= 3 -> b_mode b = 0 | _ => True end) evs ->
  In (en_mode en) [0; 1; 2; 4; 8].
Proof.
  intros e lk rk evs l en Qu Sm R L P. destruct (run_log e _ _ Qu R L) as [[[Em _] F] E].
  assert (Pl : Forall (fun en => plain_modifiers (en_event en)) (en :: l)).
  { assert (G : Forall plain_modifiers (builtin_events lk rk ++ evs)).
    { apply Forall_app. split; [cbn; repeat constructor|exact P]. }
    rewrite <- E in G. rewrite Forall_map in G. apply Forall_rev in G. rewrite rev_involutive in G. exact G. }
  inversion Pl; subst. pose proof (modes_simple e Sm l F ltac:(assumption)) as S. rewrite Em. unfold simple_mode in S. cbn. intuition.
Qed.

(* C180, the full statement: the modifier mode tells which modifier keys are pressed down (key_binding_support.hpp:129-131).  It is false when more than
   one modifier key is pressed: with shift and control, only the bit of the first one is set, ... *)
Theorem modifier_mode_refuted : ~ (forall e lk rk evs l en, quiet e -> (forall h d m, sets_mode e h d m = builtin_sets_mode h d m) ->
  NoDup (map lk [0; 1; 2; 3] ++ map rk [0; 1; 2; 3]) ->
  run e kb_init (builtin_events lk rk ++ evs) = map Some (rev (en :: l)) -> lawful (en :: l) -> Forall (leaves_modifiers lk rk) evs ->
  blurring l = false -> right_mode lk rk l (en_mode en)).
Proof.
  intros H. set (e := HEnv (fun _ _ _ => true) builtin_sets_mode (fun _ _ _ => [])). set (lk := fun h : Z => (0, h) : key). set (rk := fun h : Z => (1, h) : key).
  set (l := Entry (Down (0, 1) 20) 1 [] true :: Entry (Down (0, 0) 10) 0 [Call (0, 0) 0 true true] true :: base lk rk).
  assert (X := H e lk rk [Down (0, 0) 10; Down (0, 1) 20; Resume] l (Entry Resume 1 [] true)).
  destruct (X ltac:(intros ? ? ?; reflexivity) ltac:(reflexivity)) with (h := 1) as [_ Y].
  - cbn. repeat constructor; cbn; intuition discriminate.
  - reflexivity.
  - cbn. unfold time_max, int_max. repeat split; lia.
  - repeat constructor.
  - reflexivity.
  - lia.
  - assert (Z.testbit (en_mode (Entry Resume 1 [] true)) 1 = true); [|discriminate]. apply Y. exists (0, 1). split; reflexivity.
Qed.

(* ... and with both shift keys, the bit is cleared as soon as the first one is released. *)
Theorem modifier_mode_twin_refuted : exists e lk rk l en, quiet e /\ (forall h d m, sets_mode e h d m = builtin_sets_mode h d m) /\
  run e kb_init (builtin_events lk rk ++ [Down (lk 0) 10; Down (rk 0) 20; Up (lk 0) 30; Resume]) = map Some (rev (en :: l)) /\ lawful (en :: l) /\ blurring l = false /\
  (forall k, modifier_of lk rk k <> None -> pressed l k = true <-> k = rk 0) /\ en_mode en = 0 /\ ~ right_mode lk rk l (en_mode en).
Proof.
  set (e := HEnv (fun _ _ _ => true) builtin_sets_mode (fun _ _ _ => [])). set (lk := fun h : Z => (0, h) : key). set (rk := fun h : Z => (1, h) : key).
  set (l := Entry (Up (0, 0) 30) 1 [Call (0, 0) 0 false true] true :: Entry (Down (1, 0) 20) 1 [] true :: Entry (Down (0, 0) 10) 0 [Call (0, 0) 0 true true] true :: base lk rk).
  assert (P : forall k, pressed l k = true <-> k = rk 0).
  { intros k. split.
    - intros P. cbn -[same_key] in P. change (same_key (0, 0) k) with (same_key (lk 0) k) in P. change (same_key (1, 0) k) with (same_key (rk 0) k) in P.
      destruct (same_key (lk 0) k); [discriminate|]. destruct (same_key (rk 0) k) eqn:E; [apply same_key_eq in E; auto|discriminate].
    - intros ->. reflexivity. }
  exists e, lk, rk, l, (Entry Resume 0 [] true).
  split; [intros ? ? ?; reflexivity|]. split; [reflexivity|]. split; [reflexivity|]. split; [cbn; unfold time_max, int_max; repeat split; lia|]. split; [reflexivity|].
  split; [intros k _; apply P|]. split; [reflexivity|]. intros R. destruct (R 0 ltac:(lia)) as [_ Y].
  assert (Z.testbit (en_mode (Entry Resume 0 [] true)) 0 = true); [|discriminate]. apply Y. exists (rk 0). split; [reflexivity|apply P; reflexivity].
Qed.

(* What does hold: if no modifier key is pressed while another one is held, and the application leaves the modifier keys and their handlers alone, the
   modifier mode is right.  Missing are the cases where several modifier keys are held. *)
Theorem modifier_mode_partial : forall e lk rk evs l en, quiet e -> (forall h d m, sets_mode e h d m = builtin_sets_mode h d m) ->
  run e kb_init (builtin_events lk rk ++ evs) = map Some (rev (en :: l)) -> lawful (en :: l) -> Forall (leaves_modifiers lk rk) evs ->
  one_modifier lk rk l -> blurring l = false -> (12 <= length l)%nat -> right_mode lk rk l (en_mode en).
Proof.
  intros e lk rk evs l en Qu Sm R L Lv O B Len. destruct (run_log e _ _ Qu R L) as [[[Em _] F] E]. rewrite Em. apply mi_right; [|exact B].
  assert (P : firstn 12 (rev (en :: l)) = rev (base lk rk)).
  { pose proof (run_prefix e (builtin_events lk rk) evs kb_init) as X. rewrite R, base_run in X. change (length (builtin_events lk rk)) with 12%nat in X. rewrite firstn_map in X.
    revert X. generalize (firstn 12 (rev (en :: l))) (rev (base lk rk)). induction l0 as [|a l0 IH]; intros [|b l1] X; try discriminate; [reflexivity|].
    injection X as -> X. f_equal. apply IH, X. }
  cbn [rev] in P. rewrite firstn_app in P. replace (12 - length (rev l))%nat with 0%nat in P by (rewrite rev_length; lia). rewrite app_nil_r in P.
  assert (D : l = rev (skipn 12 (rev l)) ++ base lk rk).
  { rewrite <- (rev_involutive l) at 1. rewrite <- (firstn_skipn 12 (rev l)) at 1. rewrite rev_app_distr, P, rev_involutive. reflexivity. }
  rewrite D in F, O |- *. apply mi_log; auto.
  - rewrite <- D. apply L.
  - assert (Ev : evs = map en_event (skipn 12 (rev l)) ++ [en_event en]).
    { cbn [rev] in E. rewrite <- (firstn_skipn 12 (rev l)), P, !map_app, <- app_assoc in E.
      assert (Eb : map en_event (rev (base lk rk)) = builtin_events lk rk) by reflexivity. rewrite Eb in E. apply app_inv_head in E. symmetry. exact E. }
    rewrite Ev in Lv. apply Forall_app in Lv. destruct Lv as [Lv _]. rewrite Forall_map in Lv. apply Forall_rev. exact Lv.
Qed.

(* ---- concrete cases ---- *)

(* Shift, a key that is bound in three ways, a double press, a loss of focus that is interrupted and resumed *)
Definition ex_left (h : Z) : key := (0, h).
Definition ex_right (h : Z) : key := (1, h).
Definition ex_env : henv := HEnv (fun n _ _ => negb (Nat.eqb n 7)) builtin_sets_mode (fun _ _ _ => []).
Definition ex_key : key := (0, 40).
Definition ex_events : list event :=
  [Register; Register; Register; Bind (plain ex_key 4); Bind (Binding ex_key 0 2 5); Bind (Binding ex_key 1 1 6);
   Down ex_key 1000; Up ex_key 1100; Down ex_key 1200; Up ex_key 1300; Down (ex_right 0) 1400; Down ex_key 1450; Up ex_key 1500; Down ex_key 1750; Blur; Resume; Down ex_key 2000].

Example key_bindings_case :
  map (fun o => match o with Some en => (en_mode en, en_calls en, en_ok en) | None => (-1, [], false) end) (skipn 18 (run ex_env kb_init (builtin_events ex_left ex_right ++ ex_events))) =
  [(0, [Call ex_key 4 true true], true); (0, [Call ex_key 4 false true], true); (0, [Call ex_key 5 true true], true); (0, [Call ex_key 5 false true], true);
   (0, [Call (ex_right 0) 0 true true], true); (1, [Call ex_key 6 true true], true); (1, [Call ex_key 6 false true], true); (1, [Call ex_key 6 true false], false);
   (1, [Call ex_key 6 false true; Call (ex_right 0) 0 false true], true); (0, [], true); (0, [Call ex_key 4 true true], true)].
Proof. reflexivity. Qed.

(* the entries of a run, the latest first *)
Definition ex_log : log := rev (flat_map (fun o => match o with Some en => [en] | None => [] end) (run ex_env kb_init (builtin_events ex_left ex_right ++ ex_events))).
Example key_calls_case : quiet ex_env /\ run ex_env kb_init (builtin_events ex_left ex_right ++ ex_events) = map Some (rev ex_log) /\ lawful ex_log /\ undisturbed ex_log /\
  active ex_log ex_key = Some 4 /\ length (all_calls ex_log) = 11%nat.
Proof.
  split; [intros ? ? ?; reflexivity|]. split; [vm_compute; reflexivity|]. split; [vm_compute; repeat split; discriminate|].
  split; [vm_compute; repeat split|]. split; vm_compute; reflexivity.
Qed.

(* with an interrupted loss of focus *)
Definition ex_env_2 : henv := HEnv (fun n _ _ => negb (Nat.eqb n 2)) builtin_sets_mode (fun _ _ _ => []).
Example key_blur_case :
  map (fun o => match o with Some en => (en_mode en, en_calls en, en_ok en) | None => (-1, [], false) end)
    (skipn 14 (run ex_env_2 kb_init (builtin_events ex_left ex_right ++ [Register; Bind (plain ex_key 4); Down ex_key 10; Down (ex_right 2) 20; Blur; Resume; Resume]))) =
  [(0, [Call ex_key 4 true true], true); (0, [Call (ex_right 2) 2 true true], true); (4, [Call ex_key 4 false false], false); (4, [Call (ex_right 2) 2 false true], true); (0, [], true)].
Proof. reflexivity. Qed.

(* the hypotheses about modifiers are met while shift is held *)
Definition ex_log_3 : log :=
  Entry (Down ex_key 20) 1 [] true :: Entry (Down (ex_left 0) 10) 0 [Call (ex_left 0) 0 true true] true :: base ex_left ex_right.
Example modifier_mode_case : run ex_env kb_init (builtin_events ex_left ex_right ++ [Down (ex_left 0) 10; Down ex_key 20; Resume]) = map Some (rev (Entry Resume 1 [] true :: ex_log_3)) /\
  lawful (Entry Resume 1 [] true :: ex_log_3) /\ one_modifier ex_left ex_right ex_log_3 /\ blurring ex_log_3 = false /\ (12 <= length ex_log_3)%nat /\
  Forall (leaves_modifiers ex_left ex_right) [Down (ex_left 0) 10; Down ex_key 20; Resume] /\ pressed ex_log_3 (ex_left 0) = true.
Proof.
  split; [reflexivity|]. split; [cbn; unfold time_max, int_max; repeat split; lia|]. split.
  - cbn. split; [intros C; contradiction|]. split; [intros _ k_2 _ C; discriminate|tauto].
  - split; [reflexivity|]. split; [cbn; lia|]. split; [repeat constructor|reflexivity].
Qed.

Print Assumptions key_bindings_conform.
Print Assumptions key_calls_balanced.
Print Assumptions key_calls_finished.
Print Assumptions rebinding_balanced_refuted.
Print Assumptions handlers_may_bind_refuted.
Print Assumptions modes_are_simple.
Print Assumptions modifier_mode_refuted.
Print Assumptions modifier_mode_twin_refuted.
Print Assumptions modifier_mode_partial.
