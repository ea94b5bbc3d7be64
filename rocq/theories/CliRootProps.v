(* Theorems about the taking over of arguments (property C95), and the accumulation of errors
   (property C96). *)
From Coq Require Import List Arith Lia Bool ZArith.
From Verif Require Import CliSpecModel CliProcessorModel CliRootModel CliRootSpec CliRootProofs ArrLib.
Import ListNotations.

(* C95: the arguments that processing is applied to are those of argv, decoded if needed, in
   order, or there is an exception for the right reason, or, if arguments are copied by value,
   the arguments after those that were taken over in full groups are all empty, in which case
   an assertion fails. *)
Theorem set_args_exact degen decode holder argc argv : argc = Z.of_nat (length argv) \/ (argc < 0 /\ argv = [])%Z ->
  let by_value := degen = false \/ holder <> None in
  let old := match holder with Some l => l | None => [] end in
  let means a t := if degen then t = a else decode a = Some t in
  match set_args degen decode holder argc argv with
  | Taken (held, args) => argv <> [] /\ exists ts, Forall2 means argv ts /\ Forall2 (shows argv held) args ts /\ (exists more, held = old ++ more) /\
      (by_value -> Forall is_held args /\ ~ trailing_empty ts)
  | TooFew => argv = []
  | CodecError => degen = false /\ exists a, In a argv /\ decode a = None
  | TakenBad => by_value /\ exists ts, Forall2 means argv ts /\ trailing_empty ts
  end.
Proof.
  intros Hn by_value old means. unfold set_args. destruct (argc <? 1)%Z eqn:E1.
  { apply Z.ltb_lt in E1. destruct Hn as [-> | [_ X]]; [|exact X]. destruct argv; [reflexivity|cbn in E1; lia]. }
  apply Z.ltb_ge in E1. destruct Hn as [-> | [X _]]; [|lia]. rewrite Nat2Z.id.
  assert (Ne : argv <> []) by (intros ->; cbn in E1; lia).
  assert (Main : forall dec, let means' a t := dec a = Some t in
    match
      match add_args dec (length argv) argv (Rstate old [] [] []) with
      | Taken r =>
        if length (r_ends r) =? 0 then if length (r_args r) =? length argv then Taken (r_holder r, r_args r) else TakenBad else
        match flush (length argv) r with
        | Some r => if length (r_args r) =? length argv then Taken (r_holder r, r_args r) else TakenBad
        | None => TakenBad
        end
      | TooFew => TooFew | CodecError => CodecError | TakenBad => TakenBad
      end
    with
    | Taken (held, args) => exists ts, Forall2 means' argv ts /\ Forall2 (shows argv held) args ts /\ (exists more, held = old ++ more) /\
        Forall is_held args /\ ~ trailing_empty ts
    | TooFew => False
    | CodecError => exists a, In a argv /\ dec a = None
    | TakenBad => exists ts, Forall2 means' argv ts /\ trailing_empty ts
    end).
  { intros dec means'. pose proof (add_exact dec argv old (length argv) argv (Rstate old [] [] []) [] []) as A.
    specialize (A ltac:(repeat split; try constructor; exists []; cbn; now rewrite app_nil_r) ltac:(cbn; lia) ltac:(cbn; lia)).
    destruct (add_args dec (length argv) argv (Rstate old [] [] [])) as [r| | |]; try contradiction; [|exact A].
    destruct A as (ts & d & p & F & At & E & L). cbn in E. pose proof At as (Bf & En & Sh & Hd & Mo & Ev).
    assert (Lt : length argv = length d + length p) by (rewrite (F2_length _ _ _ F), E; apply app_length).
    rewrite En, ends_of_length. destruct (length p =? 0) eqn:Ep; [apply Nat.eqb_eq in Ep|apply Nat.eqb_neq in Ep].
    - assert (p = []) as -> by now destruct p. rewrite (F2_length _ _ _ Sh), Lt. rewrite Nat.add_0_r, Nat.eqb_refl.
      exists ts. split; [exact F|]. rewrite E at 1. rewrite app_nil_r. split; [exact Sh|]. split; [exact Mo|]. split; [exact Hd|].
      rewrite E. rewrite trailing_iff by assumption. intros [X _]. now apply X.
    - destruct (list_eq_dec Nat.eq_dec (concat p) []) as [Nil|Nnil].
      + unfold flush. rewrite Bf, Nil. cbn. exists ts. split; [exact F|]. rewrite E. apply trailing_iff; [assumption|assumption|]. split; [now intros ->|exact Nil].
      + destruct (flush_exact _ _ (length argv) _ _ _ At Nnil) as (r' & Fl & _ & _ & S' & H' & M'); [rewrite app_length; lia|].
        rewrite Fl. rewrite (F2_length _ _ _ S'), app_length, <- Lt, Nat.eqb_refl. exists ts. split; [exact F|]. rewrite E at 1. split; [exact S'|]. split; [exact M'|]. split; [exact H'|].
        rewrite E. rewrite trailing_iff by assumption. intros [_ X]. now apply Nnil. }
  destruct degen.
  - destruct holder as [l|].
    + specialize (Main Some). cbv beta zeta in Main. subst old.
      assert (Mn : forall ts, Forall2 (fun a t : text => Some a = Some t) argv ts -> Forall2 means argv ts).
      { intros ts F. clear - F. induction F as [|a t argv ts [= <-] F IH]; constructor; auto. reflexivity. }
      match type of Main with match ?x with _ => _ end => destruct x as [[held args]| | |] end.
      * destruct Main as (ts & F & S & M & H & T). split; [exact Ne|]. exists ts. split; [now apply Mn|]. split; [exact S|]. split; [exact M|]. intros _. now split.
      * contradiction.
      * destruct Main as (a & _ & X). discriminate.
      * destruct Main as (ts & F & T). split; [right; discriminate|]. exists ts. split; [now apply Mn|exact T].
    + destruct (refer_exact argv [] (length argv) argv [] [] eq_refl (Forall2_nil _) ltac:(cbn; lia)) as (args & R & S). cbn [length] in R. rewrite R.
      rewrite (F2_length _ _ _ S), Nat.eqb_refl. split; [exact Ne|]. exists argv. split; [clear; induction argv; constructor; [reflexivity|assumption]|]. split; [exact S|].
      split; [now exists []|]. intros [X|X]; [discriminate|contradiction].
  - specialize (Main decode). cbv beta zeta in Main. fold old.
    match type of Main with match ?x with _ => _ end => destruct x as [[held args]| | |] end.
    + destruct Main as (ts & F & S & M & H & T). split; [exact Ne|]. exists ts. split; [exact F|]. split; [exact S|]. split; [exact M|]. intros _. now split.
    + contradiction.
    + now split.
    + destruct Main as (ts & F & T). split; [now left|]. exists ts. now split.
Qed.
Print Assumptions set_args_exact.

(* Refuted: that no assertion fails.  A single argument that is empty, such as when the name of
   the program is empty, is enough when a string holder is specified (or when decoding is
   needed).  So is one of more than 8192 characters, followed by one that is empty. *)
Theorem set_args_refuted : set_args true Some (Some []) 1 [[]] = TakenBad /\ set_args false Some None 1 [[]] = TakenBad /\
  exists argv, length argv = 3 /\ nth_error argv 0 = Some [112] /\ set_args true Some (Some []) 3 argv = TakenBad /\ set_args true Some None 3 argv <> TakenBad.
Proof.
  split; [reflexivity|]. split; [reflexivity|]. exists [[112]; repeat 120 (Z.to_nat 8192); []].
  split; [reflexivity|]. split; [reflexivity|]. split; [vm_compute; reflexivity|]. vm_compute. discriminate.
Qed.
Print Assumptions set_args_refuted.

(* concrete cases: prog -x foo, with and without a string holder, and with a codec that adds 1 *)
Definition ex_argv : list text := [[112; 114; 111; 103]; [45; 120]; [102; 111; 111]].
Definition ex_decode (t : text) : option text := if existsb (Nat.eqb 255) t then None else Some (map S t).
Example set_args_ex :
  set_args true Some None 3 ex_argv = Taken ([], [View (Argv 0) 0 4; View (Argv 1) 0 2; View (Argv 2) 0 3]) /\
  set_args true Some (Some [[1; 2]]) 3 ex_argv =
    Taken ([[1; 2]; [112; 114; 111; 103; 45; 120; 102; 111; 111]], [View (Held 1) 0 4; View (Held 1) 4 2; View (Held 1) 6 3]) /\
  set_args false ex_decode None 3 ex_argv =
    Taken ([[113; 115; 112; 104; 46; 121; 103; 112; 112]], [View (Held 0) 0 4; View (Held 0) 4 2; View (Held 0) 6 3]) /\
  set_args false ex_decode None 1 [[255]] = CodecError /\ set_args false ex_decode None 0 [] = TooFew.
Proof. repeat split. Qed.

(* C96: what is got from an error accumulator is what was added to it. *)
Theorem get_errors_exact errors errors0 :
  get_errors (fold_left (fun a e => add_error a (fst (fst e)) (snd (fst e)) (snd e)) errors accum_new) errors0 = Some (errors0 ++ errors).
Proof.
  assert (G : forall errors pre a, (forall more tail, get_entries (ea_messages a ++ more) 0 (ea_entries a ++ tail) =
      match get_entries (ea_messages a ++ more) (length (ea_messages a)) tail with Some l => Some (pre ++ l) | None => None end) ->
    get_errors (fold_left (fun a e => add_error a (fst (fst e)) (snd (fst e)) (snd e)) errors a) errors0 = Some (errors0 ++ pre ++ errors)).
  { clear. induction errors as [|[[i c] t] errors IH]; intros pre a H; cbn [fold_left].
    - unfold get_errors. specialize (H [] []). rewrite !app_nil_r in H. rewrite H. cbn. now rewrite !app_nil_r.
    - replace (pre ++ (i, c, t) :: errors) with ((pre ++ [(i, c, t)]) ++ errors) by now rewrite <- app_assoc. apply IH. clear IH.
      intros more tail. cbn [add_error ea_messages ea_entries fst snd]. rewrite <- !app_assoc. rewrite H. cbn [app get_entries].
      replace (length (ea_messages a) <=? length (ea_messages a ++ t)) with true by (symmetry; apply Nat.leb_le; rewrite app_length; lia).
      replace (length (ea_messages a) <=? length (ea_messages a ++ t ++ more)) with true by (symmetry; apply Nat.leb_le; rewrite !app_length; lia). cbn [andb].
      destruct (get_entries (ea_messages a ++ t ++ more) (length (ea_messages a ++ t)) tail) as [l|]; [|reflexivity]. cbn [obind]. f_equal. rewrite <- app_assoc. cbn [app]. do 3 f_equal.
      rewrite skipn_app, skipn_all, Nat.sub_diag. cbn [app skipn]. rewrite app_length. replace (length (ea_messages a) + length t - length (ea_messages a)) with (length t) by lia.
      rewrite firstn_app, firstn_all, Nat.sub_diag. cbn. now rewrite app_nil_r. }
  change errors with ([] ++ errors) at 2. apply G. intros more tail. cbn. now destruct (get_entries more 0 tail).
Qed.
Print Assumptions get_errors_exact.
Example get_errors_ex :
  get_errors (add_error (add_error (add_error accum_new 3 bad_option [65; 66]) 1 bad_option_arg []) 4 no_pattern_match [67]) [(0, bad_option, [68])] =
    Some [(0, bad_option, [68]); (3, bad_option, [65; 66]); (1, bad_option_arg, []); (4, no_pattern_match, [67])].
Proof. reflexivity. Qed.
