(* Properties of formatting and parsing as list (src/archon/core/as_list.hpp). *)
From Coq Require Import List Arith Bool Lia.
From Verif Require Import AsListModel AsListSpec AsListProofs.
Import ListNotations.

(* ================= C98: formatting ================= *)

(* What is written is the elements with separators between them.  A space follows each separator
   if spaces are to be added, and with brackets, spaces are inside of them in loose mode. *)
Theorem format_as_list_exact : forall V (format : V -> text) c l,
  exists after inner front back,
    (adds_space c -> after = [32]) /\ (~ adds_space c -> after = []) /\
    (adds_inside c -> inner = [32]) /\ (~ adds_inside c -> inner = []) /\
    (bracketed c = true -> front = opening_bracket c :: inner /\ back = inner ++ [closing_bracket c]) /\
    (bracketed c = false -> front = [] /\ back = []) /\
    format_as_list V format c l = front ++ joined (separator c :: after) (map format l) ++ back.
Proof.
  intros V format c l.
  exists (if space_after_separator c then [32] else []), (if space_inside_brackets c then [32] else []),
    (if bracketed c then opening_bracket c :: (if space_inside_brackets c then [32] else []) else []),
    (if bracketed c then (if space_inside_brackets c then [32] else []) ++ [closing_bracket c] else []).
  split; [intros A; apply adds_space_iff in A; rewrite A; reflexivity|].
  split. { intros A. destruct (space_after_separator c) eqn:E; [|reflexivity]. exfalso. apply A, adds_space_iff, E. }
  split; [intros A; apply adds_inside_iff in A; rewrite A; reflexivity|].
  split. { intros A. destruct (space_inside_brackets c) eqn:E; [|reflexivity]. exfalso. apply A, adds_inside_iff, E. }
  split; [intros ->; auto|]. split; [intros ->; auto|].
  unfold format_as_list. rewrite format_elems_joined. reflexivity.
Qed.

(* Elements that are written as one digit *)
Definition digit (n : nat) : text := [48 + n].
Definition read_digit (t : text) (v : nat) : bool * nat :=
  match t with [x] => if (48 <=? x) && (x <=? 57) then (true, x - 48) else (false, v) | _ => (false, v) end.
Definition comma : config := Config 44 false 91 93 sp_auto.
Definition square (s : as_list_space) : config := Config 44 true 91 93 s.
Definition words : config := Config 32 false 91 93 sp_auto.

(* 1, 2, 3  and  [ 1, 2 ]  and  1 2 *)
Example format_ex :
  format_as_list nat digit comma [1; 2; 3] = [49; 44; 32; 50; 44; 32; 51] /\
  format_as_list nat digit (square sp_loose) [1; 2] = [91; 32; 49; 44; 32; 50; 32; 93] /\
  format_as_list nat digit words [1; 2] = [49; 32; 50] /\
  format_as_list nat digit (square sp_tight) [] = [91; 93].
Proof. repeat split. Qed.

(* The documentation says that the spaces inside brackets are added only when the number of
   elements is not zero.  They are added also when it is zero. *)
Theorem format_as_list_refuted : exists V (format : V -> text) c,
  bracketed c = true /\ space c = sp_loose /\
  format_as_list V format c [] = [opening_bracket c; 32; 32; closing_bracket c].
Proof. exists nat, digit, (square sp_loose). repeat split. Qed.

(* ================= C99: parsing ================= *)

(* Parsing succeeds exactly when the string is a list with one text for each element, and each
   text is accepted for its element. *)
Theorem parse_list_exact : forall V (delegate : text -> V -> bool * V) c l str l', l <> [] ->
  (parse_list V delegate c l str = (true, l') <->
   exists ts, is_list_of c ts str /\ length ts = length l /\ assigned delegate ts l l').
Proof.
  intros V delegate c l str l' N. unfold parse_list. split.
  - destruct (parse_as_list V delegate c l str) as [[ok l1] n] eqn:E. intros Q. injection Q as Q ->.
    apply andb_true_iff in Q. destruct Q as [-> Q]. apply Nat.eqb_eq in Q. subst n.
    apply parse_as_list_iff in E; [|assumption]. destruct E as (ts & A & L & _ & As & K). exists ts. split; [assumption|]. split; [assumption|].
    rewrite skipn_all in K. rewrite firstn_all in As. rewrite <- (firstn_skipn (length l) l'), K, app_nil_r. assumption.
  - intros (ts & A & L & As). destruct As as (A1 & A2 & A3).
    rewrite (proj2 (parse_as_list_iff V delegate c l str l' (length l) N)).
    + rewrite Nat.eqb_refl. reflexivity.
    + exists ts. split; [assumption|]. split; [assumption|]. split; [lia|].
      rewrite firstn_all, skipn_all. rewrite firstn_all2 by lia. rewrite skipn_all2 by lia. split; [|reflexivity].
      split; [assumption|]. split; assumption.
Qed.

(* When the list is of variable length, there can be fewer texts, and the remaining elements are
   left as they were. *)
Theorem parse_list_v_exact : forall V (delegate : text -> V -> bool * V) c l n str, l <> [] ->
  (forall l' n', parse_list_v V delegate c l n str = (true, l', n') <->
    exists ts l1, is_list_of c ts str /\ length ts = n' /\ n' <= length l /\
      assigned delegate ts (firstn n' l) l1 /\ l' = l1 ++ skipn n' l) /\
  (forall l' n', parse_list_v V delegate c l n str = (false, l', n') -> n' = n).
Proof.
  intros V delegate c l n str N. unfold parse_list_v. split.
  - intros l' n'. transitivity (parse_as_list V delegate c l str = (true, l', n')).
    { destruct (parse_as_list V delegate c l str) as [[[] l1] m]; split; congruence. }
    rewrite parse_as_list_iff by assumption. split.
    + intros (ts & A & L & L2 & As & K). exists ts, (firstn n' l'). repeat (split; [assumption|]).
      rewrite <- K. symmetry. apply firstn_skipn.
    + intros (ts & l1 & A & L & L2 & As & ->). exists ts. repeat (split; [assumption|]).
      assert (L1 : length l1 = n') by (destruct As as (_ & Q & _); congruence).
      rewrite firstn_exact, skipn_exact by assumption. auto.
  - intros l' n'. destruct (parse_as_list V delegate c l str) as [[[] l1] m]; congruence.
Qed.

(* In the alternative version, the remaining elements are assigned the default value, or the last
   of the values that were read.  The assertion holds. *)
Theorem parse_list_a_exact : forall V (delegate : text -> V -> bool * V) c default l copy_last str, l <> [] ->
  (exists r, parse_list_a V delegate c default l copy_last str = Some r) /\
  (forall l', parse_list_a V delegate c default l copy_last str = Some (true, l') <->
    exists ts l1 fill, is_list_of c ts str /\ length ts <= length l /\ assigned delegate ts (firstn (length ts) l) l1 /\
      (if copy_last then exists l2, l1 = l2 ++ [fill] else fill = default) /\
      l' = l1 ++ repeat fill (length l - length ts)).
Proof.
  intros V delegate c default l copy_last str N.
  assert (NE : forall ts, is_list_of c ts str -> 1 <= length ts).
  { intros ts A. apply is_list_of_inside in A. destruct A as (s & _ & A). apply separated_nonempty in A. destruct ts; [congruence|cbn; lia]. }
  assert (Q : forall l' n, parse_as_list V delegate c l str = (true, l', n) -> 1 <= n).
  { intros l' n E. apply parse_as_list_iff in E; [|assumption]. destruct E as (ts & A & L & _). specialize (NE ts A). lia. }
  assert (S : forall l' n, parse_as_list V delegate c l str = (true, l', n) ->
    parse_list_a V delegate c default l copy_last str =
    Some (true, firstn n l' ++ repeat (if copy_last then nth (n - 1) l' default else default) (length l' - n))).
  { intros l' n E. unfold parse_list_a. rewrite E. specialize (Q l' n E). destruct l; [congruence|].
    destruct (Nat.ltb_spec 0 n); [reflexivity|lia]. }
  split.
  - destruct (parse_as_list V delegate c l str) as [[[] l1] m] eqn:E.
    + eexists. apply S. reflexivity.
    + unfold parse_list_a. rewrite E. eauto.
  - intros l'. split.
    + intros E. destruct (parse_as_list V delegate c l str) as [[[] l1] n] eqn:P.
      2:{ unfold parse_list_a in E. rewrite P in E. discriminate. }
      rewrite (S _ _ eq_refl) in E. injection E as <-. specialize (Q _ _ eq_refl).
      apply parse_as_list_iff in P; [|assumption]. destruct P as (ts & A & L & L2 & As & K).
      assert (Lf : length (firstn n l1) = n) by (destruct As as (_ & W & _); congruence).
      assert (L1 : length l1 = length l).
      { rewrite <- (firstn_skipn n l1), app_length, K, Lf, skipn_length. lia. }
      exists ts, (firstn n l1), (if copy_last then nth (n - 1) l1 default else default). rewrite L, L1.
      split; [assumption|]. split; [lia|]. split; [assumption|]. split; [|reflexivity].
      destruct copy_last; [|reflexivity]. apply last_of_firstn. lia.
    + intros (ts & l1 & fill & A & L & As & F & ->).
      assert (L1 : length l1 = length ts) by (destruct As as (_ & W & _); congruence).
      rewrite (S (l1 ++ skipn (length ts) l) (length ts)).
      * rewrite firstn_exact by assumption. rewrite app_length, skipn_length, L1.
        replace (length ts + (length l - length ts) - length ts) with (length l - length ts) by lia.
        do 4 f_equal. destruct copy_last; [|congruence]. destruct F as (l2 & ->). rewrite app_length in L1. cbn in L1.
        rewrite app_nth1 by (rewrite app_length; cbn; lia). rewrite app_nth2 by lia.
        replace (length ts - 1 - length l2) with 0 by lia. reflexivity.
      * apply parse_as_list_iff; [assumption|]. exists ts. split; [assumption|]. split; [reflexivity|]. split; [lia|].
        rewrite firstn_exact, skipn_exact by assumption. auto.
Qed.

(* Without brackets, an empty sequence can be read from exactly the empty string. *)
Theorem parse_empty_exact : forall V (delegate : text -> V -> bool * V) c str, bracketed c = false ->
  parse_list V delegate c [] str = (match str with [] => true | _ => false end, []).
Proof. intros V delegate c str B. unfold parse_list, parse_as_list. rewrite B. destruct str; reflexivity. Qed.

(* [ 1,2 ,  3 ]  is refused because of the space after 2;  [ 1,2,  3 ]  is accepted. *)
Example parse_ex :
  parse_list nat read_digit (square sp_auto) [7; 7; 7] [91; 32; 49; 44; 50; 32; 44; 32; 32; 51; 32; 93] = (false, [1; 7; 7]) /\
  parse_list nat read_digit (square sp_auto) [7; 7; 7] [91; 32; 49; 44; 50; 44; 32; 32; 51; 32; 93] = (true, [1; 2; 3]) /\
  parse_list nat read_digit (square sp_auto) [7; 7; 7] [91; 49; 44; 50; 93] = (false, [1; 2; 7]) /\
  parse_list_v nat read_digit (square sp_auto) [7; 7; 7] 9 [91; 49; 44; 50; 93] = (true, [1; 2; 7], 2) /\
  parse_list_a nat read_digit (square sp_auto) 0 [7; 7; 7; 7] true [91; 49; 44; 50; 93] = Some (true, [1; 2; 2; 2]) /\
  parse_list_a nat read_digit (square sp_auto) 0 [7; 7; 7; 7] false [91; 49; 44; 50; 93] = Some (true, [1; 2; 0; 0]).
Proof. repeat split. Qed.

(* With brackets, an empty sequence cannot be read from any string; not from an empty pair of
   brackets, which is what is written for it. *)
Theorem parse_empty_refuted : exists V (format : V -> text) (delegate : text -> V -> bool * V) c, bracketed c = true /\
  format_as_list V format c [] = [opening_bracket c; closing_bracket c] /\
  forall str, fst (parse_list V delegate c [] str) = false.
Proof.
  exists nat, digit, read_digit, (square sp_auto). split; [reflexivity|]. split; [reflexivity|]. intros str.
  unfold parse_list, parse_as_list. cbn [bracketed square].
  destruct str as [|x s]; [reflexivity|]. destruct (negb (x =? opening_bracket (square sp_auto))); [reflexivity|].
  destruct (rev s) as [|y r]; [reflexivity|]. destruct (negb (y =? closing_bracket (square sp_auto))); reflexivity.
Qed.

(* A number of elements that is below the minimum is accepted when reading. *)
Theorem parse_list_a_refuted : exists V (format : V -> text) (delegate : text -> V -> bool * V) eqb c default (l : list V) min_elems copy_last k,
  k < min_elems <= length l /\ ~ can_elide default min_elems copy_last l k /\
  format_list_a V format c eqb default l min_elems copy_last <> format_as_list V format c (firstn k l) /\
  parse_list_a V delegate c default l copy_last (format_as_list V format c (firstn k l)) = Some (true, l).
Proof.
  exists nat, digit, read_digit, Nat.eqb, comma, 0, [5; 0; 0], 2, false, 1.
  split; [cbn; lia|]. split; [|split; [discriminate|reflexivity]].
  intros (_ & [A|A] & _); cbn in A; lia.
Qed.

(* ================= C100: round trip ================= *)

(* What is written for a nonempty sequence is read back, if each element can be read back and its
   text has neither separators nor, where spaces are accepted, spaces at its ends. *)
Theorem list_round_trip : forall V (format : V -> text) (delegate : text -> V -> bool * V) c l target, l <> [] ->
  length target = length l -> Forall (fun v => clean c (format v)) l -> (forall v w, In v l -> delegate (format v) w = (true, v)) ->
  parse_list V delegate c target (format_as_list V format c l) = (true, l).
Proof.
  intros V format delegate c l target N L A D.
  assert (Ll : 1 <= length l) by (destruct l; [congruence|cbn; lia]).
  pose proof (round_trip_as_list V format delegate c (length l) l target Ll L ltac:(lia)) as R.
  rewrite firstn_all in R. specialize (R A D). unfold parse_list. rewrite R.
  rewrite <- L, skipn_all, app_nil_r, Nat.eqb_refl. reflexivity.
Qed.

Theorem list_v_round_trip : forall V (format : V -> text) (delegate : text -> V -> bool * V) c l n target n0, 1 <= n <= length l ->
  length target = length l -> Forall (fun v => clean c (format v)) l -> (forall v w, In v l -> delegate (format v) w = (true, v)) ->
  parse_list_v V delegate c target n0 (format_list_v V format c l n) = (true, firstn n l ++ skipn n target, n).
Proof.
  intros V format delegate c l n target n0 Nn L A D. unfold parse_list_v, format_list_v. rewrite Nat.min_l by lia.
  rewrite round_trip_as_list; [reflexivity|lia|assumption|lia| |assumption].
  rewrite Forall_forall in *. intros v I. apply A. rewrite <- (firstn_skipn n l). apply in_or_app. left. assumption.
Qed.

(* In the alternative version, what is left out is as much as possible, and it is restored. *)
Theorem list_a_round_trip : forall V (format : V -> text) (delegate : text -> V -> bool * V) c eqb default l min_elems copy_last target,
  (forall v w : V, eqb v w = true <-> v = w) -> l <> [] ->
  (exists k, format_list_a V format c eqb default l min_elems copy_last = format_as_list V format c (firstn k l) /\
     can_elide default min_elems copy_last l k /\ forall k', can_elide default min_elems copy_last l k' -> k <= k') /\
  (length target = length l -> Forall (fun v => clean c (format v)) l -> (forall v w, In v l -> delegate (format v) w = (true, v)) ->
   parse_list_a V delegate c default target copy_last (format_list_a V format c eqb default l min_elems copy_last) = Some (true, l)).
Proof.
  intros V format delegate c eqb default l m copy target E N. split.
  - exists (elide V eqb default (max m 1) copy l (length l)). split; [reflexivity|]. split.
    + apply elide_can; assumption.
    + intros k' A. apply elide_least; assumption.
  - intros L A D. assert (Ll : 1 <= length l) by (destruct l; [congruence|cbn; lia]).
    destruct (elide_spec V eqb default E (max m 1) copy l (length l) ltac:(lia) ltac:(lia)) as (B1 & B2 & B3 & _).
    unfold parse_list_a, format_list_a. set (k := elide V eqb default (max m 1) copy l (length l)) in *.
    assert (K : 1 <= k <= length l) by lia.
    assert (Lf : length (firstn k l) = k) by (apply firstn_length_le; lia).
    rewrite round_trip_as_list; [|lia|assumption|lia| |assumption].
    2:{ rewrite Forall_forall in *. intros v I. apply A. rewrite <- (firstn_skipn k l). apply in_or_app. left. assumption. }
    destruct target as [|t0 target]; [cbn in L; lia|]. destruct (Nat.ltb_spec 0 k) as [_|]; [|lia].
    do 2 f_equal. rewrite firstn_exact by assumption.
    rewrite app_length, Lf, skipn_length. rewrite (elided_repeat V default copy l k K B3) at 3. f_equal. f_equal.
    + unfold fill_of. destruct copy; [|reflexivity]. rewrite app_nth1 by lia.
      destruct (last_of_firstn V default l k K) as (l' & Q). rewrite Q.
      assert (Z : length l' = k - 1) by (rewrite Q, app_length in Lf; cbn in Lf; lia).
      rewrite app_nth2 by lia. rewrite Z, Nat.sub_diag. reflexivity.
    + lia.
Qed.

Example round_trip_ex :
  Forall (fun v => clean comma (digit v)) [4; 2; 2; 2] /\ (forall v w, In v [4; 2; 2; 2] -> read_digit (digit v) w = (true, v)) /\
  format_list_a nat digit comma Nat.eqb 0 [4; 2; 2; 2] 0 true = [52; 44; 32; 50] /\
  format_list_a nat digit comma Nat.eqb 0 [4; 2; 2; 2] 3 true = [52; 44; 32; 50; 44; 32; 50] /\
  format_list_a nat digit comma Nat.eqb 2 [4; 2; 2; 2] 0 false = [52] /\
  format_list_v nat digit comma [4; 2; 2; 2] 2 = [52; 44; 32; 50].
Proof.
  split.
  { repeat apply Forall_cons; try apply Forall_nil;
      (split; [intros [E|[]]; discriminate|intros _; split; [discriminate|split]; intros [r E]; [discriminate|];
        destruct r as [|? [|? ?]]; discriminate]). }
  split; [|repeat split]. intros v w [<-|[<-|[<-|[<-|[]]]]]; reflexivity.
Qed.

(* A list of variable length that is empty is not read back: either it is refused, or it becomes
   a list of one element. *)
Theorem list_v_round_trip_refuted : exists V (format : V -> text) (delegate : text -> V -> bool * V) c l,
  Forall (fun v => clean c (format v)) l /\ (forall v w, In v l -> delegate (format v) w = (true, v)) /\
  fst (fst (parse_list_v V delegate c l 0 (format_list_v V format c l 0))) = false.
Proof.
  exists nat, digit, read_digit, comma, [4; 2; 2; 2].
  split; [exact (proj1 round_trip_ex)|]. split; [exact (proj1 (proj2 round_trip_ex))|]. reflexivity.
Qed.

Print Assumptions format_as_list_exact.
Print Assumptions format_as_list_refuted.
Print Assumptions parse_list_exact.
Print Assumptions parse_list_v_exact.
Print Assumptions parse_list_a_exact.
Print Assumptions parse_empty_exact.
Print Assumptions parse_empty_refuted.
Print Assumptions parse_list_a_refuted.
Print Assumptions list_round_trip.
Print Assumptions list_v_round_trip.
Print Assumptions list_a_round_trip.
Print Assumptions list_v_round_trip_refuted.
