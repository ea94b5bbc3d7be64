(* Theorems about wildcard filters. *)
From Coq Require Import ZArith Bool List Arith Lia.
From Verif Require Import StringMatcherModel StringMatcherSpec WildFilterModel WildFilterSpec WildFilterProofs ArrLib.
Import ListNotations.
Open Scope nat_scope.

(* C144: for_each_word() visits the words of the string; the words are determined by the string *)
Theorem for_each_word_exact : forall str,
  exists words, for_each_word str = Some words /\ worded 32 str words /\ forall words', worded 32 str words' -> words' = words.
Proof.
  intros str. destruct (worded_total 32 (length str) str ltac:(lia)) as (words & W). exists words.
  assert (E : forall ws, worded 32 str ws -> for_each_word str = Some ws) by (intros ws H; apply words_loop_ok; [assumption|lia]).
  split; [auto|]. split; [assumption|]. intros ws H. apply E in H, W. congruence.
Qed.

Example for_each_word_ex : for_each_word [32; 97; 98; 32; 32; 45; 32; 99; 32]%Z = Some [[97; 98]; [45]; [99]]%Z.
Proof. reflexivity. Qed.

(* C145: a filter with include patterns, and possibly a dash and exclude patterns.  Missing: further words that are dashes *)
Theorem wildcard_filter_partial : forall kmin kmax filter words inc exc,
  (kmin <= 42 <= kmax)%Z -> chars_ok kmin kmax filter -> worded 32 filter words ->
  ~ In dash inc -> ~ In dash exc -> (words = inc /\ exc = [] \/ words = inc ++ dash :: exc) ->
  exists f fuel_0, (forall fuel, fuel_0 <= fuel -> make_filter kmin kmax fuel filter = Some f) /\
  forall name, chars_ok kmin kmax name -> exists b, include f name = Some b /\ (b = true <-> filter_includes inc exc name).
Proof.
  intros kmin kmax filter words inc exc Hk Hc W Ni Ne Hw. destruct (make_filter_ok kmin kmax Hk filter words W Hc) as (f & f0 & Hf & Hr).
  exists f, f0. split; [assumption|]. replace (fst (used words)) with inc in Hr; [replace (snd (used words)) with exc in Hr; [exact Hr|]|];
    unfold used; destruct Hw as [(-> & ->)| ->]; rewrite ?fold_left_app, !fold_no_dash by assumption; cbn [fold_left app]; try reflexivity;
    unfold step at 2; destruct (list_eq_dec Z.eq_dec dash dash) as [_|N]; try congruence; cbn [fst snd]; now rewrite fold_no_dash.
Qed.

(* with more than one dash, only the words around the last one matter *)
Theorem wildcard_filter_dashes : forall kmin kmax filter words pre inc exc,
  (kmin <= 42 <= kmax)%Z -> chars_ok kmin kmax filter -> worded 32 filter words ->
  ~ In dash inc -> ~ In dash exc -> words = pre ++ dash :: inc ++ dash :: exc ->
  exists f fuel_0, (forall fuel, fuel_0 <= fuel -> make_filter kmin kmax fuel filter = Some f) /\
  forall name, chars_ok kmin kmax name -> exists b, include f name = Some b /\ (b = true <-> filter_includes inc exc name).
Proof.
  intros kmin kmax filter words pre inc exc Hk Hc W Ni Ne ->. destruct (make_filter_ok kmin kmax Hk filter _ W Hc) as (f & f0 & Hf & Hr).
  exists f, f0. split; [assumption|]. assert (E : used (pre ++ dash :: inc ++ dash :: exc) = (inc, exc)); [|rewrite E in Hr; exact Hr].
  unfold used. rewrite fold_left_app. cbn [fold_left]. destruct (fold_left step pre ([], None)) as [seg i].
  assert (D : forall st, step st dash = ([], Some (fst st))) by (intros st; unfold step; destruct (list_eq_dec Z.eq_dec dash dash); [reflexivity|congruence]).
  rewrite D, fold_left_app, fold_no_dash by assumption. cbn [fold_left app]. rewrite D. cbn [fst]. now rewrite fold_no_dash.
Qed.

(* the documented meaning of further dashes, which are exclude patterns, is not what happens: the filter  a - b - c  excludes the test a, and includes the test b *)
Theorem wildcard_filter_refuted : exists filter words inc exc f fuel name,
  worded 32 filter words /\ words = inc ++ dash :: exc /\ ~ In dash inc /\ chars_ok (-128) 127 filter /\ chars_ok (-128) 127 name /\
  make_filter (-128) 127 fuel filter = Some f /\ include f name = Some false /\ filter_includes inc exc name.
Proof.
  set (filter := [97; 32; 45; 32; 98; 32; 45; 32; 99]%Z).
  destruct (for_each_word_exact filter) as (words & E & W & _). vm_compute in E. injection E as <-.
  destruct (make_filter (-128) 127 100 filter) as [f|] eqn:Ef; [|vm_compute in Ef; discriminate].
  exists filter, [[97]; [45]; [98]; [45]; [99]]%Z, [[97]]%Z, [[98]; [45]; [99]]%Z, f, 100, [97%Z].
  split; [exact W|]. split; [reflexivity|]. split; [intros [H|[]]; discriminate|].
  split; [repeat (constructor; [lia|]); constructor|]. split; [repeat (constructor; [lia|]); constructor|]. split; [assumption|]. split.
  - vm_compute in Ef. injection Ef as <-. vm_compute. reflexivity.
  - assert (M : forall c, c <> 42%Z -> matches 42 [c] [c]) by (intros c Hc; constructor; [assumption|constructor]). split.
    + right. exists [97%Z]. split; [now left|]. apply M. lia.
    + intros (p & Hin & Hm). cbn in Hin. destruct Hin as [<-|[<-|[<-|[]]]]; inversion Hm.
Qed.

(* Foo* - Foo2 *X *)
Example wildcard_filter_ex :
  let filter := [70; 111; 111; 42; 32; 45; 32; 70; 111; 111; 50; 32; 42; 88]%Z in
  match make_filter (-128) 127 100 filter with
  | Some f => map (include f) [[70; 111; 111]; [70; 111; 111; 50]; [70; 111; 111; 51]; [70; 111; 111; 88]; [70; 111]]%Z =
      [Some true; Some false; Some true; Some false; Some false]
  | None => False
  end.
Proof. vm_compute. reflexivity. Qed.

(* the empty filter, and the filter with a dash only, mean everything *)
Example wildcard_filter_ex2 :
  match make_filter (-128) 127 100 [], make_filter (-128) 127 100 [45%Z] with
  | Some f, Some g => include f [70%Z] = Some true /\ include g [70%Z] = Some true
  | _, _ => False
  end.
Proof. vm_compute. split; reflexivity. Qed.

Print Assumptions for_each_word_exact.
Print Assumptions wildcard_filter_partial.
Print Assumptions wildcard_filter_dashes.
Print Assumptions wildcard_filter_refuted.
