(* Theorems about the parsing of lines of text into fields. *)
From Coq Require Import ZArith Bool List Lia Sorted.
From Verif Require Import WildFilterModel TextParseModel TextParseSpec TextParseProofs ArrLib.
Import ListNotations.

(* ---- C161: fields only ---- *)

Theorem parse_line_exact : forall (St I : Type) delim str (fields : list (field St I)) st,
  (exists ws, words_of delim str ws) /\
  forall ws r, words_of delim str ws ->
    (parse_line delim str fields st = r <-> line_outcome ws (length str) fields st r).
Proof.
  intros St I d str fields st. split; [eexists; apply rest_words_of|]. intros ws r H. rewrite (words_of_rest _ _ _ H).
  split; [intros <-; apply parse_line_ok|apply line_outcome_det].
Qed.
Print Assumptions parse_line_exact.

(* a state of two lists of words; the first field takes words that do not begin with 45, the second any word *)
Definition ex_fields : list (field (list (list Z)) nat) :=
  [Field 10 (fun w st => match w with c :: _ => if Z.eqb c 45 then None else Some (st ++ [w]) | [] => None end);
   Field 20 (fun w st => Some (st ++ [w]))].

Example parse_line_case :
  words_of 32 [32; 97; 98; 32; 32; 99]%Z [([97; 98]%Z, 1); ([99]%Z, 5)] /\
  parse_line 32 [32; 97; 98; 32; 32; 99]%Z ex_fields [] = Parsed [[97; 98]; [99]]%Z /\
  parse_line 32 [32; 45; 32; 99]%Z ex_fields [] = BadValue [45]%Z 10 1 /\
  parse_line 32 [97; 32]%Z ex_fields [] = MissingValue 20 2 /\
  parse_line 32 [97; 32; 98; 32; 99; 100]%Z ex_fields [] = TooManyValues [99; 100]%Z 4.
Proof.
  split; [exact (rest_words_of 32 [32; 97; 98; 32; 32; 99]%Z)|]. do 3 (split; [reflexivity|]). reflexivity.
Qed.

(* ---- C162: fields and a sequence of values ---- *)

Theorem parse_line_seq_exact : forall (St I : Type) delim str (fields : list (field St I)) seq min max st,
  (0 <= min < 2 ^ 64)%Z -> (0 <= max < 2 ^ 64)%Z ->
  (exists r, parse_line_seq delim str fields seq min max st = Some r) /\
  forall ws r, words_of delim str ws ->
    (parse_line_seq delim str fields seq min max st = Some r <-> seq_outcome ws (length str) fields seq min max st r).
Proof.
  intros St I d str fields seq min max st _ Hmax. destruct (parse_line_seq_ok d str fields seq min max st Hmax) as (r & E & O).
  split; [eauto|]. intros ws r' H. rewrite (words_of_rest _ _ _ H). split.
  - intros E'. assert (r' = r) by congruence. subst r'. exact O.
  - intros O'. apply seq_outcome_det; assumption.
Qed.
Print Assumptions parse_line_seq_exact.

Definition ex_seq : field_seq (list (list Z)) nat :=
  FieldSeq 30 (fun w st => match w with [c] => Some (st ++ [w]) | _ => None end).

Example parse_line_seq_case :
  parse_line_seq 32 [97; 98; 32; 99; 32; 100; 32; 101]%Z ex_fields ex_seq 1 2 [] = Some (Parsed [[97; 98]; [99]; [100]; [101]]%Z) /\
  parse_line_seq 32 [97; 98; 32; 99; 32; 32]%Z ex_fields ex_seq 1 2 [] = Some (MissingValue 30 6) /\
  parse_line_seq 32 [97; 32; 99; 32; 100; 100]%Z ex_fields ex_seq 1 2 [] = Some (BadValue [100; 100]%Z 30 4) /\
  parse_line_seq 32 [97; 32; 99; 32; 100; 32; 101]%Z ex_fields ex_seq 0 1 [] = Some (TooManyValues [101]%Z 6) /\
  parse_line_seq 32 [97; 32; 99]%Z ex_fields ex_seq 0 (2 ^ 64 - 1) [] = Some (Parsed [[97]; [99]]%Z).
Proof. do 4 (split; [reflexivity|]). reflexivity. Qed.
