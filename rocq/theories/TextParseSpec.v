(* Specification vocabulary for C161 and C162: words of a line with their positions, and what is to be reported about a line. *)
From Coq Require Import ZArith List Sorted.
From Verif Require Import TextParseModel.
Import ListNotations.

(* w is a word of the string, at position p: not empty, without delimiters, and with nothing but a delimiter on either side *)
Definition word_at (delim : Z) (str w : list Z) (p : nat) : Prop :=
  exists a b, str = a ++ w ++ b /\ length a = p /\ w <> [] /\ ~ In delim w /\
    (a = [] \/ exists a', a = a' ++ [delim]) /\ (b = [] \/ exists b', b = delim :: b').

(* all the words of the string, from left to right *)
Definition words_of (delim : Z) (str : list Z) (ws : list (list Z * nat)) : Prop :=
  (forall w p, In (w, p) ws <-> word_at delim str w p) /\ StronglySorted (fun a b => (snd a < snd b)%nat) ws.

Section Outcome.
Context {St I : Type}.

(* the words are accepted by the fields, one by one *)
Inductive accepted : list (field St I) -> list (list Z * nat) -> St -> St -> Prop :=
| acc_nil st : accepted [] [] st st
| acc_cons f fs w p ws st st1 st2 : f_set f w st = Some st1 -> accepted fs ws st1 st2 -> accepted (f :: fs) ((w, p) :: ws) st st2.

(* the words are accepted by the field sequence, one by one *)
Inductive accepted_seq (seq : field_seq St I) : list (list Z * nat) -> St -> St -> Prop :=
| accs_nil st : accepted_seq seq [] st st
| accs_cons w p ws st st1 st2 : s_add seq w st = Some st1 -> accepted_seq seq ws st1 st2 -> accepted_seq seq ((w, p) :: ws) st st2.

(* the outcome when there are fields only.  len is the length of the line. *)
Inductive line_outcome (ws : list (list Z * nat)) (len : nat) (fields : list (field St I)) (st : St) : outcome St I -> Prop :=
| line_ok st' : accepted fields ws st st' -> line_outcome ws len fields st (Parsed st')
| line_bad a w p r f1 f f2 st1 : ws = a ++ (w, p) :: r -> fields = f1 ++ f :: f2 -> accepted f1 a st st1 -> f_set f w st1 = None ->
    line_outcome ws len fields st (BadValue w (f_ident f) p)
| line_missing f1 f f2 st1 : fields = f1 ++ f :: f2 -> accepted f1 ws st st1 -> line_outcome ws len fields st (MissingValue (f_ident f) len)
| line_many a w p r st1 : ws = a ++ (w, p) :: r -> accepted fields a st st1 -> line_outcome ws len fields st (TooManyValues w p).

(* the outcome when there is a field sequence too, of at least min and at most max values *)
Inductive seq_outcome (ws : list (list Z * nat)) (len : nat) (fields : list (field St I)) (seq : field_seq St I) (min max : Z) (st : St) :
    outcome St I -> Prop :=
| seq_ok a b st1 st2 : ws = a ++ b -> accepted fields a st st1 -> accepted_seq seq b st1 st2 ->
    (min <= Z.of_nat (length b) <= max)%Z -> seq_outcome ws len fields seq min max st (Parsed st2)
| seq_bad_field a w p r f1 f f2 st1 : ws = a ++ (w, p) :: r -> fields = f1 ++ f :: f2 -> accepted f1 a st st1 -> f_set f w st1 = None ->
    seq_outcome ws len fields seq min max st (BadValue w (f_ident f) p)
| seq_missing_field f1 f f2 st1 : fields = f1 ++ f :: f2 -> accepted f1 ws st st1 ->
    seq_outcome ws len fields seq min max st (MissingValue (f_ident f) len)
| seq_bad a b w p r st1 st2 : ws = a ++ b ++ (w, p) :: r -> accepted fields a st st1 -> accepted_seq seq b st1 st2 ->
    (Z.of_nat (length b) < max)%Z -> s_add seq w st2 = None -> seq_outcome ws len fields seq min max st (BadValue w (s_ident seq) p)
| seq_many a b w p r st1 st2 : ws = a ++ b ++ (w, p) :: r -> accepted fields a st st1 -> accepted_seq seq b st1 st2 ->
    Z.of_nat (length b) = max -> seq_outcome ws len fields seq min max st (TooManyValues w p)
| seq_missing a b st1 st2 : ws = a ++ b -> accepted fields a st st1 -> accepted_seq seq b st1 st2 ->
    (Z.of_nat (length b) <= max)%Z -> (Z.of_nat (length b) < min)%Z -> seq_outcome ws len fields seq min max st (MissingValue (s_ident seq) len).
End Outcome.
