(* Theorems about string templates (property C97). *)
From Coq Require Import String Ascii List Arith Lia Bool.
From Verif Require Import StrTemplModel StrTemplSpec StrTemplProofs ArrLib.
Import ListNotations.

(* Definitions of parameters: they are accepted if, and only if the names are different. *)
Fixpoint define_all A (defs : list (param A)) (ps : params A) : option (params A) :=
  match defs with
  | [] => Some ps
  | (name, f) :: defs => let? ps := define A ps name f in define_all A defs ps
  end.
Theorem define_exact A defs :
  (NoDup (map fst defs) -> define_all A defs [] = Some defs) /\ (~ NoDup (map fst defs) -> define_all A defs [] = None).
Proof.
  assert (G : forall defs ps, NoDup (map fst ps) -> (NoDup (map fst (ps ++ defs)) -> define_all A defs ps = Some (ps ++ defs)) /\ (~ NoDup (map fst (ps ++ defs)) -> define_all A defs ps = None)).
  { clear. induction defs as [|[name f] defs IH]; intros ps N; cbn; [rewrite app_nil_r; tauto|].
    unfold define. destruct (lookup A ps name) as [p|] eqn:E; cbn.
    - apply lookup_exact in E as [Ip Ep]; [|exact N]. split; [|reflexivity]. intros X. exfalso. rewrite map_app in X. cbn in X. apply NoDup_remove_2 in X. apply X. apply in_or_app. left. rewrite <- Ep. now apply in_map.
    - replace (ps ++ (name, f) :: defs) with ((ps ++ [(name, f)]) ++ defs) by now rewrite <- app_assoc. apply IH. rewrite map_app. cbn.
      apply (NoDup_Add (a := name) (l := map fst ps)); [rewrite <- (app_nil_r (map fst ps)) at 1; apply Add_app|]. split; [exact N|].
      intros X. apply in_map_iff in X as (p & Ep & Ip). assert (Z : lookup A ps name = Some p) by (now apply lookup_exact). congruence. }
  apply (G defs []). constructor.
Qed.
Print Assumptions define_exact.

(* C97: parsing, expansion, and refers_to().  The parts of the string are determined by the
   rules of the documentation.  The error handler is called with the errors in these, in order,
   until it says not to go on, in which case there is no template.  Otherwise the template
   expands to the parts (those that are wrong stand for themselves), with the parameters
   evaluated with the flags that the stream had, and these are restored. *)
Theorem template_exact A narrow (ps : params A) handler string : NoDup (map fst ps) ->
  exists l, (forall l', parts A narrow (fun name p => In p ps /\ fst p = name) 0 string l' <-> l' = l) /\
  match try_parse A narrow ps handler string with
  | None => False
  | Some (Aborted _ errors) => exists a e b, wrongs A l = a ++ e :: b /\ errors = a ++ [e] /\ goes_on handler a /\ handler a e = false
  | Some (Parsed _ t errors) => errors = wrongs A l /\ goes_on handler errors /\
      (forall args flags, expand A t args flags = Some (fst (written A args flags l), flags, snd (written A args flags l))) /\
      (forall name, refers_to A t name = true <-> exists p, In (Value A p) l /\ fst p = name)
  end.
Proof.
  intros N. destruct (loop_exact A narrow ps handler N (S (length string)) [] string [] [] ltac:(lia)) as (l & r & E & P & O). cbn [app length] in E, P.
  exists l. split.
  { intros l'. split; [apply (parts_unique A narrow ps N 0 string l P)|now intros ->]. }
  unfold try_parse. rewrite E. unfold outcome_ok in O. destruct r as [errs|t errs]; cbn [app] in O.
  - destruct O as (a & e & b & W & -> & G & H). exists a, e, b. auto.
  - destruct O as (more & -> & -> & G & X & R). split; [reflexivity|]. split; [exact G|]. split; [|exact R].
    intros args flags. unfold expand. cbn [tm_string tm_substs]. specialize (X args flags 0 [] (le_n _)). destruct (written A args flags l) as [w b]. destruct X as (cur & X & F).
    cbn [app] in X. rewrite X. cbn. destruct b; [reflexivity|now rewrite F].
Qed.
Print Assumptions template_exact.

(* concrete case: a value that depends on the context and changes the flags, and a value that
   depends on the flags *)
Definition st (s : string) : str := map nat_of_ascii (list_ascii_of_string s).
Definition ex_params : params nat :=
  [(st "x", fun a flags => ([48 + a], 7, false)); (st "flags", fun _ flags => ([48 + flags], flags, false)); (st "bad", fun _ flags => (st "?", 9, true))].
Definition ex_parse (go_on : bool) (s : string) := try_parse nat (fun c => c) ex_params (fun errors _ => go_on || (length errors <? 1)) (st s).
Definition ex_expand (go_on : bool) (s : string) := let? r := ex_parse go_on s in match r with Parsed _ t errors => let? y := expand nat t 5 3 in Some (y, errors) | Aborted _ _ => None end.
Example template_ex : NoDup (map fst ex_params) /\
  ex_expand false "<@x|@{flags}|@@|@{x}>" = Some (st "<5|3|@|5>", 3, false, []) /\
  ex_expand false "@x @{bad} @x" = Some (st "5 ?", 3, true, []) /\
  ex_expand true "@x @y @{foo} @{x @" =
    Some (st "5 @y @{foo} @{x @", 3, false,
      [(bad_param_ref, undefined (st "y") (st "@y")); (bad_param_ref, undefined (st "foo") (st "@{foo}"));
       (bad_syntax, at_offset 13); (bad_syntax, at_end)]) /\
  ex_parse false "@x @y @{foo} @{x @" =
    Some (Aborted _ [(bad_param_ref, undefined (st "y") (st "@y")); (bad_param_ref, undefined (st "foo") (st "@{foo}"))]) /\
  match ex_parse true "@x @y @{}" with Some (Parsed _ t _) => map (refers_to nat t) [st "x"; st "y"; st "bad"] = [true; false; false] | _ => False end.
Proof.
  split; [repeat (constructor; [intros H; cbn [In map fst ex_params] in H; repeat (destruct H as [H|H]; [vm_compute in H; discriminate|]); exact H|]); constructor|].
  do 4 (split; [vm_compute; reflexivity|]). vm_compute. reflexivity.
Qed.
Example define_ex : NoDup (map fst ex_params) /\ ~ NoDup (map fst (ex_params ++ ex_params)).
Proof.
  split; [exact (proj1 template_ex)|]. intros N. inversion N as [|x l H]; subst. apply H. right. right. left. reflexivity.
Qed.
