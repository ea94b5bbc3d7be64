(* C208 - C210: rewindable sources, and detection of the file format of an image. *)
From Coq Require Import ZArith Bool List Lia Sorted.
From Verif Require Import FlatMapProofs FmtRegModel FmtRegSpec FmtRegProofs FmtRegProps LoadModel LoadSpec LoadProofs ArrLib.
Import ListNotations.

(* a sequence of operations on a rewindable source, and the results of the read operations *)
Fixpoint run_ops (grow : nat -> nat) (r : rsource) (ops : list source_op) : option (list (option (list Z))) :=
  match ops with
  | [] => Some []
  | OpRead size :: ops =>
    let (r, res) := do_try_read_some grow r size in
    let? out := run_ops grow r ops in
    Some (res :: out)
  | OpRewind :: ops =>
    let? r := rewind r in
    run_ops grow r ops
  | OpRelease :: ops => run_ops grow (release r) ops
  end.

Lemma run_ops_right : forall grow data, (forall n, n < grow n) ->
  forall ops r pos, at_pos data r pos -> ops_allowed (rs_released r) ops ->
  exists out, run_ops grow r ops = Some out /\ source_trace data pos (rs_released r) ops out /\
    (~ In None (sub_steps (rs_sub r)) -> ~ In None out).
Proof.
  intros grow data HG. induction ops as [|[size| |] ops IH]; intros r pos A O; cbn [run_ops ops_allowed] in *.
  - exists []. split; [reflexivity|]. split; [constructor|auto].
  - destruct (do_try_read_some grow r size) as [r1 res] eqn:E.
    destruct (read_right grow HG data r pos size r1 res A E) as (D & A1 & R1 & I & N). rewrite <- R1 in O.
    destruct (IH r1 _ A1 O) as (out & E1 & T & F). rewrite E1. cbn [obind]. eexists. split; [reflexivity|].
    split; [econstructor; [exact D|]; rewrite <- R1; exact T|].
    intros X [Y|Y]; [exact (X (N Y))|]. apply F; [|exact Y]. intros Z. apply X, I, Z.
  - destruct O as [R O]. destruct (rewind_right data r pos A R) as (r1 & E & A1 & R1 & S1). rewrite E. cbn [obind].
    rewrite R, <- R1 in O. destruct (IH r1 0 A1 O) as (out & E1 & T & F). exists out. split; [exact E1|].
    rewrite R. rewrite R1 in T. rewrite S1 in F. split; [constructor; exact T|exact F].
  - destruct (IH (release r) pos (release_right data r pos A) O) as (out & E1 & T & F). exists out.
    split; [exact E1|]. split; [constructor; exact T|exact F].
Qed.

(* C208.  For any sequence of operations that does not rewind after release, each read operation delivers the bytes that
   follow those that were delivered since rewinding, and fails only when the underlying source does.  No assertion
   fails. *)
Theorem rewindable_source : forall grow sub capacity ops, (forall n, n < grow n) -> ops_allowed false ops ->
  exists out, run_ops grow (RSource sub [] capacity 0 false) ops = Some out /\
    source_trace (sub_rest sub) 0 false ops out /\ (~ In None (sub_steps sub) -> ~ In None out).
Proof.
  intros grow sub capacity ops HG O.
  exact (run_ops_right grow (sub_rest sub) HG ops _ 0 (initial_right (sub_rest sub) sub capacity eq_refl) O).
Qed.

Definition grow_example (n : nat) : nat := n + 2.
Definition sub_example : subsource := Subsource [1; 2; 3; 4; 5; 6; 7]%Z [Some 0; Some 5; None; Some 1]%nat.

Example rewindable_source_case : (forall n, n < grow_example n) /\
  ops_allowed false [OpRead 3; OpRead 3; OpRead 1; OpRewind; OpRead 2; OpRelease; OpRead 9; OpRead 9; OpRead 9] /\
  run_ops grow_example (RSource sub_example [] 1 0 false)
    [OpRead 3; OpRead 3; OpRead 1; OpRewind; OpRead 2; OpRelease; OpRead 9; OpRead 9; OpRead 9] =
  Some [Some [1]; Some [2; 3]; None; Some [1; 2]; Some [3]; Some [4; 5]; Some [6; 7]]%Z.
Proof. unfold grow_example. split; [intros; lia|]. split; [cbn; auto|vm_compute; reflexivity]. Qed.

(* formats in the order in which they are to be tried *)
Definition candidates (fs : list format) (mime_type extension : list Z) : list format :=
  (if list_eq_dec Z.eq_dec mime_type [] then [] else with_key f_mime_types mime_type fs) ++
  (if list_eq_dec Z.eq_dec extension [] then [] else with_key f_extensions extension fs) ++ fs.

Lemma with_key_in : forall (keys : format -> list (list Z)) k fs f, In f (with_key keys k fs) -> In f fs.
Proof.
  intros keys k fs f I. unfold with_key in I. apply in_concat in I. destruct I as (l & I1 & I2).
  apply in_map_iff in I1. destruct I1 as (g & <- & I1). apply repeat_spec in I2. subst. exact I1.
Qed.

(* C209.  Without a specified format, the first candidate that recognizes the data is used: those with the MIME type, then
   those with the extension, then all, each in the order of registration.  Each format sees the data from the beginning,
   and so does the function that loads the image. *)
Theorem load_detect : forall grow recognize fs r capacity mime_type extension input,
  (forall n, n < grow n) -> register_from empty_registry fs = Some (inr r) ->
  (forall f g, In f fs -> In g fs -> f_object f = f_object g -> f = g) ->
  let data := sub_rest input in
  let rejected := fun f => may_return data 0 (recognize f) (Some false) in
  exists out, try_load_a grow recognize r capacity [] mime_type extension input = Some out /\
  match out with
  | Load f source =>
    (exists before after, candidates fs mime_type extension = before ++ f :: after /\ Forall rejected before /\
      may_return data 0 (recognize f) (Some true)) /\
    forall ops, ops_allowed true ops ->
      exists res, run_ops grow source ops = Some res /\ source_trace data 0 true ops res
  | DetectionFailed => Forall rejected (candidates fs mime_type extension)
  | LoadThrown =>
    exists before f after, candidates fs mime_type extension = before ++ f :: after /\ Forall rejected before /\
      may_return data 0 (recognize f) None
  | _ => False
  end.
Proof.
  intros grow recognize fs r capacity mt ext input HG HR ID data rejected.
  destruct (register_from_inv fs r HR) as [RG L].
  pose proof (rg_formats _ _ RG) as RF.
  pose proof (num_right r fs RG L) as NUM.
  pose proof (get_formats_right r fs RG L fs [] eq_refl) as GF. cbn [length] in GF. change (Z.of_nat 0) with 0%Z in GF.
  assert (FIN : forall (f : format) source, at_pos data source 0 -> forall ops, ops_allowed true ops ->
    exists res, run_ops grow (release source) ops = Some res /\ source_trace data 0 true ops res).
  { intros f source A ops O.
    destruct (run_ops_right grow data HG ops (release source) 0 (release_right data source 0 A) O) as (res & E & T & _).
    exists res. auto. }
  (* a stage *)
  assert (ST : forall tray c r0, set_ok c -> at_pos data r0 0 -> rs_released r0 = false -> incl tray fs ->
    (forall f, In f fs -> In (f_object f) c -> rejected f) ->
    exists d, check_formats grow recognize tray c r0 = Some d /\
    (exists c', insert_range c tray = Some c' /\ set_ok c' /\
      forall r', d = NotFound r' -> forall f, In f fs -> In (f_object f) c' -> rejected f) /\
    match d with
    | Thrown => exists a f b, tray = a ++ f :: b /\ Forall rejected a /\ may_return data 0 (recognize f) None
    | NotFound r' => Forall rejected tray /\ at_pos data r' 0 /\ rs_released r' = false
    | Found f r' => exists a b, tray = a ++ f :: b /\ Forall rejected a /\ may_return data 0 (recognize f) (Some true) /\
        at_pos data r' 0 /\ rs_released r' = false
    end).
  { intros tray c r0 S A R I K.
    destruct (check_right grow HG data recognize tray c r0 S A R) as (d & E & H).
    { intros f F1 F2. apply K; [apply I; exact F1|exact F2]. }
    exists d. split; [exact E|]. split; [|exact H].
    destruct (insert_right tray c S) as (c' & E' & S' & M). exists c'. split; [exact E'|]. split; [exact S'|].
    intros r' -> f F1 F2. apply M in F2. destruct F2 as [F2|F2]; [apply K; assumption|].
    apply in_map_iff in F2. destruct F2 as (g & G1 & G2).
    assert (g = f) by (apply ID; [apply I; exact G2|exact F1|exact G1]). subst g.
    destruct H as (F & _). rewrite Forall_forall in F. apply F. exact G2. }
  unfold try_load_a. set (source := RSource input [] capacity 0 false).
  assert (A0 : at_pos data source 0) by (apply initial_right; reflexivity).
  (* the third stage *)
  assert (T3 : forall c r0 pre, set_ok c -> at_pos data r0 0 -> rs_released r0 = false ->
    (forall f, In f fs -> In (f_object f) c -> rejected f) -> Forall rejected pre ->
    exists out,
      (let? n := get_num_file_formats r in
       let? fs := get_formats r 0 (Z.to_nat n) in
       let? d := check_formats grow recognize fs c r0 in
       match d with
       | Thrown => Some LoadThrown
       | Found f source => Some (Load f (release source))
       | NotFound source => Some DetectionFailed
       end) = Some out /\
      match out with
      | Load f source =>
        (exists before after, pre ++ fs = before ++ f :: after /\ Forall rejected before /\
          may_return data 0 (recognize f) (Some true)) /\
        forall ops, ops_allowed true ops ->
          exists res, run_ops grow source ops = Some res /\ source_trace data 0 true ops res
      | DetectionFailed => Forall rejected (pre ++ fs)
      | LoadThrown =>
        exists before f after, pre ++ fs = before ++ f :: after /\ Forall rejected before /\
          may_return data 0 (recognize f) None
      | _ => False
      end).
  { intros c r0 pre S A R K P. rewrite NUM. cbn [obind]. rewrite Nat2Z.id, GF. cbn [obind].
    destruct (ST fs c r0 S A R (incl_refl _) K) as (d & -> & _ & H). cbn [obind]. destruct d as [f r'|r'|].
    - destruct H as (a & b & E & F & M & A' & _). eexists. split; [reflexivity|]. cbn beta iota. split.
      + exists (pre ++ a), b. split; [rewrite E, <- app_assoc; reflexivity|]. split; [apply Forall_app; auto|exact M].
      + exact (FIN f r' A').
    - destruct H as (F & _). eexists. split; [reflexivity|]. apply Forall_app. auto.
    - destruct H as (a & f & b & E & F & M). eexists. split; [reflexivity|]. exists (pre ++ a), f, b.
      split; [rewrite E, <- app_assoc; reflexivity|]. split; [apply Forall_app; auto|exact M]. }
  (* the second stage *)
  assert (T2 : forall c r0 pre, set_ok c -> at_pos data r0 0 -> rs_released r0 = false ->
    (forall f, In f fs -> In (f_object f) c -> rejected f) -> Forall rejected pre ->
    exists out,
      (let? res2 :=
        (match ext with
         | [] => Some (NotFound r0, c)
         | _ =>
           let? tray := lookup_all_by_extension r ext [] in
           let? d := check_formats grow recognize tray c r0 in
           let? checked := insert_range c tray in
           Some (d, checked)
         end) in
       let '(d, checked) := res2 in
       match d with
       | Thrown => Some LoadThrown
       | Found f source => Some (Load f (release source))
       | NotFound source =>
         let? n := get_num_file_formats r in
         let? fs := get_formats r 0 (Z.to_nat n) in
         let? d := check_formats grow recognize fs checked source in
         match d with
         | Thrown => Some LoadThrown
         | Found f source => Some (Load f (release source))
         | NotFound source => Some DetectionFailed
         end
       end) = Some out /\
      let all := pre ++ (if list_eq_dec Z.eq_dec ext [] then [] else with_key f_extensions ext fs) ++ fs in
      match out with
      | Load f source =>
        (exists before after, all = before ++ f :: after /\ Forall rejected before /\
          may_return data 0 (recognize f) (Some true)) /\
        forall ops, ops_allowed true ops ->
          exists res, run_ops grow source ops = Some res /\ source_trace data 0 true ops res
      | DetectionFailed => Forall rejected all
      | LoadThrown =>
        exists before f after, all = before ++ f :: after /\ Forall rejected before /\
          may_return data 0 (recognize f) None
      | _ => False
      end).
  { intros c r0 pre S A R K P. destruct ext as [|e0 ext'].
    - cbn [obind]. destruct (list_eq_dec Z.eq_dec [] []) as [_|N]; [|congruence]. cbn [app].
      exact (T3 c r0 pre S A R K P).
    - destruct (list_eq_dec Z.eq_dec (e0 :: ext') []) as [N|_]; [discriminate|].
      set (tray := with_key f_extensions (e0 :: ext') fs).
      assert (LT : lookup_all_by_extension r (e0 :: ext') [] = Some tray).
      { exact (proj2 (range_right r fs _ f_extensions (e0 :: ext') RF (rg_ext _ _ RG)) []). }
      rewrite LT. cbn [obind].
      destruct (ST tray c r0 S A R (with_key_in _ _ _) K) as (d & -> & (c' & -> & S' & K') & H). cbn [obind].
      destruct d as [f r'|r'|].
      + destruct H as (a & b & E & F & M & A' & _). eexists. split; [reflexivity|]. cbn zeta beta iota. split.
        * exists (pre ++ a), (b ++ fs). split; [rewrite E, <- !app_assoc; reflexivity|].
          split; [apply Forall_app; auto|exact M].
        * exact (FIN f r' A').
      + destruct H as (F & A' & R'). cbn zeta. rewrite app_assoc.
        exact (T3 c' r' (pre ++ tray) S' A' R' (K' r' eq_refl) (proj2 (Forall_app _ _ _) (conj P F))).
      + destruct H as (a & f & b & E & F & M). eexists. split; [reflexivity|]. cbn zeta beta iota.
        exists (pre ++ a), f, (b ++ fs). split; [rewrite E, <- !app_assoc; reflexivity|].
        split; [apply Forall_app; auto|exact M]. }
  assert (S0 : set_ok []) by constructor.
  unfold candidates. destruct mt as [|m0 mt'].
  - cbn [obind]. destruct (list_eq_dec Z.eq_dec [] []) as [_|N]; [|congruence].
    apply (T2 [] source []); [exact S0|exact A0|reflexivity|intros f _ []|constructor].
  - destruct (list_eq_dec Z.eq_dec (m0 :: mt') []) as [N|_]; [discriminate|].
    set (tray := with_key f_mime_types (m0 :: mt') fs).
    assert (LT : lookup_all_by_mime_type r (m0 :: mt') [] = Some tray).
    { exact (proj2 (range_right r fs _ f_mime_types (m0 :: mt') RF (rg_mime _ _ RG)) []). }
    rewrite LT. cbn [obind].
    destruct (ST tray [] source S0 A0 eq_refl (with_key_in _ _ _)) as (d & -> & (c' & -> & S' & K') & H).
    { intros f _ []. }
    cbn [obind]. destruct d as [f r'|r'|].
    + destruct H as (a & b & E & F & M & A' & _). eexists. split; [reflexivity|]. cbn beta iota. split.
      * eexists a, _. split; [rewrite E, <- !app_assoc; reflexivity|]. split; [exact F|exact M].
      * exact (FIN f r' A').
    + destruct H as (F & A' & R'). exact (T2 c' r' tray S' A' R' (K' r' eq_refl) F).
    + destruct H as (a & f & b & E & F & M). eexists. split; [reflexivity|]. cbn beta iota.
      eexists a, f, _. split; [rewrite E, <- !app_assoc; reflexivity|]. split; [exact F|exact M].
Qed.

(* recognizes data by the first byte, the format with identity n the one with byte n *)
Definition recognize_example (f : format) : reader :=
  Read 1 (fun res => match res with
    | Some [b] => Return (b =? Z.of_nat (f_object f))%Z
    | Some _ => Return false
    | None => Throw end).

Example load_detect_case : exists r, register_from empty_registry [png; jpeg; other] = Some (inr r) /\
  (forall f g, In f [png; jpeg; other] -> In g [png; jpeg; other] -> f_object f = f_object g -> f = g) /\
  candidates [png; jpeg; other] [105; 47; 106]%Z [46; 112; 110; 103]%Z = [jpeg; other; png; other; png; jpeg; other] /\
  match try_load_a grow_example recognize_example r 4 [] [105; 47; 106]%Z [46; 112; 110; 103]%Z
          (Subsource [1; 8; 9]%Z [Some 1%nat]) with
  | Some (Load f source) => f = png /\
    run_ops grow_example source [OpRead 1; OpRead 5; OpRead 5; OpRead 5] = Some [Some [1]; Some [8]; Some [9]; Some []]%Z
  | _ => False
  end.
Proof.
  eexists. split; [vm_compute; reflexivity|]. split.
  { intros f g [<-|[<-|[<-|[]]]] [<-|[<-|[<-|[]]]]; cbn; congruence. }
  split; vm_compute; [reflexivity|]. split; reflexivity.
Qed.

(* C210.  With a specified format, the first registered format with that identifier is used, on the input as is, or the
   operation fails if there is none *)
Theorem load_specified : forall grow recognize fs r capacity file_format mime_type extension input,
  register_from empty_registry fs = Some (inr r) -> file_format <> [] ->
  exists res, is_first (fun f => f_ident f = file_format) fs res /\
    try_load_a grow recognize r capacity file_format mime_type extension input =
      Some (match res with Some f => LoadDirect f input | None => Unavailable end).
Proof.
  intros grow recognize fs r capacity ff mt ext input HR NE.
  destruct (registry_lookup fs r HR) as (_ & _ & K & _). destruct (K ff) as (res & E & W).
  exists res. split; [exact W|]. unfold try_load_a. destruct ff as [|c ff]; [congruence|]. rewrite E. cbn [obind].
  destruct res; reflexivity.
Qed.

Example load_specified_case : exists r, register_from empty_registry [png; jpeg; other] = Some (inr r) /\
  try_load_a grow_example recognize_example r 4 [106; 120]%Z [] [] (Subsource [1]%Z []) =
    Some (LoadDirect other (Subsource [1]%Z [])) /\
  try_load_a grow_example recognize_example r 4 [106]%Z [] [] (Subsource [1]%Z []) = Some Unavailable.
Proof. eexists. split; [vm_compute; reflexivity|]. vm_compute. split; reflexivity. Qed.

Print Assumptions rewindable_source.
Print Assumptions load_detect.
Print Assumptions load_specified.
