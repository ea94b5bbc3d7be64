(* Model of loggers with respect to which messages reach which destinations (log/logger.hpp, limit.hpp, channel.hpp,
   channel_map.hpp, prefix.hpp, prefix_logger.hpp, limit_logger.hpp, duplicating_logger.hpp, channel_logger.hpp, and
   jail_logger.hpp), and with which prefixes.  The text of messages and locales are left out. *)
From Coq Require Import ZArith Bool List.
From Verif Require Import ArrLib.
Import ListNotations.
Local Open Scope Z_scope.

(* std::numeric_limits<int>::max() *)
Definition int_max : Z := 2 ^ 31 - 1.

(* LogLevel: log_level.hpp:43-73 *)
Definition level_off : Z := 0.
Definition level_info : Z := 4.
Definition level_all : Z := 8.

(* LimitImpl: limit_logger.hpp:93-124 *)
Record limit_impl := LimitImpl { li_fixed : Z; li_variable : Z }.

(* The objects of type LimitImpl, in the order of construction.  They are referred to by index. *)
Definition store := list limit_impl.
Definition get_impl (st : store) (i : nat) : limit_impl := nth i st (LimitImpl 0 0).

(* Limit: limit.hpp:33-62, limit_logger.hpp:93-94, duplicating_logger.hpp:135-137 *)
Inductive limit := RootLimit | NullLimit | Limiter (i : nat) | DupLimit (a b : limit).

(* get_fixed_limit: limit.hpp:77-80, 93-96, limit_logger.hpp:110-113, duplicating_logger.hpp:164-169 *)
Fixpoint get_fixed_limit (st : store) (l : limit) : Z :=
  match l with
  | RootLimit => level_all
  | NullLimit => level_off
  | Limiter i => li_fixed (get_impl st i)
  | DupLimit a b => Z.max (get_fixed_limit st a) (get_fixed_limit st b)
  end.

(* get_level_limit: limit.hpp:83-86, 99-102, limit_logger.hpp:116-119, duplicating_logger.hpp:172-177 *)
Fixpoint get_level_limit (st : store) (l : limit) : Z :=
  match l with
  | RootLimit => level_all
  | NullLimit => level_off
  | Limiter i => li_variable (get_impl st i)
  | DupLimit a b => Z.max (get_level_limit st a) (get_level_limit st b)
  end.

(* Prefix: the null prefix (prefix.hpp:52-60), a compound prefix (prefix.hpp:69-85), and a prefix logger
   (prefix_logger.hpp:57-59) *)
Inductive prefix := NullPrefix | CompoundPrefix (left right : prefix) | TextPrefix (parent : prefix) (text : list Z).

(* is_null_prefix: prefix.hpp:105-108, 116-119 *)
Definition is_null_prefix (p : prefix) : bool := match p with NullPrefix => true | _ => false end.

(* format_prefix: prefix.hpp:123-125, 152-156, prefix_logger.hpp:149-153; what is written to the stream *)
Fixpoint format_prefix (p : prefix) : list Z :=
  match p with
  | NullPrefix => []
  | CompoundPrefix l r => format_prefix l ++ format_prefix r
  | TextPrefix parent text => format_prefix parent ++ text
  end.

(* get_simplified: prefix.hpp:141-148 *)
Definition get_simplified (left right : prefix) : prefix :=
  if is_null_prefix right then left
  else if is_null_prefix left then right
  else CompoundPrefix left right.

(* Sink: the destination of a stream logger (identified by a number), that of the null logger, and SinkImpl of
   limit_logger.hpp:128-152 and duplicating_logger.hpp:135-186 *)
Inductive sink :=
| StreamSink (id : nat)
| NullSink
| LimitSink (i : nat) (s : sink)
| DupSink (p1 p2 : prefix) (s1 s2 : sink).

(* sink_log: logger.hpp:805-812 (the prefixes), limit_logger.hpp:141-147, duplicating_logger.hpp:154-161.  The result is the
   destinations that the message reaches, with what comes before the message. *)
Fixpoint sink_log (st : store) (level : Z) (s : sink) (channel_prefix message_prefix : prefix) : list (nat * list Z) :=
  match s with
  | StreamSink id => [(id, format_prefix channel_prefix ++ format_prefix message_prefix)]
  | NullSink => []
  | LimitSink i s =>
    let limit := li_variable (get_impl st i) in
    if level <=? limit then sink_log st level s channel_prefix message_prefix else []
  | DupSink p1 p2 s1 s2 =>
    sink_log st level s1 (CompoundPrefix p1 channel_prefix) message_prefix ++
    sink_log st level s2 (CompoundPrefix p2 channel_prefix) message_prefix
  end.

(* Channel: channel.hpp:64-68.  Names are represented by numbers in the same order, the empty one by 0. *)
Record channel := Channel { c_name : nat; c_limit : limit; c_prefix : prefix; c_sink : sink }.

(* Logger: logger.hpp:287-292; l_channels is the channels of the channel map *)
Record logger := Logger {
  l_fixed_limit : Z;
  l_limit : limit;
  l_prefix : prefix;
  l_channel : channel;
  l_channels : list channel;
}.

(* will_log: logger.hpp:647-656 *)
Definition will_log (st : store) (g : logger) (level : Z) : bool :=
  if l_fixed_limit g <? level then false
  else
    let has_fixed_limit := negb (l_fixed_limit g =? int_max) in
    if has_fixed_limit then true
    else level <=? get_level_limit st (l_limit g).

(* get_log_level_limit: logger.hpp:660-666 *)
Definition get_log_level_limit (st : store) (g : logger) : Z :=
  let has_fixed_limit := negb (l_fixed_limit g =? int_max) in
  if has_fixed_limit then l_fixed_limit g
  else get_level_limit st (l_limit g).

(* log: logger.hpp:628-643; channel_log: channel.hpp:99-106 *)
Definition log (st : store) (g : logger) (level : Z) : list (nat * list Z) :=
  if negb (will_log st g level) then []
  else sink_log st level (c_sink (l_channel g)) (c_prefix (l_channel g)) (l_prefix g).

(* constructor without a fixed limit: logger.hpp:755-771 *)
Definition new_logger (st : store) (l : limit) (p : prefix) (c : channel) (cs : list channel) : logger :=
  Logger (get_fixed_limit st l) l p c cs.

(* do_find_channel: channel_map.hpp:110-122.  The search is linear rather than binary. *)
Fixpoint find_channel (cs : list channel) (name : nat) : option channel :=
  match cs with
  | [] => None
  | c :: cs => if (c_name c =? name)%nat then Some c else find_channel cs name
  end.

(* outcome of an operation: success, an exception, or a failed assertion *)
Inductive result (A : Type) := Ok (a : A) | Thrown | Failed.
Arguments Ok {A}. Arguments Thrown {A}. Arguments Failed {A}.

(* the root loggers: logger.hpp:305-307, 785-792, 437-440, 963-970.  Stream loggers and file loggers are root loggers. *)
Definition stream_logger (st : store) (id : nat) : logger :=
  let c := Channel 0 RootLimit NullPrefix (StreamSink id) in
  new_logger st (c_limit c) NullPrefix c [c].
Definition null_logger (st : store) : logger :=
  let c := Channel 0 NullLimit NullPrefix NullSink in
  new_logger st (c_limit c) NullPrefix c [c].

(* BasicLogger(base_logger): logger.hpp:677-680, 691-695 *)
Definition copy_logger (st : store) (base : logger) : logger :=
  new_logger st (c_limit (l_channel base)) (l_prefix base) (l_channel base) (l_channels base).

(* BasicPrefixLogger(base_logger, prefix): prefix_logger.hpp:98-101, 129-135 *)
Definition prefix_logger (st : store) (base : logger) (text : list Z) : logger :=
  new_logger st (c_limit (l_channel base)) (TextPrefix (l_prefix base) text) (l_channel base) (l_channels base).

(* BasicLogger(base_logger, channel): logger.hpp:684-687 *)
Definition select_logger (st : store) (base : logger) (name : nat) : result logger :=
  match find_channel (l_channels base) name with
  | Some c => Ok (new_logger st (c_limit c) (l_prefix base) c (l_channels base))
  | None => Thrown
  end.

(* BasicJailLogger: jail_logger.hpp:103-110 *)
Definition jail_logger (st : store) (base : logger) : logger :=
  let target := l_channel base in
  let c := Channel 0 (c_limit target) (get_simplified (c_prefix target) (l_prefix base)) (c_sink target) in
  new_logger st (c_limit target) NullPrefix c [c].

(* BasicLimitLogger: limit_logger.hpp:155-232, 96-101; fixed is None when no fixed limit is specified, and matches is what
   the pattern matches *)
Definition limit_logger (st : store) (base : logger) (fixed : option Z) (matches : nat -> bool)
    : result (store * logger) :=
  let fixed_limit := match fixed with Some l => l | None => int_max end in
  let limit := length st in
  let impl := LimitImpl fixed_limit (if fixed_limit =? int_max then level_info else fixed_limit) in
  let base_channels := l_channels base in
  if negb (existsb (fun c => matches (c_name c)) base_channels) then Thrown
  else
    let channels :=
      map (fun c => if matches (c_name c)
                    then Channel (c_name c) (Limiter limit) (c_prefix c) (LimitSink limit (c_sink c))
                    else Channel (c_name c) (c_limit c) (c_prefix c) (c_sink c)) base_channels in
    match find_channel channels (c_name (l_channel base)) with
    | None => Failed
    | Some c => Ok (st ++ [impl], Logger fixed_limit (Limiter limit) (l_prefix base) c channels)
    end.

(* the assignment in set(): limit_logger.hpp:106 *)
Definition store_limit (st : store) (i : nat) (limit : Z) : store :=
  firstn i st ++ LimitImpl (li_fixed (get_impl st i)) limit :: skipn (S i) st.

(* set_log_level_limit: limit_logger.hpp:219-222, 103-107; i is the index of the limit of the logger *)
Definition set_log_level_limit (st : store) (i : nat) (limit : Z) : result store :=
  if negb (li_fixed (get_impl st i) =? int_max) then Ok (store_limit st i limit)
  else Failed.

(* std::map from names, as a sorted list *)
Fixpoint map_put {A : Type} (m : list (nat * A)) (k : nat) (c : A) : list (nat * A) :=
  match m with
  | [] => [(k, c)]
  | (k2, c2) :: m =>
    if (k =? k2)%nat then (k, c) :: m
    else if (k <? k2)%nat then (k, c) :: (k2, c2) :: m
    else (k2, c2) :: map_put m k c
  end.
Fixpoint map_find {A : Type} (m : list (nat * A)) (k : nat) : option A :=
  match m with
  | [] => None
  | (k2, c2) :: m => if (k =? k2)%nat then Some c2 else map_find m k
  end.

(* the prefix of a logger and a channel combined: duplicating_logger.hpp:227-237, 253-261, channel_logger.hpp:176-188 *)
Definition combine (logger_prefix channel_prefix : prefix) : prefix :=
  if is_null_prefix logger_prefix then channel_prefix
  else if is_null_prefix channel_prefix then logger_prefix
  else CompoundPrefix channel_prefix logger_prefix.

(* a target logger (its prefix), and a channel of it *)
Definition target := (prefix * channel)%type.

(* BasicDuplicatingLogger: duplicating_logger.hpp:190-281, 300-306.  Each rule is the name of the origin channel and the
   target.  The map is by name of the origin channel rather than by address. *)
Definition dup_logger (st : store) (base : logger) (rules : list (nat * target)) : result logger :=
  let base_map := l_channels base in
  if negb (forallb (fun rule => match find_channel base_map (fst rule) with Some _ => true | None => false end) rules)
  then Thrown
  else
    let map_ := fold_left (fun m rule => map_put m (fst rule) (snd rule)) rules [] in
    let channels :=
      map (fun c =>
        let prefix_1 := combine (l_prefix base) (c_prefix c) in
        match map_find map_ (c_name c) with
        | None => Channel (c_name c) (c_limit c) prefix_1 (c_sink c)
        | Some (target_prefix, target) =>
          let prefix_2 := combine target_prefix (c_prefix target) in
          Channel (c_name c) (DupLimit (c_limit c) (c_limit target)) NullPrefix
            (DupSink prefix_1 prefix_2 (c_sink c) (c_sink target))
        end) base_map in
    match find_channel channels (c_name (l_channel base)) with
    | None => Failed
    | Some c => Ok (new_logger st (c_limit c) NullPrefix c channels)
    end.

(* BasicChannelLogger: channel_logger.hpp:128-205, 219-226.  Each rule is the name of the new channel and the target.  The
   prefix in the map is that of the base logger where the code has a null pointer. *)
Definition channel_logger (st : store) (base : logger) (rules : list (nat * target)) : result logger :=
  let map_ := fold_left (fun m c => map_put m (c_name c) (l_prefix base, c)) (l_channels base) [] in
  let map_ := fold_left (fun m rule => map_put m (fst rule) (snd rule)) rules map_ in
  let channels :=
    map (fun entry : nat * target =>
      let '(name, (logger_prefix, c)) := entry in
      Channel name (c_limit c) (combine logger_prefix (c_prefix c)) (c_sink c)) map_ in
  match find_channel channels (c_name (l_channel base)) with
  | None => Failed
  | Some c => Ok (new_logger st (c_limit c) NullPrefix c channels)
  end.

(* A rule as specified by the application: a name, the index of the target logger, and the name of the target channel if it
   is not the selected one *)
Definition rule := (nat * (nat * option nat))%type.

(* construction of loggers; other loggers are referred to by index in order of construction *)
Inductive command :=
| NewStream (id : nat)
| NewNull
| NewCopy (base : nat)
| NewPrefix (base : nat) (text : list Z)
| NewSelect (base : nat) (name : nat)
| NewJail (base : nat)
| NewLimit (base : nat) (fixed : option Z) (matches : nat -> bool)
| NewDup (base : nat) (rules : list rule)
| NewChannel (base : nat) (rules : list rule).

Definition bind {A B : Type} (m : result A) (k : A -> result B) : result B :=
  match m with Ok a => k a | Thrown => Thrown | Failed => Failed end.

(* Rule: duplicating_logger.hpp:300-315, channel_logger.hpp:240-257; a missing logger counts as an exception *)
Fixpoint resolve (gs : list logger) (rules : list rule) : result (list (nat * target)) :=
  match rules with
  | [] => Ok []
  | (name, (k, target_channel)) :: rules =>
    match nth_error gs k with
    | None => Thrown
    | Some g =>
      match (match target_channel with None => Some (l_channel g) | Some t => find_channel (l_channels g) t end) with
      | None => Thrown
      | Some c => bind (resolve gs rules) (fun rs => Ok ((name, (l_prefix g, c)) :: rs))
      end
    end
  end.

(* a step of a program that constructs loggers; a missing base logger counts as an exception *)
Definition with_base (gs : list logger) (base : nat) (k : logger -> result (store * logger)) : result (store * logger) :=
  match nth_error gs base with Some g => k g | None => Thrown end.

Definition construct (st : store) (gs : list logger) (c : command) : result (store * logger) :=
  match c with
  | NewStream id => Ok (st, stream_logger st id)
  | NewNull => Ok (st, null_logger st)
  | NewCopy base => with_base gs base (fun g => Ok (st, copy_logger st g))
  | NewPrefix base text => with_base gs base (fun g => Ok (st, prefix_logger st g text))
  | NewSelect base name => with_base gs base (fun g => bind (select_logger st g name) (fun g => Ok (st, g)))
  | NewJail base => with_base gs base (fun g => Ok (st, jail_logger st g))
  | NewLimit base fixed matches => with_base gs base (fun g => limit_logger st g fixed matches)
  | NewDup base rules => with_base gs base (fun g =>
      bind (resolve gs rules) (fun rs => bind (dup_logger st g rs) (fun g => Ok (st, g))))
  | NewChannel base rules => with_base gs base (fun g =>
      bind (resolve gs rules) (fun rs => bind (channel_logger st g rs) (fun g => Ok (st, g))))
  end.

Fixpoint run (st : store) (gs : list logger) (cs : list command) : result (store * list logger) :=
  match cs with
  | [] => Ok (st, gs)
  | c :: cs => bind (construct st gs c) (fun p => run (fst p) (gs ++ [snd p]) cs)
  end.
