(* Model of the registry of image file formats: image/file_format_registry.hpp and file_format_registry.cpp *)
From Coq Require Import ZArith Bool List.
From Verif Require Import FlatMapModel EnumModel ArrLib.
Import ListNotations.

(* image::FileFormat: what the registry uses of it.  Strings are lists of characters.  The number stands for the identity
   of the object. *)
Record format := Format {
  f_object : nat;
  f_ident : list Z;
  f_extensions : list (list Z);
  f_mime_types : list (list Z);
}.

(* operator<() of std::string_view *)
Definition str_less : list Z -> list Z -> bool := lex_less Z.ltb.

(* FileFormatRegistry: file_format_registry.hpp:131-134 *)
Record registry := Registry {
  formats : list format;
  format_map : list (list Z * nat);
  formats_by_extension : list (list Z * nat);
  formats_by_mime_type : list (list Z * nat);
}.

Definition empty_registry : registry := Registry [] [] [] [].

(* get_num_file_formats: file_format_registry.hpp:147-151; None if the assertion fails *)
Definition get_num_file_formats (r : registry) : option Z :=
  let n := Z.of_nat (length (formats r)) in
  if (n <=? 2 ^ 31 - 1)%Z then Some n else None.

(* get_file_format: file_format_registry.hpp:154-159; Some None if it throws *)
Definition get_file_format (r : registry) (index : Z) : option (option format) :=
  let? n := get_num_file_formats r in
  if ((0 <=? index) && (index <? n))%Z then
    let? f := nth_error (formats r) (Z.to_nat index) in
    Some (Some f)
  else Some None.

(* lookup: file_format_registry.cpp:75-83; Some None if it returns null *)
Definition lookup (r : registry) (ident : list Z) : option (option format) :=
  let? i := fm_lookup str_less fst (format_map r) ident in
  match i with
  | Some entry =>
    let format_index := snd entry in
    let? f := nth_error (formats r) format_index in
    Some (Some f)
  | None => Some None
  end.

(* lookup_by_mime_type and lookup_by_extension, returning the first one: file_format_registry.cpp:86-96 and 111-121 *)
Definition lookup_first (r : registry) (m : list (list Z * nat)) (k : list Z) : option (option format) :=
  let? p := equal_range str_less fst m k in
  let begin := fst p in
  let end_ := snd p in
  if negb (begin =? end_)%nat then
    let? entry := nth_error m begin in
    let format_index := snd entry in
    let? f := nth_error (formats r) format_index in
    Some (Some f)
  else Some None.

(* the loop in file_format_registry.cpp:104-107 and 129-132, n is the number of remaining iterations *)
Fixpoint collect (r : registry) (m : list (list Z * nat)) (i n : nat) (tray : list format) : option (list format) :=
  match n with
  | O => Some tray
  | S n =>
    let? entry := nth_error m i in
    let format_index := snd entry in
    let? f := nth_error (formats r) format_index in
    collect r m (S i) n (tray ++ [f])
  end.

(* lookup_by_mime_type and lookup_by_extension, adding all to a tray: file_format_registry.cpp:99-108 and 124-133 *)
Definition lookup_all (r : registry) (m : list (list Z * nat)) (k : list Z) (tray : list format) :
    option (list format) :=
  let? p := equal_range str_less fst m k in
  let begin := fst p in
  let end_ := snd p in
  collect r m begin (end_ - begin) tray.

Definition lookup_by_mime_type (r : registry) (mime_type : list Z) : option (option format) :=
  lookup_first r (formats_by_mime_type r) mime_type.
Definition lookup_all_by_mime_type (r : registry) (mime_type : list Z) (tray : list format) : option (list format) :=
  lookup_all r (formats_by_mime_type r) mime_type tray.
Definition lookup_by_extension (r : registry) (extension : list Z) : option (option format) :=
  lookup_first r (formats_by_extension r) extension.
Definition lookup_all_by_extension (r : registry) (extension : list Z) (tray : list format) : option (list format) :=
  lookup_all r (formats_by_extension r) extension tray.

(* the loops in file_format_registry.cpp:156-159 *)
Fixpoint emplace_all (m : list (list Z * nat)) (keys : list (list Z)) (format_index : nat) :
    option (list (list Z * nat)) :=
  match keys with
  | [] => Some m
  | k :: keys =>
    let? p := fm_insert_multi str_less fst m (k, format_index) in
    emplace_all (fst p) keys format_index
  end.

Inductive registry_error := TooMany | AlreadyRegistered.

(* register_file_format: file_format_registry.cpp:136-160.  was_inserted is initialized from p.first, which is a pointer
   into the array of the map (core/flat_map.hpp:92).  As such, it is true whenever the pointer is not null, which it never
   is, because there is an entry with that key after emplace().  That there is such an entry is checked here (None if
   not).  Memory is assumed not to be exhausted, so reservation of memory has no effect. *)
Definition register_file_format (r : registry) (f : format) : option (registry_error + registry) :=
  let? n := get_num_file_formats r in
  if (n =? 2 ^ 31 - 1)%Z then Some (inl TooMany)
  else
    let ident := f_ident f in
    let format_index := length (formats r) in
    let? p := fm_insert str_less fst (format_map r) (ident, format_index) in
    let '(map, position, _) := p in
    let? _ := nth_error map position in
    let was_inserted := true in
    if negb was_inserted then Some (inl AlreadyRegistered)
    else
      let? by_ext := emplace_all (formats_by_extension r) (f_extensions f) format_index in
      let? by_mime := emplace_all (formats_by_mime_type r) (f_mime_types f) format_index in
      Some (inr (Registry (formats r ++ [f]) map by_ext by_mime)).

(* a sequence of registrations, starting with an empty registry, up to the first exception *)
Fixpoint register_from (r : registry) (fs : list format) : option (registry_error + registry) :=
  match fs with
  | [] => Some (inr r)
  | f :: fs =>
    let? res := register_file_format r f in
    match res with
    | inl e => Some (inl e)
    | inr r => register_from r fs
    end
  end.
