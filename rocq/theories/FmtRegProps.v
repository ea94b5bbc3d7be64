(* C203, C204: the registry of file formats. *)
From Coq Require Import ZArith Bool List Lia.
From Verif Require Import FmtRegModel FmtRegSpec FmtRegProofs ArrLib.
Import ListNotations.

Lemma register_from_inv : forall fs r, register_from empty_registry fs = Some (inr r) ->
  registered r fs /\ (Z.of_nat (length fs) < 2 ^ 31)%Z.
Proof.
  intros fs r H. destruct (Z.lt_ge_cases (Z.of_nat (length fs)) (2 ^ 31)) as [L|L].
  - split; [|assumption]. destruct (register_from_right fs empty_registry [] registered_empty L) as (r' & E & R).
    rewrite H in E. injection E as ->. exact R.
  - rewrite (register_from_full fs empty_registry [] registered_empty) in H; [discriminate|cbn; lia|exact L].
Qed.

(* C203.  After any sequence of registrations that succeeds, formats are found by index, by identifier, by MIME type, and
   by extension, as documented *)
Theorem registry_lookup : forall fs r, register_from empty_registry fs = Some (inr r) ->
  get_num_file_formats r = Some (Z.of_nat (length fs)) /\
  (forall index, get_file_format r index = Some (if (index <? 0)%Z then None else nth_error fs (Z.to_nat index))) /\
  (forall k, exists res, lookup r k = Some res /\ is_first (fun f => f_ident f = k) fs res) /\
  (forall k, exists res, lookup_by_mime_type r k = Some res /\ is_first (fun f => In k (f_mime_types f)) fs res) /\
  (forall k, exists res, lookup_by_extension r k = Some res /\ is_first (fun f => In k (f_extensions f)) fs res) /\
  (forall k tray, lookup_all_by_mime_type r k tray = Some (tray ++ with_key f_mime_types k fs)) /\
  (forall k tray, lookup_all_by_extension r k tray = Some (tray ++ with_key f_extensions k fs)).
Proof.
  intros fs r H. destruct (register_from_inv fs r H) as [R L].
  split; [exact (num_right r fs R L)|]. split; [intros; exact (get_right r fs index R L)|].
  pose proof (rg_formats _ _ R) as F.
  split; [|split; [|split; [|split]]].
  - intros k. eexists. split; [exact (lookup_right r fs k R)|].
    pose proof (with_key_first (fun f => [f_ident f]) k fs) as W. revert W. unfold is_first.
    destruct (hd_error _) as [f|].
    + intros (a & b & E & P & Q). exists a, b. split; [assumption|]. split; [destruct P as [P|[]]; exact P|].
      eapply Forall_impl; [|exact Q]. intros g N I. apply N. left. exact I.
    + intros Q. eapply Forall_impl; [|exact Q]. intros g N I. apply N. left. exact I.
  - intros k. eexists. split; [apply (range_right r fs _ f_mime_types k F (rg_mime _ _ R))|apply with_key_first].
  - intros k. eexists. split; [apply (range_right r fs _ f_extensions k F (rg_ext _ _ R))|apply with_key_first].
  - intros k tray. apply (range_right r fs _ f_mime_types k F (rg_mime _ _ R)).
  - intros k tray. apply (range_right r fs _ f_extensions k F (rg_ext _ _ R)).
Qed.

Definition png : format := Format 1 [112; 110; 103]%Z [[46; 112; 110; 103]]%Z [[105; 47; 112]]%Z.
Definition jpeg : format := Format 2 [106; 112; 101; 103]%Z [[46; 106; 112; 103]; [46; 106]]%Z [[105; 47; 106]]%Z.
Definition other : format := Format 3 [106; 120]%Z [[46; 106]; [46; 112; 110; 103]]%Z [[105; 47; 106]; [105; 47; 120]]%Z.

Example registry_lookup_case : exists r, register_from empty_registry [png; jpeg; other] = Some (inr r) /\
  lookup r [106; 120]%Z = Some (Some other) /\ lookup r [106]%Z = Some None /\
  lookup_by_extension r [46; 106]%Z = Some (Some jpeg) /\
  lookup_all_by_extension r [46; 106]%Z [png] = Some [png; jpeg; other] /\
  lookup_all_by_mime_type r [105; 47; 106]%Z [] = Some [jpeg; other] /\
  get_file_format r 2 = Some (Some other) /\ get_file_format r 3 = Some None.
Proof. eexists. split; [vm_compute; reflexivity|]. vm_compute. repeat split. Qed.

(* C204 in full would also say that register_file_format() throws if there is already a format with the same identifier.
   That is false, see below.  What holds is that a format with a new identifier is added, except when the number of
   formats is the maximum, in which case std::length_error is thrown *)
Theorem registry_register_partial : forall fs r f, register_from empty_registry fs = Some (inr r) ->
  ~ In (f_ident f) (map f_ident fs) ->
  ((Z.of_nat (length fs) < 2 ^ 31 - 1)%Z ->
    exists r', register_file_format r f = Some (inr r') /\ register_from empty_registry (fs ++ [f]) = Some (inr r') /\
      get_file_format r' (Z.of_nat (length fs)) = Some (Some f) /\ lookup r' (f_ident f) = Some (Some f)) /\
  (~ (Z.of_nat (length fs) < 2 ^ 31 - 1)%Z -> register_file_format r f = Some (inl TooMany)).
Proof.
  intros fs r f H N. destruct (register_from_inv fs r H) as [R L]. split.
  - intros L1. destruct (register_right r fs f R L1) as (r' & E & R'). exists r'.
    assert (E2 : register_from empty_registry (fs ++ [f]) = Some (inr r')).
    { clear - H E. revert H. generalize empty_registry. induction fs as [|g fs IH]; intros r0 H.
      - cbn in *. injection H as ->. rewrite E. reflexivity.
      - cbn [register_from app] in *. destruct (register_file_format r0 g) as [[e|r1]|]; cbn [obind] in *; try discriminate.
        apply IH. exact H. }
    split; [exact E|]. split; [exact E2|].
    destruct (registry_lookup _ _ E2) as (_ & G & K & _). split.
    + rewrite G. destruct (Z.ltb_spec (Z.of_nat (length fs)) 0); [lia|].
      rewrite Nat2Z.id, nth_error_app2, Nat.sub_diag by lia. reflexivity.
    + destruct (K (f_ident f)) as (res & -> & W). f_equal. unfold is_first in W. destruct res as [g|].
      * destruct W as (a & b & W & P & _).
        assert (I : In g (fs ++ [f])) by (rewrite W; apply in_or_app; right; left; reflexivity).
        apply in_app_or in I. destruct I as [I|[<-|[]]]; [|reflexivity].
        exfalso. apply N. rewrite <- P. apply in_map. exact I.
      * apply Forall_app in W. destruct W as [_ W]. inversion W as [|? ? W1 _]. exfalso. apply W1. reflexivity.
  - intros L1. apply (register_full r fs f R). lia.
Qed.

Example registry_register_case : exists r r', register_from empty_registry [png] = Some (inr r) /\
  ~ In (f_ident jpeg) (map f_ident [png]) /\ register_file_format r jpeg = Some (inr r') /\
  lookup r' (f_ident jpeg) = Some (Some jpeg).
Proof.
  do 2 eexists. split; [vm_compute; reflexivity|]. split; [intros [H|[]]; discriminate|].
  split; vm_compute; reflexivity.
Qed.

(* register_file_format() does not throw when the identifier is taken: the format is added, but cannot be found by its
   identifier *)
Theorem registry_register_refuted : exists fs r r' f g,
  register_from empty_registry fs = Some (inr r) /\ In g fs /\ f_ident f = f_ident g /\ f <> g /\
  register_file_format r f = Some (inr r') /\ get_num_file_formats r' = Some (Z.of_nat (length fs) + 1)%Z /\
  get_file_format r' (Z.of_nat (length fs)) = Some (Some f) /\ lookup r' (f_ident f) = Some (Some g).
Proof.
  exists [png]. do 2 eexists. exists (Format 4 (f_ident png) [] []), png.
  split; [vm_compute; reflexivity|]. split; [left; reflexivity|]. split; [reflexivity|]. split; [discriminate|].
  split; [vm_compute; reflexivity|]. vm_compute. repeat split.
Qed.

Print Assumptions registry_lookup.
Print Assumptions registry_register_partial.
Print Assumptions registry_register_refuted.
