(* Lemmas about the model of uninitialised memory. *)
From Coq Require Import List Arith Lia.
From Verif Require Import ArrLib BufferModel UninitModel.
Import ListNotations.

Section Uninit.
Context {T : Type}.
Notation mem := (list (option T)).
Notation free n := (repeat (@None T) n).
Notation live xs := (map (@Some T) xs).

Lemma nth_error_mid {A} (a : list A) x b : nth_error (a ++ x :: b) (length a) = Some x.
Proof. rewrite nth_error_app2 by lia. now rewrite Nat.sub_diag. Qed.

Lemma create_mid (a b : mem) x p : p = length a ->
  create (a ++ None :: b) p x = Some (a ++ Some x :: b).
Proof. intros ->. unfold create. rewrite nth_error_mid. apply set_nth_app. Qed.

Lemma kill_mid (a b : mem) x p : p = length a -> kill (a ++ Some x :: b) p = Some (a ++ None :: b).
Proof. intros ->. unfold kill. rewrite nth_error_mid. apply set_nth_app. Qed.

Lemma fetch_mid (a b : mem) x p : p = length a -> fetch (a ++ Some x :: b) p = Some x.
Proof. intros ->. unfold fetch. now rewrite nth_error_mid. Qed.

Lemma snoc_cons {A} (a : list A) x b : (a ++ [x]) ++ b = a ++ x :: b.
Proof. now rewrite <- app_assoc. Qed.

Lemma len_snoc {A} (a : list A) x : length (a ++ [x]) = S (length a).
Proof. rewrite app_length. cbn. lia. Qed.

Lemma repeat_snoc {A} (x : A) n : repeat x n ++ [x] = x :: repeat x n.
Proof. induction n; [reflexivity|]. cbn. now rewrite IHn. Qed.

Lemma destroy_mid xs : forall (a b : mem) p n, p = length a -> n = length xs ->
  uninit_destroy (a ++ live xs ++ b) p n = Some (a ++ free n ++ b).
Proof.
  induction xs as [|x xs IH]; intros a b p n -> ->; [reflexivity|]. cbn [length map app uninit_destroy].
  rewrite kill_mid by reflexivity. cbn [obind]. rewrite <- snoc_cons.
  rewrite IH by (rewrite ?len_snoc; reflexivity). now rewrite snoc_cons.
Qed.

Lemma destroy_back_mid xs : forall (a b : mem) p n, p = length a -> n = length xs ->
  destroy_back (a ++ live xs ++ b) p n = Some (a ++ free n ++ b).
Proof.
  induction xs as [|x xs IH] using rev_ind; intros a b p n -> ->; [reflexivity|].
  rewrite len_snoc. cbn [destroy_back]. rewrite map_app. cbn [map].
  replace (a ++ (live xs ++ [Some x]) ++ b) with ((a ++ live xs) ++ Some x :: b) by (rewrite <- !app_assoc; reflexivity).
  rewrite kill_mid by (rewrite app_length, map_length; lia). cbn [obind].
  rewrite <- app_assoc. rewrite IH by reflexivity. do 2 f_equal.
  rewrite <- snoc_cons, repeat_snoc. reflexivity.
Qed.

(* the values of the constructors, if none throws *)
Definition seq_all (l : list (option T)) : option (list T) :=
  fold_right (fun o r => match o, r with Some x, Some r => Some (x :: r) | _, _ => None end) (Some []) l.

Lemma seq_all_some xs : seq_all (live xs) = Some xs.
Proof. induction xs as [|x xs IH]; [reflexivity|]. cbn. fold (seq_all (live xs)). now rewrite IH. Qed.

Lemma seq_all_length l xs : seq_all l = Some xs -> length l = length xs.
Proof.
  revert xs. induction l as [|[x|] l IH]; intros xs H; cbn in H; [now inversion H| |discriminate].
  fold (seq_all l) in H. destruct (seq_all l); [|discriminate]. inversion H; subst. cbn. now rewrite (IH l0).
Qed.

Lemma fill_loop_mid n : forall (a b : mem) ys make p i, p = length a -> i = length ys ->
  safe_fill_loop (a ++ live ys ++ free n ++ b) n make p i =
    match seq_all (map make (seq i n)) with
    | Some xs => Done (a ++ live ys ++ live xs ++ b)
    | None => Throw (a ++ free i ++ free n ++ b)
    end.
Proof.
  induction n as [|n IH]; intros a b ys make p i -> ->; [reflexivity|].
  cbn [safe_fill_loop seq map seq_all fold_right repeat app]. fold (seq_all (map make (seq (S (length ys)) n))).
  destruct (make (length ys)) as [x|].
  - rewrite (app_assoc a). rewrite create_mid by (rewrite app_length, map_length; lia).
    rewrite <- (app_assoc a), <- (snoc_cons (live ys)).
    replace (live ys ++ [Some x]) with (live (ys ++ [x])) by (now rewrite map_app).
    rewrite IH by (rewrite ?len_snoc; reflexivity).
    destruct (seq_all _); [rewrite map_app, <- !app_assoc; reflexivity|]. cbn [repeat app]. do 2 f_equal.
    rewrite <- (snoc_cons (free _)), repeat_snoc. reflexivity.
  - now rewrite destroy_back_mid by reflexivity.
Qed.

Lemma fill_mid n (a b : mem) make p : p = length a ->
  uninit_safe_fill (a ++ free n ++ b) n make p =
    match seq_all (map make (seq 0 n)) with
    | Some xs => Done (a ++ live xs ++ b)
    | None => Throw (a ++ free n ++ b)
    end.
Proof. intros H. exact (fill_loop_mid n a b [] make p 0 H eq_refl). Qed.

Lemma copy_loop_mid src : forall (a b : mem) ys p i, p = length a -> i = length ys ->
  safe_copy_loop (a ++ live ys ++ free (length src) ++ b) src p i =
    match seq_all src with
    | Some xs => Done (a ++ live ys ++ live xs ++ b)
    | None => Throw (a ++ free i ++ free (length src) ++ b)
    end.
Proof.
  induction src as [|[x|] src IH]; intros a b ys p i -> ->; [reflexivity| |].
  - cbn [safe_copy_loop length seq_all fold_right repeat app]. fold (seq_all src).
    rewrite (app_assoc a). rewrite create_mid by (rewrite app_length, map_length; lia).
    rewrite <- (app_assoc a), <- (snoc_cons (live ys)).
    replace (live ys ++ [Some x]) with (live (ys ++ [x])) by (now rewrite map_app).
    rewrite IH by (rewrite ?len_snoc; reflexivity).
    destruct (seq_all _); [rewrite map_app, <- !app_assoc; reflexivity|]. cbn [repeat app]. do 2 f_equal.
    rewrite <- (snoc_cons (free _)), repeat_snoc. reflexivity.
  - cbn [safe_copy_loop length seq_all fold_right repeat app].
    now rewrite destroy_mid by reflexivity.
Qed.

Lemma copy_mid src (a b : mem) p : p = length a ->
  uninit_safe_copy (a ++ free (length src) ++ b) src p =
    match seq_all src with
    | Some xs => Done (a ++ live xs ++ b)
    | None => Throw (a ++ free (length src) ++ b)
    end.
Proof. intros H. exact (copy_loop_mid src a b [] p 0 H eq_refl). Qed.

Lemma move_mid xs : forall (a b c d : mem) p q n, p = length a -> q = length c -> n = length xs ->
  uninit_safe_move (a ++ live xs ++ b) p n (c ++ free n ++ d) q =
    Some (a ++ free n ++ b, c ++ live xs ++ d).
Proof.
  induction xs as [|x xs IH]; intros a b c d p q n -> -> ->; [reflexivity|].
  cbn [length repeat map app uninit_safe_move].
  rewrite fetch_mid by reflexivity. cbn [obind]. rewrite create_mid by reflexivity. cbn [obind].
  rewrite kill_mid by reflexivity. cbn [obind]. rewrite <- (snoc_cons a), <- (snoc_cons c).
  rewrite IH by (rewrite ?len_snoc; reflexivity). now rewrite !snoc_cons.
Qed.

Lemma move_down_loop_mid xs : forall (a b : mem) d p q n, q = length a -> p = q + S d -> n = length xs ->
  move_down_loop (a ++ free (S d) ++ live xs ++ b) p q n =
    Some (a ++ live xs ++ free (S d) ++ b).
Proof.
  induction xs as [|x xs IH]; intros a b d p q n -> -> ->.
  - cbn [length move_down_loop map app]. reflexivity.
  - cbn [length map app move_down_loop].
    rewrite (app_assoc a). rewrite fetch_mid by (rewrite app_length, repeat_length; lia). cbn [obind].
    rewrite <- (app_assoc a). cbn [repeat app]. rewrite create_mid by reflexivity. cbn [obind].
    assert (Hk : kill (a ++ Some x :: free d ++ Some x :: live xs ++ b) (length a + S d) =
                 Some ((a ++ [Some x]) ++ free (S d) ++ live xs ++ b)).
    { rewrite <- snoc_cons. rewrite (app_assoc (a ++ [Some x])).
      rewrite kill_mid by (rewrite app_length, len_snoc, repeat_length; lia).
      rewrite <- (app_assoc (a ++ [Some x])). do 2 f_equal. rewrite <- snoc_cons.
      rewrite repeat_snoc. reflexivity. }
    rewrite Hk. cbn [obind]. rewrite IH by (rewrite ?len_snoc; lia).
    now rewrite snoc_cons.
Qed.

Lemma move_down_mid xs (a b : mem) d p n : 0 < d -> p = length a + d -> n = length xs ->
  uninit_move_downwards (a ++ free d ++ live xs ++ b) p n d =
    Some (a ++ live xs ++ free d ++ b).
Proof.
  intros Hd -> ->. unfold uninit_move_downwards.
  replace (d <=? length a + d) with true by (symmetry; apply Nat.leb_le; lia). rewrite Bool.orb_true_r.
  destruct d as [|d]; [lia|]. apply move_down_loop_mid; lia.
Qed.

Lemma move_up_mid xs : forall (a b : mem) d p n, 0 < d -> p = length a -> n = length xs ->
  uninit_move_upwards (a ++ live xs ++ free d ++ b) p n d =
    Some (a ++ free d ++ live xs ++ b).
Proof.
  induction xs as [|x xs IH] using rev_ind; intros a b d p n Hd -> ->.
  - reflexivity.
  - rewrite len_snoc. cbn [uninit_move_upwards]. rewrite map_app. cbn [map].
    destruct d as [|d]; [lia|].
    assert (E0 : a ++ (live xs ++ [Some x]) ++ free (S d) ++ b
                 = (a ++ live xs) ++ Some x :: free (S d) ++ b) by (rewrite <- !app_assoc; reflexivity).
    rewrite E0. rewrite fetch_mid by (rewrite app_length, map_length; lia). cbn [obind].
    assert (E1 : (a ++ live xs) ++ Some x :: free (S d) ++ b
                 = (a ++ live xs ++ Some x :: free d) ++ None :: b).
    { rewrite <- !app_assoc. cbn [app]. do 3 f_equal. rewrite <- (snoc_cons (free d)).
      rewrite repeat_snoc. reflexivity. }
    rewrite E1. rewrite create_mid by (rewrite !app_length; cbn [length]; rewrite map_length, repeat_length; lia).
    cbn [obind].
    assert (E2 : (a ++ live xs ++ Some x :: free d) ++ Some x :: b
                 = (a ++ live xs) ++ Some x :: free d ++ Some x :: b) by (rewrite <- !app_assoc; reflexivity).
    rewrite E2. rewrite kill_mid by (rewrite app_length, map_length; lia). cbn [obind].
    assert (E3 : (a ++ live xs) ++ None :: free d ++ Some x :: b
                 = a ++ live xs ++ free (S d) ++ Some x :: b) by (rewrite <- !app_assoc; reflexivity).
    rewrite E3. rewrite IH by lia. do 3 f_equal. rewrite <- !app_assoc. reflexivity.
Qed.

(* constructing past the end of the memory is an error *)
Lemma fill_oob n : forall (m : mem) make p i, length m < p + i + n -> 0 < n -> (forall k, make k <> None) ->
  safe_fill_loop m n make p i = UB.
Proof.
  induction n as [|n IH]; intros m make p i H Hn Hm; [lia|]. cbn [safe_fill_loop].
  destruct (make i) as [x|] eqn:Ex; [|now apply Hm in Ex].
  destruct (create m (p + i) x) as [m'|] eqn:E; [|reflexivity].
  unfold create in E. destruct (nth_error m (p + i)) as [[?|]|]; try discriminate.
  pose proof (set_nth_length _ _ _ _ E). apply set_nth_inv in E. destruct E as [Hp _].
  destruct n as [|n]; [lia|]. apply IH; [lia|lia|exact Hm].
Qed.

End Uninit.
