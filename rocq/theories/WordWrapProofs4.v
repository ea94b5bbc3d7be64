(* KnuthWrapper: the initial state, and from saturated sizes to sizes *)
From Coq Require Import ZArith Bool List Lia ZifyBool.
From Verif Require Import ArrLib WordWrapModel WordWrapSpec WordWrapProofs WordWrapProofs2 WordWrapProofs3.
Import ListNotations.
Open Scope Z_scope.

Section Knuth.
  Variables W BW : Z.
  Hypothesis HBW : 1 <= BW.
  Variable words : list word.
  Variable trailing : Z.
  Variable geometry : list geom.
  Variable first : nat.
  Hypothesis Hwords : Forall (fun w => 0 <= space_size w <= size_max W /\ 0 <= word_size w <= size_max W) words.
  Hypothesis Htr : 0 <= trailing <= size_max W.
  Hypothesis Hgeom : Forall (fun g => 0 <= line_size g <= size_max W /\ (next_geometry_index g < length geometry)%nat) geometry.
  Hypothesis Hfirst : (first < length geometry)%nat.
  Hypothesis Htwo : (2 <= length words)%nat.

  Let n := length words.
  Let sp := space_of words.
  Let sz := size_of words.
  Hypothesis Hexact : (sp 0%nat + sz 0%nat <= size_max W /\ sz (n - 1)%nat + trailing <= size_max W) \/
    Forall (fun g => line_size g < size_max W) geometry.

  Definition adj (i : nat) : Z := match nth_error words i with Some w => adjusted_size W words trailing i w | None => 0 end.
  Definition L (g : nat) : Z := match nth_error geometry g with Some x => line_size x | None => 0 end.
  Definition nx (g : nat) : nat := match nth_error geometry g with Some x => next_geometry_index x | None => 0%nat end.
  Fixpoint it (g k : nat) : nat := match k with O => g | S k => nx (it g k) end.

  Lemma word_range i w : nth_error words i = Some w -> 0 <= space_size w <= size_max W /\ 0 <= word_size w <= size_max W.
  Proof. intros H. apply nth_error_In in H. rewrite Forall_forall in Hwords. auto. Qed.

  Lemma sp_nonneg i : 0 <= sp i.
  Proof. unfold sp, space_of. destruct (nth_error words i) eqn:E; [apply word_range in E; lia|lia]. Qed.
  Lemma sz_range i : 0 <= sz i <= size_max W.
  Proof. unfold sz, size_of. destruct (nth_error words i) eqn:E; [apply word_range in E; lia|lia]. Qed.

  Lemma adj_eq i : (i < n)%nat ->
    adj i = Z.min (size_max W) (sz i + (if Nat.eqb i 0 then sp 0%nat else 0) + (if Nat.eqb (S i) n then trailing else 0)).
  Proof.
    intros Hi. unfold adj. destruct (nth_some words i Hi) as [w Ew]. rewrite Ew. pose proof (word_range _ _ Ew).
    assert (Es : sz i = word_size w) by (unfold sz, size_of; now rewrite Ew).
    unfold adjusted_size, add_sat. fold n.
    destruct (Nat.eqb_spec i 0) as [->|Hi0].
    - assert (Esp : sp 0%nat = space_size w) by (unfold sp, space_of; now rewrite Ew).
      destruct (Nat.eqb_spec 0 (n - 1)); [lia|]. destruct (Nat.eqb_spec 1 n); [lia|].
      destruct (Z.leb_spec (word_size w + space_size w) (size_max W)); lia.
    - destruct (Nat.eqb_spec i (n - 1)); destruct (Nat.eqb_spec (S i) n); try lia.
      destruct (Z.leb_spec (word_size w + trailing) (size_max W)); lia.
  Qed.

  Lemma adj_nonneg i : 0 <= adj i.
  Proof.
    destruct (Nat.lt_ge_cases i n) as [H|H].
    - rewrite adj_eq by assumption. pose proof (sz_range i). pose proof (sp_nonneg 0).
      destruct (Nat.eqb i 0), (Nat.eqb (S i) n); lia.
    - unfold adj. assert (E : nth_error words i = None) by (apply nth_error_None; exact H). rewrite E. lia.
  Qed.

  Notation len := (tsize (sp' words) adj).
  Notation text := (text_size n sp sz trailing).

  (* what is lost by saturation *)
  Definition lost (i j : nat) : Z :=
    (if Nat.eqb i 0 then sp 0%nat + sz 0%nat - adj 0 else 0) +
    (if Nat.eqb j n then sz (n - 1)%nat + trailing - adj (n - 1) else 0).

  Lemma len_lost i j : (i < j <= n)%nat -> text i j = len i j + lost i j /\ 0 <= lost i j /\ (0 < lost i j -> size_max W <= len i j).
  Proof.
    intros [H1 H2].
    assert (E0 : adj 0 = Z.min (size_max W) (sz 0%nat + sp 0%nat)).
    { rewrite adj_eq by lia. destruct (Nat.eqb_spec 1 n); [lia|]. cbn [Nat.eqb]. f_equal. lia. }
    assert (E1 : adj (n - 1) = Z.min (size_max W) (sz (n - 1)%nat + trailing)).
    { rewrite adj_eq by lia. destruct (Nat.eqb_spec (n - 1) 0); [lia|]. replace (S (n - 1)) with n by lia. rewrite Nat.eqb_refl. f_equal. lia. }
    assert (Emid : forall k, k <> 0%nat -> k <> (n - 1)%nat -> (k < n)%nat -> adj k = sz k).
    { intros k Hk0 Hk1 Hk. rewrite adj_eq by lia. pose proof (sz_range k). destruct (Nat.eqb_spec k 0); [lia|]. destruct (Nat.eqb_spec (S k) n); lia. }
    assert (Hsp' : forall k, k <> 0%nat -> sp' words k = sp k) by (intros k Hk; unfold sp'; destruct (Nat.eqb_spec k 0); [lia|reflexivity]).
    (* without the end *)
    assert (Hshort : forall m, (i < m)%nat -> (m < n)%nat -> tsize sp sz i m = len i m + (if Nat.eqb i 0 then sp 0%nat + sz 0%nat - adj 0 else 0)).
    { intros m Hm. induction m as [|m IH]; [lia|]. intros Hmn. destruct (Nat.eq_dec m i) as [->|Hne].
      - rewrite !tsize_one. destruct (Nat.eqb_spec i 0) as [->|]; [unfold sp' at 1; cbn [Nat.eqb]; lia|]. rewrite Emid by lia. lia.
      - rewrite !tsize_step, IH by lia. rewrite (Hsp' m), (Emid m) by lia. lia. }
    assert (Hlong : tsize sp sz i n + trailing = len i n + lost i n).
    { unfold lost. rewrite Nat.eqb_refl. destruct (Nat.eq_dec i (n - 1)) as [->|Hne].
      - replace n with (S (n - 1)) at 2 4 by lia. rewrite !tsize_one. destruct (Nat.eqb_spec (n - 1) 0); lia.
      - replace n with (S (n - 1)) at 1 2 by lia. rewrite !tsize_step, Hshort by lia. rewrite Hsp' by lia. lia. }
    assert (Hlen : forall k, (i < k <= j)%nat -> len i k <= len i j).
    { intros k Hk. apply len_mono; [exact adj_nonneg| |exact Hk]. intros x w Hx. apply word_range in Hx. lia. }
    pose proof (sz_range 0). pose proof (sp_nonneg 0). pose proof (sz_range (n - 1)).
    assert (Hhead : i = 0%nat -> adj 0 <= len i j).
    { intros ->. specialize (Hlen 1%nat ltac:(lia)). rewrite tsize_one in Hlen. unfold sp' at 1 in Hlen. cbn [Nat.eqb] in Hlen. lia. }
    assert (Htail : j = n -> adj (n - 1) <= len i j).
    { intros ->. destruct (Nat.eq_dec i (n - 1)) as [->|Hne].
      - replace n with (S (n - 1)) at 3 by lia. rewrite tsize_one. destruct (Nat.eqb_spec (n - 1) 0); lia.
      - replace n with (S (n - 1)) at 2 by lia. rewrite tsize_step by lia. rewrite Hsp' by lia.
        assert (0 <= len i (n - 1)).
        { apply tsize_nonneg; [|exact adj_nonneg|lia]. intros k. apply sp'_nonneg. intros x w Hx. apply word_range in Hx. lia. }
        pose proof (sp_nonneg (n - 1)). lia. }
    split; [|split].
    - rewrite text_size_tsize. destruct (Nat.eqb_spec j n) as [->|Hj]; [exact Hlong|].
      rewrite Hshort by lia. unfold lost. destruct (Nat.eqb_spec j n); lia.
    - unfold lost. destruct (Nat.eqb i 0), (Nat.eqb j n); lia.
    - unfold lost. intros Hl. destruct (Nat.eqb_spec i 0), (Nat.eqb_spec j n); try lia.
  Qed.

  Lemma geom_range g x : nth_error geometry g = Some x -> 0 <= line_size x <= size_max W /\ (next_geometry_index x < length geometry)%nat.
  Proof. intros H. apply nth_error_In in H. rewrite Forall_forall in Hgeom. auto. Qed.

  Lemma it_range g k : (g < length geometry)%nat -> (it g k < length geometry)%nat.
  Proof.
    intros H. induction k as [|k IH]; [assumption|]. cbn [it]. unfold nx. destruct (nth_some geometry _ IH) as [x E]. rewrite E.
    apply geom_range in E. lia.
  Qed.

  Lemma it_shift g k : it (nx g) k = it g (S k).
  Proof. induction k as [|k IH]; [reflexivity|]. cbn [it] in *. now rewrite IH. Qed.

  Lemma line_sizes_it k : forall g, (g < length geometry)%nat -> line_sizes (table_of geometry) g k = L (it g k).
  Proof.
    induction k as [|k IH]; intros g Hg; destruct (nth_some geometry g Hg) as [x E]; pose proof (geom_range _ _ E).
    - cbn [line_sizes it]. unfold table_of, L. rewrite nth_error_map, E. reflexivity.
    - cbn [line_sizes]. unfold table_of at 1. rewrite nth_error_map, E. cbn [option_map].
      rewrite IH by lia. rewrite <- it_shift. unfold nx at 1. now rewrite E.
  Qed.

  Notation line := (line_sizes (table_of geometry) first).

  Lemma same_line k i j : (i < j <= n)%nat ->
    (fitA words adj (L (it first k)) i j <-> fits n sp sz trailing (line k) i j) /\
    cost words adj (L (it first k)) i j = gap n sp sz trailing (line k) i j.
  Proof.
    intros Hij. rewrite line_sizes_it by assumption. set (l := L (it first k)).
    destruct (len_lost i j Hij) as (E & Hl & Hs).
    assert (Hcase : text i j = len i j \/ (l < len i j /\ l < text i j)).
    { destruct (Z.eq_dec (lost i j) 0); [left; lia|]. specialize (Hs ltac:(lia)). destruct Hexact as [[H0 H1]|Hall].
      - exfalso.
        assert (E0 : adj 0 = Z.min (size_max W) (sz 0%nat + sp 0%nat)).
        { rewrite adj_eq by lia. destruct (Nat.eqb_spec 1 n); [lia|]. cbn [Nat.eqb]. f_equal. lia. }
        assert (E1 : adj (n - 1) = Z.min (size_max W) (sz (n - 1)%nat + trailing)).
        { rewrite adj_eq by lia. destruct (Nat.eqb_spec (n - 1) 0); [lia|]. replace (S (n - 1)) with n by lia. rewrite Nat.eqb_refl. f_equal. lia. }
        unfold lost in *. destruct (Nat.eqb i 0), (Nat.eqb j n); lia.
      - right. assert (l < size_max W); [|lia]. unfold l, L. pose proof (it_range first k Hfirst) as Hr.
        destruct (nth_some geometry _ Hr) as [x Ex]. rewrite Ex. apply nth_error_In in Ex. rewrite Forall_forall in Hall. auto. }
    unfold fitA, cost, fits, gap. destruct Hcase as [->|[Ha Hb]].
    - split; [tauto|]. destruct (_ <=? _); [|reflexivity]. now rewrite Z.pow_2_r.
    - split; [lia|]. destruct (Z.leb_spec (len i j) l); [lia|]. destruct (Z.leb_spec (text i j) l); [lia|]. reflexivity.
  Qed.

  Notation lay := (lay words adj L nx).
  Notation layout := (layout n sp sz trailing line).

  Lemma layout_lay k i l c : layout k i l c -> lay (it first k) i l c.
  Proof.
    induction 1 as [k i Hi Hf|k i j l c Hij Hf Hl IH].
    - constructor; [assumption|]. apply same_line; [fold n; lia|assumption].
    - rewrite <- (proj2 (same_line k i j ltac:(lia))). constructor; [assumption| |exact IH].
      apply same_line; [lia|assumption].
  Qed.

  Lemma lay_layout g i l c : lay g i l c -> forall k, g = it first k -> layout k i l c.
  Proof.
    induction 1 as [g i Hi Hf|g i j l c Hij Hf Hl IH]; intros k ->.
    - constructor; [assumption|]. apply same_line; [fold n in Hi; lia|assumption].
    - fold n in Hij. rewrite (proj2 (same_line k i j ltac:(lia))). constructor; [assumption| |exact (IH (S k) eq_refl)].
      apply same_line; [lia|assumption].
  Qed.

  Lemma init_lines m : forall g mx, (1 <= m)%nat -> (g < length geometry)%nat -> (mx < length geometry)%nat ->
    exists slots mx', init_line_slots geometry m g mx = Some (slots, mx') /\ length slots = m /\ (mx <= mx' < length geometry)%nat /\
      (forall k s, nth_error slots k = Some s -> ls_geom_index s = it g k /\ ls_size s = L (it g k)) /\
      (forall k, (1 <= k < m)%nat -> (it g k <= mx')%nat).
  Proof.
    induction m as [|m IH]; intros g mx Hm Hg Hmx; [lia|]. cbn [init_line_slots].
    destruct (nth_some geometry g Hg) as [x E]. rewrite E. cbn [obind]. pose proof (geom_range _ _ E) as Hx.
    assert (EL : L g = line_size x) by (unfold L; now rewrite E).
    assert (En : nx g = next_geometry_index x) by (unfold nx; now rewrite E).
    destruct m as [|m].
    - eexists _, mx. split; [reflexivity|]. split; [reflexivity|]. split; [lia|]. split; [|intros k Hk; lia].
      intros [|[|k]] s Hs; cbn in Hs; try discriminate. injection Hs as <-. cbn. auto.
    - set (mx1 := if (mx <? next_geometry_index x)%nat then next_geometry_index x else mx).
      assert (Hmx1 : (mx <= mx1 < length geometry)%nat /\ (next_geometry_index x <= mx1)%nat).
      { unfold mx1. destruct (Nat.ltb_spec mx (next_geometry_index x)); lia. }
      destruct (IH (next_geometry_index x) mx1) as (slots & mx' & Ei & Hlen & Hr & Hs & Hk); try lia.
      rewrite Ei. cbn [obind]. eexists _, mx'. split; [reflexivity|]. split; [cbn [length]; lia|]. split; [lia|]. split.
      + intros [|k] s Hn.
        * cbn in Hn. injection Hn as <-. cbn. auto.
        * cbn [nth_error] in Hn. apply Hs in Hn. rewrite <- En, it_shift in Hn. exact Hn.
      + intros [|k] Hkk; [lia|]. rewrite <- it_shift, En. destruct k as [|k]; [cbn [it]; lia|]. apply Hk. lia.
  Qed.

  Lemma init_words ws : forall i, skipn i words = ws ->
    length (init_word_slots W words trailing i ws) = length ws /\
    forall k s, nth_error (init_word_slots W words trailing i ws) k = Some s -> ws_word_size s = adj (i + k).
  Proof.
    induction ws as [|w ws IH]; intros i H; cbn [init_word_slots length].
    - split; [reflexivity|]. intros [|]; discriminate.
    - assert (Hi : nth_error words i = Some w).
      { rewrite <- (firstn_skipn i words) at 1. assert (i < n)%nat.
        { destruct (Nat.lt_ge_cases i n); [assumption|]. rewrite skipn_all2 in H by assumption. discriminate. }
        rewrite nth_error_app2; rewrite firstn_length_le by (fold n; lia); [|lia]. rewrite Nat.sub_diag, H. reflexivity. }
      destruct (IH (S i)) as [Hl Hk].
      { rewrite (nth_skipn_cons _ _ _ Hi) in H. congruence. }
      split; [now rewrite Hl|]. intros [|k] s Hs.
      + cbn in Hs. injection Hs as <-. cbn. unfold adj. rewrite Nat.add_0_r, Hi. reflexivity.
      + cbn [nth_error] in Hs. apply Hk in Hs. now rewrite Nat.add_succ_r.
  Qed.

  Lemma knuth_ok m_badness : exists fuel0 r,
    (forall fuel, (fuel0 <= fuel)%nat -> knuth_wrap W BW words fuel m_badness trailing geometry first = Some r) /\
    match r with
    | Wrapped l b => optimal n sp sz trailing line l b /\ b < badness_max BW
    | Overflow => (forall l c, layout 0 0 l c -> badness_max BW <= c) \/ size_max W < Z.of_nat n * Z.of_nat (length geometry)
    end.
  Proof.
    destruct (init_lines n first 0) as (slots & mx & Ei & Hlen & Hmx & Hs & Hk); try lia.
    destruct (init_words words 0 eq_refl) as [Hwl Hwk].
    destruct (Z.gtb_spec (Z.of_nat n * Z.of_nat (S mx)) (size_max W)) as [Hov|Hov].
    - exists 0%nat, Overflow. split.
      + intros fuel _. unfold knuth_wrap. fold n. destruct (Nat.ltb_spec n 2); [lia|]. rewrite Ei. cbn [obind].
        destruct (Z.gtb_spec (Z.of_nat n * Z.of_nat (S mx)) (size_max W)); [reflexivity|lia].
      + right. nia.
    - destruct (nth_some slots 0) as [line0 E0]; [lia|].
      set (line0' := LineSlot (ls_size line0) (ls_geom_index line0) 0 (ls_badness line0) (ls_result_index line0)).
      destruct (set_nth_lt slots 0 line0') as [slots' Es]; [lia|].
      destruct (search BW HBW words adj adj_nonneg (fun i w H => proj1 (proj1 (word_range i w H))) (S mx) L nx (it first) (fun k => eq_refl)) with
        (wss := init_word_slots W words trailing 0 words) (lss := slots') (lsz := 0) (cur := 0)
        as (fuel0 & s & x & Hrun & Hx & Hlow & Hkind).
      + intros k Hkr. specialize (Hk k Hkr). lia.
      + lia.
      + split; [rewrite (set_nth_length _ _ _ _ Es); exact Hlen|]. intros k sl Hsl.
        rewrite (nth_error_set_nth _ _ _ _ k Es) in Hsl. destruct (Nat.eqb_spec k 0) as [->|]; [|auto].
        injection Hsl as <-. apply Hs in E0. exact E0.
      + exists line0'. split; [apply (nth_set_same _ _ _ _ Es)|reflexivity].
      + split; [exact Hwl|]. exact Hwk.
      + assert (Hlow' : forall l c, layout 0 0 l c -> res_badness x <= c).
        { intros l c Hl. apply layout_lay in Hl. exact (Hlow l c Hl). }
        assert (Hrun' : forall fuel, (fuel0 <= fuel)%nat -> knuth_wrap W BW words fuel m_badness trailing geometry first =
          match res_kind x with
          | Indefinite => Some Overflow
          | Definite i => let? l := gather n (breakpoints s) i in Some (Wrapped l (res_badness x))
          end).
        { intros fuel Hf. unfold knuth_wrap. fold n. destruct (Nat.ltb_spec n 2); [lia|]. rewrite Ei. cbn [obind].
          destruct (Z.gtb_spec (Z.of_nat n * Z.of_nat (S mx)) (size_max W)); [lia|]. rewrite E0. cbn [obind].
          fold line0'. rewrite Es. cbn [obind]. unfold n. rewrite Hrun by assumption. cbn [obind]. rewrite Hx. reflexivity. }
        destruct (res_kind x) as [|i].
        * exists fuel0, Overflow. split; [exact Hrun'|]. left. rewrite <- Hkind. exact Hlow'.
        * destruct Hkind as (l & Hg & Hl & Hlt). exists fuel0, (Wrapped l (res_badness x)). split.
          -- intros fuel Hf. rewrite Hrun' by assumption. fold n in Hg. rewrite Hg. reflexivity.
          -- split; [|assumption]. split; [|assumption]. apply (lay_layout _ _ _ _ Hl). reflexivity.
  Qed.
End Knuth.
