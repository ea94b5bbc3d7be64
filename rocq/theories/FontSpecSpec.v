(* Specification vocabulary for C163 to C167: the format of the specification file of the fallback font. *)
From Coq Require Import ZArith List Sorted.
From Verif Require Import IntTextSpec PixelBoxModel TextParseSpec FontSpecModel.
Import ListNotations.
Open Scope Z_scope.

(* words *)
Definition int_word (w : list Z) (v : Z) : Prop := numeral OnlyMinus 10 w v /\ - 2 ^ 31 <= v < 2 ^ 31.
Definition bool_word (w : list Z) (b : bool) : Prop := exists v, numeral NoSign 10 w v /\ ((v = 0 /\ b = false) \/ (v = 1 /\ b = true)).
Definition cp_word (w : list Z) (cp : Z) : Prop := numeral NoSign 10 w cp /\ cp < 2 ^ 32 - 1.
Definition range_word (w : list Z) (r : Z * Z) : Prop :=
  (cp_word w (fst r) /\ snd r = fst r) \/
  exists u v, w = u ++ 45 :: v /\ cp_word u (fst r) /\ cp_word v (snd r) /\ fst r <= snd r.

(* the words of a line *)
Definition line_words (c : list Z) (words : list (list Z)) : Prop := exists ws, words_of 32 c ws /\ words = map fst ws.

(* c is what is before the comment, if any *)
Definition before_comment (line c : list Z) : Prop :=
  (c = line /\ ~ In 35 line) \/ exists r, line = c ++ 35 :: r /\ ~ In 35 c.
Definition blank (c : list Z) : Prop := Forall (fun ch => ch = 32) c.

(* the lines that are not blank, without comments *)
Inductive contents : list (list Z) -> list (list Z) -> Prop :=
| contents_nil : contents [] []
| contents_blank line c lines cs : before_comment line c -> blank c -> contents lines cs -> contents (line :: lines) cs
| contents_line line c lines cs : before_comment line c -> ~ blank c -> contents lines cs -> contents (line :: lines) (c :: cs).

(* n is the line without leading and trailing spaces *)
Definition trimmed (c n : list Z) : Prop :=
  exists a b x y, c = a ++ n ++ b /\ blank a /\ blank b /\ hd_error n = Some x /\ x <> 32 /\ hd_error (rev n) = Some y /\ y <> 32.

Section File.
Context {F : Type} (parse_float : list Z -> option F).

Definition ranges_line (c : list Z) (rs : list (Z * Z)) : Prop :=
  exists words, line_words c words /\ Forall2 range_word words rs /\ rs <> [] /\ StronglySorted (fun r s => snd r < fst s) rs.

Definition metrics_line (c : list Z) (m : metrics F) : Prop :=
  exists w0 w1 w2 w3 w4 w5 w6 w7 w8 w9 w10, line_words c [w0; w1; w2; w3; w4; w5; w6; w7; w8; w9; w10] /\
    int_word w0 (width (image_size m)) /\ int_word w1 (height (image_size m)) /\
    bool_word w2 (fst (fst (style m))) /\ bool_word w3 (snd (fst (style m))) /\ bool_word w4 (snd (style m)) /\
    parse_float w5 = Some (fst (render_size m)) /\ parse_float w6 = Some (snd (render_size m)) /\
    int_word w7 (fst (horz_baseline m)) /\ int_word w8 (snd (horz_baseline m)) /\
    int_word w9 (fst (vert_baseline m)) /\ int_word w10 (snd (vert_baseline m)).

Definition glyph_line (c : list Z) (g : glyph) (cps : list Z) : Prop :=
  exists w0 w1 w2 w3 w4 w5 w6 w7 w8 w9 words, line_words c (w0 :: w1 :: w2 :: w3 :: w4 :: w5 :: w6 :: w7 :: w8 :: w9 :: words) /\
    int_word w0 (px (bpos (g_box g))) /\ int_word w1 (py (bpos (g_box g))) /\
    int_word w2 (width (bsize (g_box g))) /\ int_word w3 (height (bsize (g_box g))) /\
    int_word w4 (fst (horz_bearing g)) /\ int_word w5 (snd (horz_bearing g)) /\
    int_word w6 (fst (vert_bearing g)) /\ int_word w7 (snd (vert_bearing g)) /\
    int_word w8 (horz_advance g) /\ int_word w9 (vert_advance g) /\ Forall2 cp_word words cps.

(* the box does not extend beyond the image *)
Definition in_image (sz : size) (b : box) : Prop :=
  0 <= px (bpos b) /\ width (bsize b) <= width sz /\ px (bpos b) + width (bsize b) <= width sz /\
  0 <= py (bpos b) /\ height (bsize b) <= height sz /\ py (bpos b) + height (bsize b) <= height sz.

(* glyph lines; the first is that of the fallback glyph, which has no code points, while all others do *)
Inductive glyph_lines (sz : size) : bool -> list (list Z) -> list (glyph * list Z) -> Prop :=
| glyph_lines_nil first : glyph_lines sz first [] []
| glyph_lines_cons (first : bool) c cs g cps es : glyph_line c g cps -> in_image sz (g_box g) -> 0 <= horz_advance g -> 0 <= vert_advance g ->
    (if first then cps = [] else cps <> []) -> glyph_lines sz false cs es -> glyph_lines sz first (c :: cs) ((g, cps) :: es).

(* code points as values of the signed type wchar_t *)
Definition as_wchar (cp : Z) : Z := if cp <? 2 ^ 31 then cp else cp - 2 ^ 32.

(* from characters to indexes of glyphs *)
Fixpoint code_map (i : nat) (es : list (glyph * list Z)) : list (Z * nat) :=
  match es with
  | [] => []
  | (g, cps) :: es => map (fun cp => (as_wchar cp, i)) cps ++ code_map (S i) es
  end.

(* the file specifies the font, with these glyphs and their code points *)
Definition font_entries (lines : list (list Z)) (fs : font_spec F) (es : list (glyph * list Z)) : Prop :=
  exists c0 c1 c2 cs, contents lines (c0 :: c1 :: c2 :: cs) /\
    trimmed c0 (fs_family_name fs) /\ ranges_line c1 (fs_ranges fs) /\ metrics_line c2 (fs_metrics fs) /\
    glyph_lines (image_size (fs_metrics fs)) true cs es /\ es <> [] /\ NoDup (concat (map snd es)) /\
    fs_glyphs fs = map fst es /\ fs_glyph_map fs = code_map 0 es.

Definition font_file (lines : list (list Z)) (fs : font_spec F) : Prop := exists es, font_entries lines fs es.
End File.

(* a line whose third or fourth word is a negative number: a glyph of negative width or height *)
Definition negative_size (c : list Z) : Prop :=
  exists g cps, glyph_line c g cps /\ (width (bsize (g_box g)) < 0 \/ height (bsize (g_box g)) < 0).
