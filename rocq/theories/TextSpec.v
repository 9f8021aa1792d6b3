(** What drawing text promises. *)
From Coq Require Import Reals.
From Flocq Require Import Core BinarySingleNaN.
From Verif Require Import Base Float WuSpec TextModel.
Open Scope Z_scope.

(** [typeset F pen prev text gs pen']: starting with the pen at [pen] and [prev]
    the last glyph that was not blank, the characters of [text] give the glyphs
    [gs], each placed at the pen on the base line, and the pen ends at [pen'].
    After each character the pen moves by its advance, and by a kerning term
    between it and the previous non-blank glyph. *)
Inductive typeset {C G} (F : font C G) : f32 -> option G -> list C -> list glyph -> f32 -> Prop :=
| typeset_end pen prev : typeset F pen prev [] [] pen
| typeset_blank pen prev c text gs pen' :
    outline F (glyph_id F c) (pen, ascent F) = None ->
    typeset F (fadd pen (h_advance F (glyph_id F c))) prev text gs pen' ->
    typeset F pen prev (c :: text) gs pen'
| typeset_first pen c g text gs pen' :
    outline F (glyph_id F c) (pen, ascent F) = Some g ->
    typeset F (fadd pen (h_advance F (glyph_id F c))) (Some (glyph_id F c)) text gs pen' ->
    typeset F pen None (c :: text) (g :: gs) pen'
| typeset_next pen p c g text gs pen' :
    outline F (glyph_id F c) (pen, ascent F) = Some g ->
    typeset F (fadd (fadd pen (h_advance F (glyph_id F c))) (kern F (glyph_id F c) p)) (Some (glyph_id F c)) text gs pen' ->
    typeset F pen (Some p) (c :: text) (g :: gs) pen'.

(** the text set from the origin *)
Definition set_text {C G} (F : font C G) (text : list C) (gs : list glyph) (pen : f32) : Prop :=
  typeset F (of_int 0) None text gs pen.

(** A glyph as a rasteriser delivers it: finite corner and coverage, of
    moderate size. *)
Definition sane_glyph (g : glyph) : Prop :=
  is_finite (fst (g_min g)) = true /\ is_finite (snd (g_min g)) = true /\
  (Rabs (B2R (fst (g_min g))) <= IZR (2 ^ 28))%R /\ (Rabs (B2R (snd (g_min g))) <= IZR (2 ^ 28))%R /\
  forall gx gy v, In (gx, gy, v) (g_cover g) -> 0 <= gx < 2 ^ 28 /\ 0 <= gy < 2 ^ 28 /\ is_finite v = true.

(** The covered image positions and their coverage, in drawing order: the
    glyph's corner is rounded to the nearest pixel. *)
Definition stamps (x y : Z) (gs : list glyph) : list (Z * Z * f32) :=
  flat_map (fun g => map (fun '(gx, gy, v) =>
    (x + ZnearestA (B2R (fst (g_min g))) + gx, y + ZnearestA (B2R (snd (g_min g))) + gy, v)) (g_cover g)) gs.

(** the coverages that fall on position (X, Y) *)
Definition covers (X Y : Z) (l : list (Z * Z * f32)) : list f32 :=
  map snd (filter (fun s => (fst (fst s) =? X) && (snd (fst s) =? Y)) l).

(** the coverage as a fraction *)
Definition fraction (v : f32) : R := Rmin 1 (Rmax 0 (B2R v)).

(** [q] is [p] covered by [col] with coverage [v]: every channel is the mix of
    both up to rounding, at most one below the range they span; exactly [p]
    without coverage and exactly [col] with full coverage. *)
Definition covered (col : list Z) (v : f32) (p q : list Z) : Prop :=
  zlen q = zlen p /\
  forall i a c b, znth p i = Some a -> znth col i = Some c -> znth q i = Some b ->
    Z.min a c - 1 <= b <= Z.max a c /\
    (mix c a (fraction v) - (1 + / 32) <= IZR b <= mix c a (fraction v) + / 32)%R /\
    (fraction v = 0%R -> b = a) /\ (fraction v = 1%R -> b = c).

(** covered several times in a row *)
Inductive painted (col : list Z) : list f32 -> list Z -> list Z -> Prop :=
| painted_none p : painted col [] p p
| painted_more v vs p q r : covered col v p q -> painted col vs q r -> painted col (v :: vs) p r.

(** pixels of [n] channels with values up to [hi] *)
Definition good_pixel (n hi : Z) (p : list Z) : Prop := zlen p = n /\ forall v, In v p -> 0 <= v <= hi.
Definition good_image (n hi : Z) (im : image (list Z)) : Prop := forall x y p, get im x y = Some p -> good_pixel n hi p.

(** Setting a text with pair kerning, as fonts mean it: before a non-blank glyph
    is placed, the pen moves by the kerning of the pair (previous, this one). *)
Inductive kerned {C G} (F : font C G) : f32 -> option G -> list C -> list glyph -> f32 -> Prop :=
| kerned_end pen prev : kerned F pen prev [] [] pen
| kerned_first pen c g text gs pen' :
    outline F (glyph_id F c) (pen, ascent F) = Some g ->
    kerned F (fadd pen (h_advance F (glyph_id F c))) (Some (glyph_id F c)) text gs pen' ->
    kerned F pen None (c :: text) (g :: gs) pen'
| kerned_next pen p c g text gs pen' :
    outline F (glyph_id F c) (fadd pen (kern F p (glyph_id F c)), ascent F) = Some g ->
    kerned F (fadd (fadd pen (kern F p (glyph_id F c))) (h_advance F (glyph_id F c))) (Some (glyph_id F c)) text gs pen' ->
    kerned F pen (Some p) (c :: text) (g :: gs) pen'.
