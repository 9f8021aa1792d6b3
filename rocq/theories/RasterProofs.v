(** Reusable lemmas about nested raster loops. *)
From Verif Require Import Base BaseProofs GeomProofs.

Lemma put_same {A} (im : image A) x y a : wf im -> get im x y = Some a -> put im x y a = im.
Proof.
  intros W G. destruct (get_inb _ _ _ _ G) as (Hx & Hy).
  apply image_ext; auto. { apply wf_put; auto. }
  intros x' y' _ _. rewrite get_put by auto.
  destruct ((x' =? x) && (y' =? y)) eqn:E; auto.
  assert (x' = x /\ y' = y) as (-> & ->) by lia. auto.
Qed.

(** A raster loop whose body at (x, y) sets exactly pixel (x, y) to [f x y],
    and may use that the not yet visited pixels still hold their old values. *)
Lemma raster_fill {A} (w h : Z) (f : Z -> Z -> A) (body : Z -> Z -> image A -> res (image A)) (out0 : image A) :
  wf out0 -> iw out0 = w -> ih out0 = h ->
  (forall x y o, 0 <= x < w -> 0 <= y < h -> wf o -> iw o = w -> ih o = h ->
     (forall a b, b > y \/ (b = y /\ a >= x) -> get o a b = get out0 a b) ->
     (forall a b, 0 <= a < w -> 0 <= b < h -> b < y \/ (b = y /\ a < x) -> get o a b = Some (f a b)) ->
     exists o', body y x o = Ok o' /\ o' = put o x y (f x y)) ->
  for_range 0 h (fun y o => for_range 0 w (fun x o => body y x o) o) out0 = Ok (gen w h f).
Proof.
  intros W0 Ew Eh HB. pose proof W0 as (Hw & Hh & _). rewrite Ew in Hw. rewrite Eh in Hh.
  destruct (raster_ind (fun xx yy o => wf o /\ iw o = w /\ ih o = h /\
     forall a b, 0 <= a < w -> 0 <= b < h ->
       get o a b = if (b <? yy) || ((b =? yy) && (a <? xx)) then Some (f a b) else get out0 a b)
     0 h 0 (fun _ => w) w body out0) as (o & E & W & E1 & E2 & HG); auto.
  - splits; auto. intros a b Ha Hb. destruct ((b <? 0) || ((b =? 0) && (a <? 0))) eqn:E; auto; lia.
  - intros x y o Hx Hy (W & E1 & E2 & HG).
    assert (OUT : forall a b, ~ (0 <= a < w /\ 0 <= b < h) -> get o a b = None /\ get out0 a b = None).
    { intros a b Hn. split; apply get_none; rewrite ?E1, ?E2, ?Ew, ?Eh; lia. }
    destruct (HB x y o) as (o' & Eb & ->); auto.
    + intros a b Hab. assert (Hn : (0 <= a < w /\ 0 <= b < h) \/ ~ (0 <= a < w /\ 0 <= b < h)) by lia. destruct Hn as [|Hn].
      * rewrite HG by lia. destruct ((b <? y) || ((b =? y) && (a <? x))) eqn:E; auto; lia.
      * destruct (OUT a b Hn) as (-> & ->); auto.
    + intros a b Ha Hb Hab. rewrite HG by lia. destruct ((b <? y) || ((b =? y) && (a <? x))) eqn:E; auto; lia.
    + eexists; split; [exact Eb|]. splits; auto.
      * apply wf_put; auto.
      * intros a b Ha Hb. rewrite get_put by (auto; lia).
        destruct ((a =? x) && (b =? y)) eqn:E.
        -- assert (a = x /\ b = y) as (-> & ->) by lia.
           destruct ((y <? y) || ((y =? y) && (x <? x + 1))) eqn:E3; auto; lia.
        -- rewrite HG by auto.
           destruct ((b <? y) || ((b =? y) && (a <? x))) eqn:E3; destruct ((b <? y) || ((b =? y) && (a <? x + 1))) eqn:E4; auto; lia.
  - intros y o Hy (W & E1 & E2 & HG). splits; auto. intros a b Ha Hb. rewrite HG by auto.
    destruct ((b <? y) || ((b =? y) && (a <? w))) eqn:E3; destruct ((b <? y + 1) || ((b =? y + 1) && (a <? 0))) eqn:E4; auto; lia.
  - rewrite E. f_equal. apply image_ext; auto. { apply wf_gen; auto. }
    rewrite E1, E2. intros a b Ha Hb. rewrite HG, get_gen_in by auto.
    destruct ((b <? h) || ((b =? h) && (a <? 0))) eqn:E3; auto; lia.
Qed.

(** mapping the data of an image *)
Lemma get_map_data {A B} (im : image A) (f : A -> B) x y :
  get (mkImage (iw im) (ih im) (map f (idata im))) x y = option_map f (get im x y).
Proof.
  unfold get, inb. cbn [iw ih idata]. destruct ((0 <=? x) && (x <? iw im) && (0 <=? y) && (y <? ih im)); auto.
  rewrite znth_map. auto.
Qed.
Lemma wf_map_data {A B} (im : image A) (f : A -> B) : wf im -> wf (mkImage (iw im) (ih im) (map f (idata im))).
Proof. intros (A1 & B1 & C). split; [|split]; auto. cbn [iw ih idata]. rewrite zlen_map. auto. Qed.

Lemma In_get {A} (im : image A) p : wf im -> In p (idata im) -> exists x y, get im x y = Some p.
Proof.
  intros (Hw & Hh & HL) Hin. apply In_znth in Hin. destruct Hin as (i & Hr & E). rewrite HL in Hr.
  assert (0 < iw im) by nia.
  exists (i mod iw im), (i / iw im). unfold get.
  assert (Hi : inb im (i mod iw im) (i / iw im) = true).
  { apply inb_spec. split; [apply Z.mod_pos_bound; lia|]. split; [apply Z.div_pos; lia|apply Z.div_lt_upper_bound; nia]. }
  rewrite Hi. rewrite Z.mul_comm, <- Z.div_mod by lia. auto.
Qed.
Lemma get_In {A} (im : image A) x y p : get im x y = Some p -> In p (idata im).
Proof. unfold get. destruct (inb im x y); [|discriminate]. apply znth_In. Qed.

(** decision procedure used for concrete examples *)
Definition gray8b (im : image Z) : bool :=
  (0 <=? iw im) && (0 <=? ih im) && (zlen (idata im) =? iw im * ih im) &&
  forallb (fun v => (0 <=? v) && (v <=? 255)) (idata im).
Lemma gray8b_ok im : gray8b im = true -> gray8 im.
Proof.
  unfold gray8b. rewrite !Bool.andb_true_iff, forallb_forall. intros (((A & B) & C) & D). split.
  - unfold wf. lia.
  - intros x y a E. apply get_In in E. specialize (D a E). unfold is_u8. lia.
Qed.

Lemma mapM_all {A B} (f : A -> res B) (g : A -> B) l :
  (forall a, In a l -> f a = Ok (g a)) -> mapM f l = Ok (map g l).
Proof.
  induction l as [|a l IH]; intros H; auto. simpl. rewrite H by (left; auto). cbn [bind].
  rewrite IH by (intros; apply H; right; auto). auto.
Qed.
