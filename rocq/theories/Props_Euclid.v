(** C21: the squared Euclidean distance transform. *)
From Coq Require Import Reals Lra.
From Flocq Require Import Core BinarySingleNaN.
From Verif Require Import Base BaseProofs Float FloatErr EuclidModel EuclidSpec EuclidProofs EuclidProofs2.
Local Ltac Zify.zify_post_hook ::= idtac.
Local Open Scope Z_scope.

(** The full statement: every image. *)
Definition c21_statement : Prop := forall im, gray8 im -> iw im < 2 ^ 32 -> ih im < 2 ^ 32 ->
  exists out, euclidean_squared_distance_transform im = Ok out /\ wf out /\ iw out = iw im /\ ih out = ih im /\
    forall x y, 0 <= x < iw im -> 0 <= y < ih im -> exists v, get out x y = Some v /\ is_sq_distance im x y v.

(** It is false for very wide images: (2^27 + 1)^2 is not an f64. *)
Lemma not_f64 (v : f64) : B2R v <> IZR ((2 ^ 27 + 1) * (2 ^ 27 + 1)).
Proof.
  intros E. set (z := (2 ^ 27 + 1) * (2 ^ 27 + 1)) in *.
  assert (S : B2SF (of_int z : f64) = SpecFloat.S754_finite false 4503599694479360 2) by (vm_compute; reflexivity).
  destruct (of_int_R 53 1024 z) as (_ & R).
  { rewrite Rabs_pos_eq by (apply IZR_le; unfold z; lia). apply Rle_trans with (IZR (2 ^ 60)); [apply IZR_le; unfold z; lia|].
    change (IZR (2 ^ 60)) with (bpow radix2 60). apply bpow_le. lia. }
  rewrite <- E, rnd_idF in R. rewrite <- SF2R_B2SF, S in R. rewrite E in R. cbn [SF2R cond_Zopp] in R. unfold F2R in R. cbn [Fnum Fexp] in R.
  change (bpow radix2 2) with 4%R in R. rewrite <- mult_IZR in R. apply eq_IZR in R. unfold z in R. lia.
Qed.
Definition wide : image Z := gen (2 ^ 27 + 2) 1 (fun x _ => if x =? 0 then 1 else 0).
Theorem c21_refuted : ~ c21_statement.
Proof.
  intros S.
  assert (W : wf wide) by (apply wf_gen; lia).
  assert (P : forall x y, 0 <= x < 2 ^ 27 + 2 -> 0 <= y < 1 -> get wide x y = Some (if x =? 0 then 1 else 0)) by (intros; unfold wide; rewrite get_gen_in by lia; reflexivity).
  assert (D : iw wide = 2 ^ 27 + 2 /\ ih wide = 1) by (split; reflexivity). destruct D as (Dw & Dh).
  assert (I : forall x y v, get wide x y = Some v -> 0 <= x < 2 ^ 27 + 2 /\ y = 0) by (intros x y v G; apply get_inb in G; rewrite Dw, Dh in G; lia).
  destruct (S wide) as (out & _ & _ & _ & _ & O).
  - split; [exact W|]. intros x y v G. destruct (I _ _ _ G) as (Hx & ->). rewrite P in G by lia. injection G as <-. destruct (x =? 0); unfold is_u8; lia.
  - rewrite Dw. lia.
  - rewrite Dh. lia.
  - assert (F0 : foreground wide 0 0) by (exists 1; split; [apply P; lia|lia]).
    assert (F1 : forall i j, foreground wide i j -> i = 0 /\ j = 0).
    { intros i j (v & G & N). destruct (I _ _ _ G) as (Hx & ->). rewrite P in G by lia. injection G as <-. destruct (Z.eqb_spec i 0); [auto|lia]. }
    destruct (O (2 ^ 27 + 1) 0) as (v & _ & [(d & ((i & j & Fi & Ed) & _) & _ & R)|(N & _)]); [lia|lia| |].
    + destruct (F1 _ _ Fi) as (-> & ->). apply (not_f64 v). rewrite R. f_equal. rewrite <- Ed. unfold sq_dist. lia.
    + exact (N 0 0 F0).
Qed.

(** Up to 2^26 rows and columns every value is exact. *)
Theorem c21_euclid_partial : forall im, gray8 im -> iw im <= 2 ^ 26 -> ih im <= 2 ^ 26 ->
  exists out, euclidean_squared_distance_transform im = Ok out /\ wf out /\ iw out = iw im /\ ih out = ih im /\
    forall x y, 0 <= x < iw im -> 0 <= y < ih im -> exists v, get out x y = Some v /\ is_sq_distance im x y v.
Proof. intros im G Hw Hh. exact (transform_ok im G Hw Hh). Qed.

(** 4 x 3 with foreground pixels (0, 0) and (3, 2) *)
Example c21_nontrivial :
  let im := mkImage 4 3 [9; 0; 0; 0;  0; 0; 0; 0;  0; 0; 0; 1] in
  gray8 im /\ foreground im 3 2 /\
  match euclidean_squared_distance_transform im with
  | Ok out => map (fun v => to_int 0 100 v) (idata out) = [0; 1; 4; 4;  1; 2; 2; 1;  4; 4; 1; 0]
  | _ => False
  end.
Proof.
  cbv zeta. split.
  - split; [repeat split; cbn; lia|]. intros x y v G. pose proof (get_inb _ _ _ _ G) as (Hx & Hy). cbn in Hx, Hy.
    assert (Cx : x = 0 \/ x = 1 \/ x = 2 \/ x = 3) by lia. assert (Cy : y = 0 \/ y = 1 \/ y = 2) by lia.
    destruct Cx as [->|[->|[->| ->]]], Cy as [->|[->| ->]]; vm_compute in G; injection G as <-; unfold is_u8; lia.
  - split; [exists 1; split; [reflexivity|lia]|]. vm_compute. reflexivity.
Qed.
Print Assumptions c21_refuted.
Print Assumptions c21_euclid_partial.
