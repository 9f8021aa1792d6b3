(** The two passes of the squared Euclidean distance transform. *)
From Flocq Require Import Core BinarySingleNaN.
From Coq Require Import Reals Lra Psatz.
From Verif Require Import Base BaseProofs Float FloatProofs FloatErr ApproxProofs EuclidModel EuclidSpec EuclidProofs.
Local Ltac Zify.zify_post_hook ::= idtac.
Local Open Scope Z_scope.

Lemma zlen_repeat {A} (a : A) n : 0 <= n -> zlen (repeat a (Z.to_nat n)) = n.
Proof. intros H. unfold zlen. rewrite repeat_length. lia. Qed.

Section Passes.
  Context (im : image Z) (G8 : gray8 im) (Hw : iw im <= 2 ^ 26) (Hh : ih im <= 2 ^ 26).
  Let w := iw im. Let h := ih im.

  Lemma dims : 0 <= w /\ 0 <= h. Proof. destruct G8 as ((A & B & _) & _). auto. Qed.
  Lemma px_ok x y : 0 <= x < w -> 0 <= y < h -> exists p, get im x y = Some p /\ get_pixel im x y = Ok p /\ 0 <= p <= 255.
  Proof.
    intros Hx Hy. destruct G8 as (W & A). destruct (get_some im x y W Hx Hy) as (p & E). exists p. split; [exact E|].
    split; [apply get_pixel_ok; exact E|]. apply (A _ _ _ E).
  Qed.

  Definition fgb (i j : Z) : bool := match get im i j with Some v => negb (v =? 0) | None => false end.
  Lemma fgb_spec i j : fgb i j = true <-> foreground im i j.
  Proof.
    unfold fgb, foreground. destruct (get im i j) as [v|]; split.
    - intros H. exists v. split; [reflexivity|lia].
    - intros (v' & E & N). injection E as <-. lia.
    - discriminate.
    - intros (v' & E & _). discriminate.
  Qed.
  Lemma fg_in i j : foreground im i j -> 0 <= i < w /\ 0 <= j < h.
  Proof. intros (v & E & _). apply get_inb in E. exact E. Qed.

  (** after the first pass *)
  Definition col_good (x y : Z) (o : f64) : Prop :=
    ((forall j, ~ foreground im x j) /\ o = infinity) \/
    (exists d, (exists j, foreground im x j /\ d = (y - j) * (y - j)) /\ (forall j, foreground im x j -> d <= (y - j) * (y - j)) /\ iz o d).
  Definition env_ok (n : Z) (e : envelope) : Prop := zlen (locations e) = n /\ zlen (boundaries e) = n + 1.
  Lemma new_env_ok n : 0 <= n -> env_ok n (new_envelope n).
  Proof. intros H. split; cbn [new_envelope locations boundaries]; apply zlen_repeat; lia. Qed.

  Lemma line_empty f m put e out : m = 0 -> env_ok 0 e -> distance_transform_1d 0 f m put e out = Ok (e, out).
  Proof. intros -> (A & B). unfold distance_transform_1d. rewrite A, B. reflexivity. Qed.

  Lemma column_src x j : 0 <= x < w -> 0 <= j < h -> column_source im x j = Ok (if fgb x j then of_int 0 else infinity).
  Proof.
    intros Hx Hj. unfold column_source. destruct (px_ok x j Hx Hj) as (p & E & -> & B). cbn [bind]. unfold fgb. rewrite E.
    destruct (iz_int p ltac:(lia)) as (Fp & Rp). destruct (iz_int 0 ltac:(lia)) as (F0 & R0). rewrite flt_R by assumption. rewrite Rp, R0.
    destruct (Z.eqb_spec p 0) as [->|N]; cbn [negb].
    - rewrite Rlt_bool_false by lra. reflexivity.
    - rewrite Rlt_bool_true by (apply IZR_lt; lia). reflexivity.
  Qed.

  Lemma columns_ok : exists e out, for_range 0 w (fun x '(env, out) =>
      distance_transform_1d h (column_source im x) (ih out) (column_put x) env out) (new_envelope h, new_image w h (of_int 0)) = Ok (e, out) /\
    wf out /\ iw out = w /\ ih out = h /\ forall x y, 0 <= x < w -> 0 <= y < h -> exists o, get out x y = Some o /\ col_good x y o.
  Proof.
    destruct dims as (Pw & Ph).
    destruct (for_range_ind (fun x '(e, out) => env_ok h e /\ wf out /\ iw out = w /\ ih out = h /\
        forall x' y, 0 <= x' < x -> 0 <= y < h -> exists o, get out x' y = Some o /\ col_good x' y o)
      0 w (fun x '(env, out) => distance_transform_1d h (column_source im x) (ih out) (column_put x) env out) (new_envelope h, new_image w h (of_int 0)))
      as ((e, out) & E & (_ & Wf & Ew & Eh & C)).
    - exact Pw.
    - split; [apply new_env_ok, Ph|]. split; [apply wf_gen; assumption|]. split; [reflexivity|]. split; [reflexivity|]. lia.
    - intros x (e, out) Hx ((EL & EB) & Wf & Ew & Eh & C). destruct (Z.eq_dec h 0) as [H0|H0].
      { rewrite Eh. rewrite H0. rewrite line_empty by (auto; split; lia). eexists. split; [reflexivity|]. cbv beta iota.
        split; [split; lia|]. split; [exact Wf|]. split; [exact Ew|]. split; [lia|]. lia. }
      destruct (line_ok h (column_source im x) (fun j => if fgb x j then of_int 0 else infinity) (fun _ => 0) ltac:(lia)) with
        (pos := fun n : Z => (x, n)) (W := w) (H := h) (put := column_put x) (m := ih out) (e := e) (out0 := out)
        as (e' & out' & E & EL' & EB' & (Wf' & Ew' & Eh' & O1 & O2)); try assumption.
      + intros j Hj. apply column_src; assumption.
      + intros j Hj. destruct (fgb x j); [right|left; reflexivity]. split; [apply iz_int; lia|lia].
      + reflexivity.
      + intros n Hn. cbn [fst snd]. lia.
      + intros n m P. congruence.
      + exists (e', out'). split; [exact E|]. split; [split; assumption|]. split; [exact Wf'|]. split; [exact Ew'|]. split; [exact Eh'|].
        intros x' y Hx' Hy. destruct (Z.eq_dec x' x) as [->|NE].
        * destruct (O1 y Hy) as (o & Eo & Go). cbn [fst snd] in Eo. exists o. split; [exact Eo|]. destruct Go as [(NF & ->)|(i & Hi & Fi & Io & Mn)].
          -- left. split; [|reflexivity]. intros j Fj. pose proof (fg_in x j Fj) as (_ & Hj). specialize (NF j Hj). apply fgb_spec in Fj. rewrite Fj in NF. discriminate.
          -- right. exists (val (fun _ => 0) i y). split; [|split; [|exact Io]].
             ++ exists i. split; [|unfold val; lia]. apply fgb_spec. destruct (fgb x i) eqn:Ei; [reflexivity|]. unfold fin in Fi. rewrite Ei in Fi. discriminate.
             ++ intros j Fj. pose proof (fg_in x j Fj) as (_ & Hj). specialize (Mn j Hj). unfold val in *. rewrite Z.add_0_l in Mn. rewrite Z.add_0_l. apply Mn.
                unfold fin. apply fgb_spec in Fj. rewrite Fj. reflexivity.
        * rewrite O2 by (intros m Hm P; congruence). apply C; lia.
    - exists e, out. split; [exact E|]. auto.
  Qed.

  Lemma fill_ok (out : image f64) y (buf : list f64) : wf out -> iw out = w -> ih out = h -> 0 <= y < h -> zlen buf = w ->
    exists buf', for_range 0 w (fun x buf => p <- get_pixel out x y ;; vset buf x p) buf = Ok buf' /\ zlen buf' = w /\
      forall x, 0 <= x < w -> znth buf' x = get out x y.
  Proof.
    intros Wf Ew Eh Hy L. destruct dims as (Pw & Ph).
    destruct (for_range_ind (fun n b => zlen b = w /\ forall x, 0 <= x < n -> znth b x = get out x y) 0 w
      (fun x buf => p <- get_pixel out x y ;; vset buf x p) buf Pw) as (b & E & B1 & B2).
    - split; [exact L|lia].
    - intros n b Hn (B1 & B2). destruct (get_some out n y Wf ltac:(lia) ltac:(lia)) as (p & Ep).
      rewrite (proj2 (get_pixel_ok _ _ _ _) Ep). cbn [bind]. rewrite vset_ok by lia. eexists. split; [reflexivity|].
      rewrite zupd_zlen. split; [exact B1|]. intros x Hx. rewrite znth_zupd by lia. destruct (Z.eqb_spec x n) as [->|]; [auto|apply B2; lia].
    - exists b. auto.
  Qed.

  Lemma row_good y (F : Z -> f64) o x : 0 <= y < h -> 0 <= x < w -> (forall i, 0 <= i < w -> col_good i y (F i)) ->
    good_at w F (fun i => Zfloor (B2R (F i))) x o -> is_sq_distance im x y o.
  Proof.
    intros Hy Hx HC [(NF & ->)|(i & Hi & Fi & Io & Mn)].
    - right. split; [|reflexivity]. intros i j Fj. pose proof (fg_in i j Fj) as (Hi & Hj). destruct (HC i Hi) as [(N & _)|(d & _ & _ & (Fd & _))].
      + apply (N j Fj). + rewrite (NF i Hi) in Fd. discriminate.
    - left. exists (val (fun i => Zfloor (B2R (F i))) i x). split; [|exact Io]. split.
      + destruct (HC i Hi) as [(_ & E)|(d & (j & Fj & ->) & _ & (_ & Rd))]. { unfold fin in Fi. rewrite E in Fi. discriminate. }
        exists i, j. split; [exact Fj|]. unfold val, sq_dist. rewrite Rd, Zfloor_IZR. lia.
      + intros i' j' Fj. pose proof (fg_in i' j' Fj) as (Hi' & Hj'). destruct (HC i' Hi') as [(N & _)|(d & _ & Md & (Fd & Rd))]; [destruct (N j' Fj)|].
        specialize (Mn i' Hi' Fd). specialize (Md j' Fj). unfold val in Mn at 2. rewrite Rd, Zfloor_IZR in Mn. unfold sq_dist. lia.
  Qed.

  Lemma rows_ok out0 : wf out0 -> iw out0 = w -> ih out0 = h -> (forall x y, 0 <= x < w -> 0 <= y < h -> exists o, get out0 x y = Some o /\ col_good x y o) ->
    exists b e out, for_range 0 h (fun y '(buf, env, out) =>
        buf <- for_range 0 w (fun x buf => p <- get_pixel out x y ;; vset buf x p) buf ;;
        ' (env, out) <- distance_transform_1d (zlen buf) (vget buf) (iw out) (row_put y) env out ;;
        Ok (buf, env, out)) (repeat (of_int 0 : f64) (Z.to_nat w), new_envelope w, out0) = Ok (b, e, out) /\
      wf out /\ iw out = w /\ ih out = h /\ forall x y, 0 <= x < w -> 0 <= y < h -> exists o, get out x y = Some o /\ is_sq_distance im x y o.
  Proof.
    intros Wf0 Ew0 Eh0 C0. destruct dims as (Pw & Ph).
    destruct (for_range_ind (fun y '(buf, e, out) => zlen buf = w /\ env_ok w e /\ wf out /\ iw out = w /\ ih out = h /\
        (forall x y', 0 <= x < w -> 0 <= y' < y -> exists o, get out x y' = Some o /\ is_sq_distance im x y' o) /\
        (forall x y', y <= y' -> get out x y' = get out0 x y'))
      0 h (fun y '(buf, env, out) =>
        buf <- for_range 0 w (fun x buf => p <- get_pixel out x y ;; vset buf x p) buf ;;
        ' (env, out) <- distance_transform_1d (zlen buf) (vget buf) (iw out) (row_put y) env out ;;
        Ok (buf, env, out)) (repeat (of_int 0 : f64) (Z.to_nat w), new_envelope w, out0) Ph)
      as (((b, e), out) & E & (_ & _ & Wf & Ew & Eh & C & _)).
    - split; [apply zlen_repeat, Pw|]. split; [apply new_env_ok, Pw|]. split; [exact Wf0|]. split; [exact Ew0|]. split; [exact Eh0|]. split; [lia|reflexivity].
    - intros y ((buf, e), out) Hy (L & (EL & EB) & Wf & Ew & Eh & C & U).
      destruct (fill_ok out y buf Wf Ew Eh Hy L) as (buf' & -> & L' & B). cbn [bind]. rewrite L'.
      destruct (Z.eq_dec w 0) as [W0|W0].
      { rewrite Ew, W0. rewrite line_empty by (auto; split; lia). cbn [bind]. eexists. split; [reflexivity|]. cbv beta iota.
        split; [lia|]. split; [split; lia|]. split; [exact Wf|]. split; [lia|]. split; [exact Eh|]. split; [lia|]. intros x y' Hy'. apply U. lia. }
      set (F := fun i => match get out i y with Some o => o | None => infinity end).
      assert (HC : forall i, 0 <= i < w -> znth buf' i = Some (F i) /\ col_good i y (F i)).
      { intros i Hi. rewrite (B i Hi). unfold F. rewrite U by lia. destruct (C0 i y Hi Hy) as (o & -> & G). auto. }
      destruct (line_ok w (vget buf') F (fun i => Zfloor (B2R (F i))) ltac:(lia)) with
        (pos := fun n : Z => (n, y)) (W := w) (H := h) (put := row_put y) (m := iw out) (e := e) (out0 := out)
        as (e' & out' & E & EL' & EB' & (Wf' & Ew' & Eh' & O1 & O2)); try assumption.
      + intros i Hi. apply vget_ok. apply HC, Hi.
      + intros i Hi. destruct (HC i Hi) as (_ & [(_ & E)|(d & (j & Fj & Ed) & _ & I)]); [left; exact E|right]. destruct I as (Fd & Rd).
        rewrite Rd, Zfloor_IZR. split; [split; assumption|]. subst d. pose proof (fg_in i j Fj) as (_ & Hj).
        assert (A : forall u : Z, Z.abs u <= 2 ^ 26 - 1 -> 0 <= u * u <= (2 ^ 26 - 1) * (2 ^ 26 - 1)).
        { clear. intros u Hu. replace (u * u) with (Z.abs u * Z.abs u) by nia. split; [nia|]. apply Z.mul_le_mono_nonneg; lia. }
        apply A. lia.
      + reflexivity.
      + intros n Hn. cbn [fst snd]. lia.
      + intros n m P. congruence.
      + rewrite E. cbn [bind]. eexists. split; [reflexivity|]. split; [exact L'|]. split; [split; assumption|]. split; [exact Wf'|]. split; [exact Ew'|]. split; [exact Eh'|]. split.
        * intros x y' Hx Hy'. destruct (Z.eq_dec y' y) as [->|NE].
          -- destruct (O1 x Hx) as (o & Eo & Go). cbn [fst snd] in Eo. exists o. split; [exact Eo|]. eapply row_good; [exact Hy|exact Hx| |exact Go]. intros i Hi. apply HC, Hi.
          -- rewrite O2 by (intros m Hm P; congruence). apply C; lia.
        * intros x y' Hy'. rewrite O2 by (intros m Hm P; assert (y' = y) by congruence; lia). apply U. lia.
    - exists b, e, out. split; [exact E|]. auto.
  Qed.

  Lemma transform_ok : exists out, euclidean_squared_distance_transform im = Ok out /\ wf out /\ iw out = w /\ ih out = h /\
    forall x y, 0 <= x < w -> 0 <= y < h -> exists o, get out x y = Some o /\ is_sq_distance im x y o.
  Proof.
    unfold euclidean_squared_distance_transform. cbv zeta. fold w h.
    destruct columns_ok as (e & out0 & -> & Wf & Ew & Eh & C). cbn [bind].
    destruct (rows_ok out0 Wf Ew Eh C) as (b & e' & out & -> & R). cbn [bind]. exists out. split; [reflexivity|]. exact R.
  Qed.
End Passes.
