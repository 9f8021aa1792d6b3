(** The Graham scan, over exact integer turns. *)
From Verif Require Import Base BaseProofs GeometrySpec.
Local Ltac Zify.zify_post_hook ::= idtac.

Lemma mul_pos_le d x : 0 < d -> 0 <= d * x -> 0 <= x.
Proof. intros. nia. Qed.

(** ** Inequalities between the six cross products of a, b, p, z *)
Lemma pop_left D a bt bp dl zp : 0 < D -> 0 <= a -> 0 <= D - bt - a -> 0 <= bp -> 0 <= D + bp - dl ->
  D * zp = a * dl + bt * bp -> 0 <= bp - zp + a.
Proof.
  intros HD Ha H1 Hb H2 E. apply (mul_pos_le D); auto.
  replace (D * (bp - zp + a)) with (D * bp + D * a - D * zp) by ring. rewrite E.
  replace (D * bp + D * a - (a * dl + bt * bp)) with (a * (D + bp - dl) + bp * (D - bt - a)) by ring. nia.
Qed.
Lemma pop_between D a bt bp dl zp : 0 < D -> 0 <= a -> 0 <= bt -> 0 <= D - bt - a -> 0 <= bp -> D + bp - dl <= 0 ->
  D * zp = a * dl + bt * bp -> 0 <= dl - zp - bt.
Proof.
  intros HD Ha Hb H1 Hbp H2 E. apply (mul_pos_le D); auto.
  replace (D * (dl - zp - bt)) with (D * dl - D * bt - D * zp) by ring. rewrite E.
  replace (D * dl - D * bt - (a * dl + bt * bp)) with (dl * (D - bt - a) + bt * (dl - D - bp)) by ring. nia.
Qed.
Lemma pop_beyond D bz bt bp dl zp : 0 < D -> 0 <= bz -> 0 < bp -> 0 <= zp -> 0 <= bp - zp - bz -> D + bp - dl <= 0 ->
  D * zp = - bz * dl + bt * bp -> 0 <= dl - zp - bt.
Proof.
  intros HD Hz Hb H1 H2 H3 E. apply (mul_pos_le bp); auto.
  replace (bp * (dl - zp - bt)) with (bp * dl - bp * zp - bt * bp) by ring.
  replace (bt * bp) with (D * zp + bz * dl) by lia.
  replace (bp * dl - bp * zp - (D * zp + bz * dl)) with (dl * (bp - zp - bz) + zp * (dl - D - bp)) by ring. nia.
Qed.
Lemma turn_chain ab ac ap bc bp cp : 0 < bc -> 0 <= ab -> 0 <= bp -> 0 <= cp ->
  0 <= ab + bc - ac -> 0 <= bc + cp - bp -> ab * cp - ac * bp + ap * bc = 0 -> 0 <= ab + bp - ap.
Proof.
  intros. apply (mul_pos_le bc); auto.
  replace (bc * (ab + bp - ap)) with (bc * ab + bc * bp - ap * bc) by ring.
  replace (ap * bc) with (ac * bp - ab * cp) by lia.
  replace (bc * ab + bc * bp - (ac * bp - ab * cp)) with (ab * (bc + cp - bp) + bp * (ab + bc - ac)) by ring. nia.
Qed.

Section Scan.
  Context (s : Z * Z).
  Notation cr := (turn s).

  Definition up (a : Z * Z) : Prop := snd s < snd a \/ (snd s = snd a /\ fst s <= fst a).
  Definition dsq (a : Z * Z) : Z :=
    (fst s - fst a) * (fst s - fst a) + (snd s - snd a) * (snd s - snd a).
  Definition before (a b : Z * Z) : Prop := 0 < cr a b \/ (cr a b = 0 /\ dsq a <= dsq b).

  Lemma cr_anti a b : cr b a = - cr a b.
  Proof. unfold turn. ring. Qed.
  Lemma cr_self a : cr a a = 0.
  Proof. unfold turn. ring. Qed.
  Lemma cr_s a : cr s a = 0.
  Proof. unfold turn. ring. Qed.
  Lemma cr_s' a : cr a s = 0.
  Proof. unfold turn. ring. Qed.
  Lemma turn_cr a b c : turn a b c = cr a b + cr b c - cr a c.
  Proof. unfold turn. ring. Qed.
  Lemma plucker a b c d : cr a b * cr c d - cr a c * cr b d + cr a d * cr b c = 0.
  Proof. unfold turn. ring. Qed.

  Lemma before_cr a b : before a b -> 0 <= cr a b.
  Proof. intros [H|[H _]]; lia. Qed.
  Lemma before_refl a : before a a.
  Proof. right. split; [apply cr_self|lia]. Qed.

  (** z on the ray of p, not beyond it *)
  Lemma on_ray z p : up z -> up p -> cr z p = 0 -> dsq z <= dsq p -> p <> s \/ z <> s ->
    exists m n, 0 <= m <= n /\ 0 < n /\ (z <> s -> 0 < m) /\ (forall a, n * cr a z = m * cr a p).
  Proof.
    unfold up, dsq. intros Hz Hp E D N.
    set (zx := fst z - fst s). set (zy := snd z - snd s). set (px := fst p - fst s). set (py := snd p - snd s).
    assert (E' : zx * py = zy * px) by (unfold turn in E; fold zx zy px py in E; lia).
    assert (D' : zx * zx + zy * zy <= px * px + py * py) by (unfold zx, zy, px, py; lia).
    assert (Hz' : 0 < zy \/ (zy = 0 /\ 0 <= zx)) by (unfold zx, zy; lia).
    assert (Hp' : 0 < py \/ (py = 0 /\ 0 <= px)) by (unfold px, py; lia).
    assert (NZ : z <> s -> ~ (zx = 0 /\ zy = 0)).
    { intros N1 [A B]. apply N1. unfold zx, zy in A, B. destruct z, s; cbn [fst snd] in *. f_equal; lia. }
    assert (NP : ~ (px = 0 /\ py = 0)).
    { intros [A B]. rewrite A, B in D'. assert (zx = 0 /\ zy = 0) as [C1 C2] by nia.
      destruct N as [N|N]; [|exact (NZ N (conj C1 C2))].
      apply N. unfold px, py in A, B. destruct p, s; cbn [fst snd] in *. f_equal; lia. }
    assert (Hcz : forall a, cr a z = (fst a - fst s) * zy - (snd a - snd s) * zx) by (intros; reflexivity).
    assert (Hcp : forall a, cr a p = (fst a - fst s) * py - (snd a - snd s) * px) by (intros; reflexivity).
    clearbody zx zy px py. clear Hz Hp E D N.
    destruct (Z.eq_dec py 0) as [Hy|Hy].
    - rewrite Hy in *. assert (0 < px) by lia. assert (Z0 : zy = 0) by nia. rewrite Z0 in *.
      assert (0 <= zx) by lia. assert (zx <= px) by nia.
      exists zx, px. split; [lia|]. split; [lia|]. split; [intros Hs; apply NZ in Hs; lia|].
      intros a. rewrite Hcz, Hcp. ring.
    - assert (0 < py) by lia.
      assert (Hzy : zy <= py).
      { assert (Q : zy * zy <= py * py); [|nia].
        assert (Q : (zx * zx + zy * zy) * (py * py) <= (px * px + py * py) * (py * py)) by nia.
        assert (Q2 : (zx * py) * (zx * py) = (zy * px) * (zy * px)) by now rewrite E'.
        assert (Q3 : (zy * zy) * (px * px + py * py) <= (py * py) * (px * px + py * py)) by lia.
        assert (0 < px * px + py * py) by nia.
        nia. }
      exists zy, py. split; [lia|]. split; [lia|]. split.
      + intros Hs. destruct (Z.eq_dec zy 0) as [Z0|]; [|lia]. exfalso.
        apply (NZ Hs). rewrite Z0 in E'. split; [nia|auto].
      + intros a. rewrite Hcz, Hcp.
        replace (py * ((fst a - fst s) * zy - (snd a - snd s) * zx)) with ((fst a - fst s) * zy * py - (snd a - snd s) * (zx * py)) by ring.
        rewrite E'. ring.
  Qed.
  Lemma s_dec (p : Z * Z) : p = s \/ p <> s.
  Proof.
    destruct p as [b1 b2], s as [s1 s2]. destruct (Z.eq_dec b1 s1), (Z.eq_dec b2 s2); subst; auto; right; congruence.
  Qed.
  Lemma dsq_0 : dsq s = 0.
  Proof. unfold dsq. ring. Qed.
  Lemma dsq_nonneg p : 0 <= dsq p.
  Proof.
    unfold dsq. pose proof (Z.square_nonneg (fst s - fst p)). pose proof (Z.square_nonneg (snd s - snd p)). lia.
  Qed.
  Lemma dsq_inv p : dsq p <= 0 -> p = s.
  Proof.
    unfold dsq. destruct s as [sx sy], p as [bx by_]. cbn [fst snd]. intros E.
    pose proof (Z.square_nonneg (sx - bx)). pose proof (Z.square_nonneg (sy - by_)).
    assert ((sx - bx) * (sx - bx) = 0) by lia. assert ((sy - by_) * (sy - by_) = 0) by lia. f_equal; nia.
  Qed.
  Lemma ray_le a z p : up z -> up p -> cr z p = 0 -> dsq z <= dsq p -> 0 <= cr a p -> cr a z <= cr a p.
  Proof.
    intros Hz Hp E D H. destruct (s_dec p) as [->|N].
    { rewrite dsq_0 in D. apply dsq_inv in D. subst. lia. }
    destruct (on_ray z p Hz Hp E D) as (m & n & Hm & Hn & _ & Hall); auto. specialize (Hall a). nia.
  Qed.
  Lemma ray_ge z p b : up z -> up p -> cr z p = 0 -> dsq z <= dsq p -> 0 <= cr p b -> cr z b <= cr p b.
  Proof.
    intros Hz Hp E D H. destruct (s_dec p) as [->|N].
    { rewrite dsq_0 in D. apply dsq_inv in D. subst. lia. }
    destruct (on_ray z p Hz Hp E D) as (m & n & Hm & Hn & _ & Hall); auto. specialize (Hall b).
    rewrite (cr_anti z b), (cr_anti p b) in Hall. nia.
  Qed.
  (** z not s, on the ray of p: same signs *)
  Lemma ray_sign z p b : up z -> up p -> cr z p = 0 -> dsq z <= dsq p -> z <> s -> 0 <= cr z b -> 0 <= cr p b.
  Proof.
    intros Hz Hp E D N H. destruct (on_ray z p) as (m & n & Hm & Hn & Hs & Hall); auto.
    specialize (Hs N). specialize (Hall b). rewrite (cr_anti z b), (cr_anti p b) in Hall. nia.
  Qed.

  (** [before] is transitive on the upper half plane *)
  Lemma before_trans a b c : up a -> up b -> up c -> before a b -> before b c -> before a c.
  Proof.
    intros Ha Hb Hc H1 H2.
    destruct (s_dec a) as [->|Na].
    { right. split; [apply cr_s|]. rewrite dsq_0. apply dsq_nonneg. }
    destruct (s_dec b) as [->|Nb].
    { exfalso. destruct H1 as [H1|[_ H1]]; [rewrite cr_s' in H1; lia|]. rewrite dsq_0 in H1. now apply dsq_inv in H1. }
    assert (Iy : (snd b - snd s) * cr a c = (snd a - snd s) * cr b c + (snd c - snd s) * cr a b) by (unfold turn; ring).
    destruct H1 as [H1|[H1 D1]], H2 as [H2|[H2 D2]].
    - left. unfold up in *. destruct (Z.eq_dec (snd b) (snd s)) as [Eb|].
      + exfalso. assert (snd a = snd s) as Ea.
        { destruct Ha as [Ha|Ha]; [|lia]. unfold turn in H1. rewrite Eb in H1.
          assert (0 <= fst b - fst s) by lia. nia. }
        unfold turn in H1. rewrite Ea, Eb in H1. lia.
      + assert (0 < snd b - snd s) by lia. assert (0 <= snd a - snd s) by lia. assert (0 <= snd c - snd s) by lia.
        destruct (Z.eq_dec (snd c) (snd s)) as [Ec|]; [|nia].
        exfalso. unfold turn in H2. rewrite Ec in H2. assert (0 <= fst c - fst s) by lia. nia.
    - left. destruct (on_ray b c) as (m & n & Hm & Hn & Hs & Hall); auto.
      specialize (Hall a). specialize (Hs Nb). nia.
    - left. destruct (on_ray a b) as (m & n & Hm & Hn & Hs & Hall); auto.
      specialize (Hall c). specialize (Hs Na). rewrite (cr_anti a c), (cr_anti b c) in Hall. nia.
    - right. split; [|lia]. destruct (on_ray b c) as (m & n & Hm & Hn & Hs & Hall); auto.
      specialize (Hall a). specialize (Hs Nb). nia.
  Qed.

  (** ** The stack, top first *)
  Inductive conv : list (Z * Z) -> Prop :=
  | conv_1 q : q <> s -> up q -> conv [q; s]
  | conv_S c b a l : conv (b :: a :: l) -> 0 < turn a b c -> 0 < cr b c -> up c -> conv (c :: b :: a :: l).

  Fixpoint lefts (st : list (Z * Z)) (z : Z * Z) : Prop :=
    match st with
    | b :: ((a :: _) as l) => 0 <= turn a b z /\ lefts l z
    | _ => True
    end.

  Fixpoint pops (st : list (Z * Z)) (p : Z * Z) : list (Z * Z) :=
    match st with
    | t :: rest => match rest with
                   | u :: _ => if 0 <? turn u t p then st else pops rest p
                   | [] => st
                   end
    | [] => st
    end.

  Lemma conv_up st x : conv st -> In x st -> up x.
  Proof.
    induction 1 as [q N U|c b a l H IH H1 H2 H3]; intros Hi.
    - destruct Hi as [->|[<-|[]]]; auto. right. lia.
    - destruct Hi as [->|Hi]; auto.
  Qed.
  Lemma conv_top t st : conv (t :: st) -> t <> s.
  Proof. inversion 1; subst; auto. intros ->. rewrite cr_s' in *. lia. Qed.

  Lemma lefts_new st : conv st -> forall c b l p, st = c :: b :: l -> 0 <= turn b c p ->
    (forall x, In x st -> 0 <= cr x p) -> lefts st p.
  Proof.
    induction 1 as [q N U|c b a l H IH H1 H2 H3]; intros c' b' l' p E T Hx; injection E as <- <- <-.
    - cbn [lefts]. auto.
    - change (0 <= turn b c p /\ lefts (b :: a :: l) p). split; auto. apply (IH b a l); auto with datatypes.
      rewrite turn_cr. rewrite turn_cr in T, H1.
      pose proof (plucker a b c p). pose proof (Hx c). pose proof (Hx b). pose proof (Hx a).
      assert (0 <= cr a b). { inversion H; subst; [rewrite cr_s; lia|lia]. }
      apply (turn_chain _ (cr a c) _ (cr b c) _ (cr c p)); auto with datatypes; lia.
  Qed.

  Lemma pops_ok done p : up p -> (forall z, In z done -> up z) -> (forall z, In z done -> before z p) -> forall st, conv st ->
    forall t rest, st = t :: rest ->
    (forall x, In x st -> before x p) ->
    (forall z, In z done -> lefts st z) ->
    (forall z, In z done -> 0 <= cr t z -> 0 <= turn t p z) ->
    conv (p :: pops st p) /\ (forall z, In z (p :: done) -> lefts (p :: pops st p) z).
  Proof.
    intros Up Ud Bd. induction 1 as [q N U|c b a l H IH H1 H2 H3]; intros t rest E Bs L P; injection E as <- <-.
    - cbn [pops]. destruct (Z.ltb_spec 0 (turn s q p)) as [T|T].
      + split; [apply conv_S; auto; now apply conv_1|].
        intros z [<-|Hz]; cbn [lefts]; [split; [|split; auto]; [|lia]|].
        * rewrite turn_cr, cr_self. lia.
        * destruct (L z Hz) as [L1 _]. split; [apply P; auto|auto].
      + pose proof (Bs q (or_introl eq_refl)) as Bq. destruct Bq as [Bq|[Bq Dq]]; [lia|].
        assert (Np : p <> s). { intros ->. rewrite dsq_0 in Dq. now apply dsq_inv in Dq. }
        split; [now apply conv_1|].
        intros z [<-|Hz]; cbn [lefts]; (split; [|auto]); [rewrite cr_self; lia|].
        destruct (L z Hz) as [L1 _]. apply (ray_sign q p); auto.
    - cbn [pops]. destruct (Z.ltb_spec 0 (turn b c p)) as [T|T].
      + pose proof (Bs c (or_introl eq_refl)) as Bc.
        assert (Hbp : 0 <= cr b p) by (apply before_cr, Bs; right; now left).
        assert (Cc : conv (c :: b :: a :: l)) by (now apply conv_S).
        assert (Hcp : 0 < cr c p).
        { destruct Bc as [Bc|[Bc Dc]]; auto. exfalso.
          pose proof (ray_le b c p H3 Up Bc Dc Hbp). rewrite turn_cr in T. lia. }
        split; [now apply conv_S|].
        intros z [<-|Hz].
        * change (0 <= turn c p p /\ lefts (c :: b :: a :: l) p). split.
          -- rewrite turn_cr, cr_self. lia.
          -- apply (lefts_new _ Cc c b (a :: l)); auto; [lia|]. intros x Hx. now apply before_cr, Bs.
        * change (0 <= turn c p z /\ lefts (c :: b :: a :: l) z). split; [|now apply L].
          destruct (Z_le_dec 0 (cr c z)) as [G|G]; [now apply P|].
          destruct (L z Hz) as [L1 _]. rewrite turn_cr in L1, T. rewrite turn_cr.
          rewrite (cr_anti z p).
          pose proof (plucker b c z p) as Q.
          replace (cr c p + - cr z p - cr c z) with (cr c p - cr z p + cr z c) by (rewrite (cr_anti z c); ring).
          rewrite (cr_anti z c) in *.
          apply (pop_left (cr b c) _ (cr b z) _ (cr b p)); try lia.
      + apply (IH b (a :: l)); auto with datatypes.
        * intros z Hz. now destruct (L z Hz) as [_ L2].
        * intros z Hz G. destruct (L z Hz) as [L1 _].
          rewrite turn_cr in L1, T. rewrite turn_cr.
          pose proof (plucker b c z p) as Q. pose proof (before_cr _ _ (Bd z Hz)) as Hzp.
          pose proof (before_cr _ _ (Bs c (or_introl eq_refl))) as Hcp.
          pose proof (cr_anti z c) as A1. pose proof (cr_anti z p) as A2.
          destruct (Z_le_dec 0 (cr z c)) as [G2|G2].
          -- assert (0 <= cr b p - cr z p - cr b z); [|lia].
             apply (pop_between (cr b c) (cr z c) _ (cr c p)); try lia.
          -- assert (P' := P z Hz ltac:(lia)). rewrite turn_cr in P'.
             assert (0 <= cr b p - cr z p - cr b z); [|lia].
             apply (pop_beyond (cr b c) (cr c z) _ (cr c p)); try lia.
  Qed.

  (** ** The invariant of the scan *)
  Definition scan_inv (done st : list (Z * Z)) : Prop :=
    incl st (s :: done) /\ (forall z, In z done -> up z) /\
    (((forall z, In z done -> z = s) /\ (st = [s] \/ st = [s; s])) \/
     (exists t l, st = t :: l /\ conv st /\ (forall z, In z done -> lefts st z) /\ (forall z, In z done -> before z t))).

  Lemma pops_incl p st : incl (pops st p) st.
  Proof.
    induction st as [|t st IH]; [apply incl_refl|]. cbn [pops]. destruct st; [apply incl_refl|].
    destruct (0 <? _); [apply incl_refl|]. intros x Hx. right. now apply IH.
  Qed.

  Lemma scan_step done st p : scan_inv done st -> up p -> (forall z, In z done -> before z p) ->
    scan_inv (done ++ [p]) (p :: pops st p).
  Proof.
    intros (Hi & Hu & H) Up Hb.
    assert (Hu' : forall z, In z (done ++ [p]) -> up z).
    { intros z Hz. apply in_app_or in Hz. destruct Hz as [Hz|[<-|[]]]; auto. }
    assert (Hi' : incl (p :: pops st p) (s :: done ++ [p])).
    { intros x [<-|Hx]; [right; apply in_or_app; right; now left|].
      apply pops_incl in Hx. apply Hi in Hx. destruct Hx as [->|Hx]; [now left|]. right. apply in_or_app. now left. }
    split; [auto|]. split; [auto|].
    destruct H as [[Hs Hst]|(t & l & -> & Hc & Hl & Ht)].
    - assert (E : pops st p = [s]).
      { destruct Hst as [E|E]; rewrite E; cbn [pops]; auto. rewrite cr_s. reflexivity. }
      rewrite E. destruct (s_dec p) as [->|Np].
      + left. split; auto. intros z Hz. apply in_app_or in Hz. destruct Hz as [Hz|[<-|[]]]; auto.
      + right. exists p, [s]. splits; auto.
        * now apply conv_1.
        * intros z Hz. cbn [lefts]. split; auto. apply in_app_or in Hz. destruct Hz as [Hz|[<-|[]]].
          -- rewrite (Hs z Hz), cr_s'. lia.
          -- rewrite cr_self. lia.
        * intros z Hz. apply in_app_or in Hz. destruct Hz as [Hz|[<-|[]]]; auto. apply before_refl.
    - right. exists p, (pops (t :: l) p). split; [auto|].
      assert (Bs : forall x, In x (t :: l) -> before x p).
      { intros x Hx. apply Hi in Hx. destruct Hx as [<-|Hx]; auto.
        right. split; [apply cr_s|]. rewrite dsq_0. apply dsq_nonneg. }
      destruct (pops_ok done p Up Hu Hb (t :: l) Hc t l eq_refl) as [C L]; auto.
      + intros z Hz G. rewrite turn_cr. specialize (Ht z Hz).
        rewrite (cr_anti z t) in G. destruct Ht as [Ht|[Ht Dt]]; [lia|].
        assert (0 <= cr t p) by (apply before_cr, Bs; now left).
        pose proof (ray_ge z t p (Hu z Hz) (conv_up _ t Hc (or_introl eq_refl)) Ht Dt H).
        rewrite (cr_anti z p), (cr_anti z t). lia.
      + splits; auto.
        * intros z Hz. apply L. apply in_app_or in Hz. destruct Hz as [Hz|[<-|[]]]; [now right|now left].
        * intros z Hz. apply in_app_or in Hz. destruct Hz as [Hz|[<-|[]]]; auto. apply before_refl.
  Qed.
End Scan.
