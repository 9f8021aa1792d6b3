(** Model of src/contrast.rs kapur_level. *)
From Coq Require Import Reals.
From Flocq Require Import Raux.
From Verif Require Import Base Float StatsSpec StatsModel.
Open Scope Z_scope.

(** The operations [kapur_level] uses on f64, so that the same definition runs
    on f64 and, as the exact computation, on the reals. *)
Record reckon (T : Type) := mkReckon {
  e_int : Z -> T; e_add : T -> T -> T; e_sub : T -> T -> T; e_mul : T -> T -> T; e_div : T -> T -> T;
  e_neg : T -> T; e_ln : T -> T; e_lt : T -> T -> bool; e_le : T -> T -> bool; e_min : T  (** [f64::MIN] *) }.
Arguments e_int {T}. Arguments e_add {T}. Arguments e_sub {T}. Arguments e_mul {T}. Arguments e_div {T}.
Arguments e_neg {T}. Arguments e_ln {T}. Arguments e_lt {T}. Arguments e_le {T}. Arguments e_min {T}.

(** f64; the logarithm of the platform is a parameter *)
Definition reckon_f64 (ln : f64 -> f64) : reckon f64 :=
  mkReckon f64 of_int fadd fsub fmul fdiv fneg ln flt fle (fneg (of_dyadic (2 ^ 53 - 1) 971)).

(** the reals *)
Definition reckon_R : reckon R :=
  mkReckon R IZR Rplus Rminus Rmult Rdiv Ropp ln Rlt_bool Rle_bool (- IZR ((2 ^ 53 - 1) * 2 ^ 971))%R.

(** the values of an array filled front to back, each element from the one
    before it: contrast.rs:131-134 and 142-148 *)
Fixpoint running {A T} (f : T -> A -> T) (acc : T) (l : list A) : list T :=
  match l with
  | [] => []
  | a :: l => let acc := f acc a in acc :: running f acc l
  end.

Section Kapur.
  Context {T : Type} (K : reckon T).

  (** contrast.rs:131-134 *)
  Definition kapur_cum (p : list T) : list T :=
    match p with [] => [] | a :: l => a :: running (e_add K) a l end.

  (** contrast.rs:138-148 *)
  Definition kapur_h (p : list T) : list T :=
    match p with
    | [] => []
    | a :: l =>
        let h0 := if e_lt K (e_int K 0) a then e_mul K (e_neg K a) (e_ln K a) else e_int K 0 in
        h0 :: running (fun h q => if e_lt K (e_int K 0) q then e_sub K h (e_mul K q (e_ln K q)) else h) h0 l
    end.

  (** contrast.rs:154-169: one turn of the loop; the state is the pair
      (max_entropy, best_threshold) *)
  Definition kapur_step (cum h : list T) (s : Z) (st : T * Z) : res (T * Z) :=
    c <- vget cum s ;;
    let pq := e_mul K c (e_sub K (e_int K 1) c) in
    if e_le K pq (e_int K 0) then Ok st
    else
      hs <- vget h s ;;
      hN <- vget h 255 ;;
      let psi := e_add K (e_add K (e_ln K pq) (e_div K hs c)) (e_div K (e_sub K hN hs) (e_sub K (e_int K 1) c)) in
      Ok (if e_lt K (fst st) psi then (psi, s) else st).

  (** contrast.rs:109-172 *)
  Definition kapur_level (im : image Z) : res Z :=
    hist <- histogram 1 (luma im) ;;
    row <- vget hist 0 ;;
    total <- chk_u 32 (iw im * ih im) ;;
    let p := map (fun n => e_div K (e_int K n) (e_int K total)) row in
    let cum := kapur_cum p in
    let h := kapur_h p in
    st <- for_range 0 256 (kapur_step cum h) (e_min K, 0) ;;
    Ok (snd st mod 256).
End Kapur.
