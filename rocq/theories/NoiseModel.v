(** Model of src/noise.rs.  The random generator and the samplers of the crates
    rand and rand_distr are parameters: [uniform seed k] is the k-th value drawn
    from Uniform(0, 1), [normal mean stddev seed k] the k-th value drawn from the
    normal distribution, and [normal_new mean stddev] tells whether Normal::new
    succeeds.  Nothing is assumed about these values. *)
From Verif Require Import Base Float ClampModel.

(** src/noise.rs:38-63 salt_and_pepper_noise, salt_and_pepper_noise_mut: the loop over pixels, with the number of values drawn
    so far.  [rate] and the draws are f64. *)
Section SaltPepper.
  Context {P : Type} (white black : P) (draw : Z -> f64) (rate : f64).
  Definition half : f64 := of_dyadic 1 (-1).
  Fixpoint salt_and_pepper_loop (k : Z) (ps : list P) : list P :=
    match ps with
    | [] => []
    | p :: ps =>
        if flt rate (draw k) then p :: salt_and_pepper_loop (k + 1) ps
        else (if fle half (draw (k + 1)) then white else black) :: salt_and_pepper_loop (k + 2) ps
    end.
End SaltPepper.
Definition salt_and_pepper_noise {P} (white black : P) (uniform : Z -> Z -> f64) (im : image P) (rate : f64) (seed : Z) : image P :=
  mkImage (iw im) (ih im) (salt_and_pepper_loop white black (uniform seed) rate 0 (idata im)).

(** src/noise.rs:20-34 gaussian_noise_mut on u8 channels; the i-th channel of
    the buffer gets the i-th draw *)
Definition gaussian_noise (normal_new : f64 -> f64 -> bool) (normal : f64 -> f64 -> Z -> Z -> f64)
    (im : image (list Z)) (mean stddev : f64) (seed : Z) : res (image (list Z)) :=
  assert (normal_new mean stddev) ;;;
  ' (d, _) <- for_each (idata im) (fun p '(d, k) =>
      ' (q, k) <- for_each p (fun c '(q, k) =>
          Ok (q ++ [clamp_f64_u8 (fadd (of_int c) (normal mean stddev seed k))], k + 1)) ([], k) ;;
      Ok (d ++ [q], k)) ([], 0) ;;
  Ok (mkImage (iw im) (ih im) d).
