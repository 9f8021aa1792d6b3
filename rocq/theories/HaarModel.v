(** Model of src/haar.rs: Haar-like features.  [u8] and [i32] arithmetic is that
    of a debug build. *)
From Verif Require Import Base.

(** haar.rs 23-31 and 33-80 *)
Inductive sign := Positive | Negative.
Inductive feature_type := TwoRegionHorizontal | ThreeRegionHorizontal | TwoRegionVertical | ThreeRegionVertical | FourRegion.
(** haar.rs 14-21; [block_size] is the pair of block width and height *)
Record feature := mkFeature { fsign : sign; ftype : feature_type; block_width : Z; block_height : Z; left : Z; top : Z }.

(** haar.rs 82-93 shape *)
Definition shape (t : feature_type) : Z * Z :=
  match t with
  | TwoRegionHorizontal => (2, 1)
  | ThreeRegionHorizontal => (3, 1)
  | TwoRegionVertical => (1, 2)
  | ThreeRegionVertical => (1, 3)
  | FourRegion => (2, 2)
  end.

(** haar.rs 252-259 feature_size *)
Definition feature_size (t : feature_type) (bw bh : Z) : res (Z * Z) :=
  w <- chk_u 8 (fst (shape t) * bw) ;; h <- chk_u 8 (snd (shape t) * bh) ;; Ok (w, h).

(** haar.rs 220-225 block_boundary *)
Definition block_boundary (f : feature) (x y : Z) : res (Z * Z) :=
  dx <- chk_u 8 (x * block_width f) ;; bx <- chk_u 8 (left f + dx) ;;
  dy <- chk_u 8 (y * block_height f) ;; by_ <- chk_u 8 (top f + dy) ;;
  Ok (bx, by_).

(** haar.rs 247-249 read; unsafe_get_pixel outside the image is modelled as a panic.
    Pixels of the integral image are one-element channel lists. *)
Definition read (ii : image (list Z)) (loc : Z * Z) : res Z :=
  p <- get_pixel ii (fst loc) (snd loc) ;;
  v <- vget p 0 ;;
  Ok (if v <? 2 ^ 31 then v else v - 2 ^ 32).

(** [acc + k * v] and [acc - k * v]; the product is not written in the source when k is 1 *)
Definition plus (acc k v : Z) : res Z := t <- chk_i 32 (k * v) ;; chk_i 32 (acc + t).
Definition minus (acc k v : Z) : res Z := t <- chk_i 32 (k * v) ;; chk_i 32 (acc - t).

(** haar.rs 99-218 evaluate *)
Definition evaluate (f : feature) (ii : image (list Z)) : res Z :=
  size <- feature_size (ftype f) (block_width f) (block_height f) ;;
  assert (fst size + left f <? iw ii) ;;;
  assert (snd size + top f <? ih ii) ;;;
  a <- block_boundary f 0 0 ;;
  b <- block_boundary f 1 0 ;;
  e <- block_boundary f 0 1 ;;
  f' <- block_boundary f 1 1 ;;
  sum <- match ftype f with
    | TwoRegionHorizontal =>
      c <- block_boundary f 2 0 ;;
      g <- block_boundary f 2 1 ;;
      s <- read ii a ;;
      v <- read ii b ;; s <- minus s 2 v ;;
      v <- read ii c ;; s <- plus s 1 v ;;
      v <- read ii e ;; s <- minus s 1 v ;;
      v <- read ii f' ;; s <- plus s 2 v ;;
      v <- read ii g ;; minus s 1 v
    | ThreeRegionHorizontal =>
      c <- block_boundary f 2 0 ;;
      g <- block_boundary f 2 1 ;;
      d <- block_boundary f 3 0 ;;
      h <- block_boundary f 3 1 ;;
      s <- read ii a ;;
      v <- read ii b ;; s <- minus s 2 v ;;
      v <- read ii c ;; s <- plus s 2 v ;;
      v <- read ii d ;; s <- minus s 1 v ;;
      v <- read ii e ;; s <- minus s 1 v ;;
      v <- read ii f' ;; s <- plus s 2 v ;;
      v <- read ii g ;; s <- minus s 2 v ;;
      v <- read ii h ;; plus s 1 v
    | TwoRegionVertical =>
      i <- block_boundary f 0 2 ;;
      j <- block_boundary f 1 2 ;;
      s <- read ii a ;;
      v <- read ii b ;; s <- minus s 1 v ;;
      v <- read ii e ;; s <- minus s 2 v ;;
      v <- read ii f' ;; s <- plus s 2 v ;;
      v <- read ii i ;; s <- plus s 1 v ;;
      v <- read ii j ;; minus s 1 v
    | ThreeRegionVertical =>
      i <- block_boundary f 0 2 ;;
      j <- block_boundary f 1 2 ;;
      m <- block_boundary f 0 3 ;;
      n <- block_boundary f 1 3 ;;
      s <- read ii a ;;
      v <- read ii b ;; s <- minus s 1 v ;;
      v <- read ii e ;; s <- minus s 2 v ;;
      v <- read ii f' ;; s <- plus s 2 v ;;
      v <- read ii i ;; s <- plus s 2 v ;;
      v <- read ii j ;; s <- minus s 2 v ;;
      v <- read ii m ;; s <- minus s 1 v ;;
      v <- read ii n ;; plus s 1 v
    | FourRegion =>
      c <- block_boundary f 2 0 ;;
      g <- block_boundary f 2 1 ;;
      i <- block_boundary f 0 2 ;;
      j <- block_boundary f 1 2 ;;
      k <- block_boundary f 2 2 ;;
      s <- read ii a ;;
      v <- read ii b ;; s <- minus s 2 v ;;
      v <- read ii c ;; s <- plus s 1 v ;;
      v <- read ii e ;; s <- minus s 2 v ;;
      v <- read ii f' ;; s <- plus s 4 v ;;
      v <- read ii g ;; s <- minus s 2 v ;;
      v <- read ii i ;; s <- plus s 1 v ;;
      v <- read ii j ;; s <- minus s 2 v ;;
      v <- read ii k ;; plus s 1 v
    end ;;
  chk_i 32 (sum * match fsign f with Positive => 1 | Negative => -1 end).

(** haar.rs 328-334 block_sizes: the upper ends of both ranges are u8 *)
Definition block_sizes (t : feature_type) (w h : Z) : res (list (Z * Z)) :=
  mw <- chk_u 8 (w / fst (shape t) + 1) ;;
  mh <- chk_u 8 (h / snd (shape t) + 1) ;;
  Ok (list_prod (zrange 1 mw) (zrange 1 mh)).
(** haar.rs 336-341 start_positions *)
Definition start_positions (inner outer : Z) : res (list Z) :=
  upper <- (if outer <? inner then Ok 0 else t <- chk_u 8 (outer - inner) ;; chk_u 8 (t + 1)) ;;
  Ok (zrange 0 upper).
(** haar.rs 343-348 feature_positions *)
Definition feature_positions (size : Z * Z) (w h : Z) : res (list (Z * Z)) :=
  xs <- start_positions (fst size) w ;; ys <- start_positions (snd size) h ;; Ok (list_prod xs ys).

(** haar.rs 280-303 haar_features_of_type *)
Definition haar_features_of_type (t : feature_type) (w h : Z) : res (list feature) :=
  sizes <- block_sizes t w h ;;
  for_each sizes (fun '(bw, bh) features =>
    size <- feature_size t bw bh ;;
    positions <- feature_positions size w h ;;
    for_each positions (fun '(l, tp) features =>
      for_each [Positive; Negative] (fun sg features => Ok (features ++ [mkFeature sg t bw bh l tp])) features) features) [].

Definition feature_types : list feature_type :=
  [TwoRegionHorizontal; ThreeRegionHorizontal; TwoRegionVertical; ThreeRegionVertical; FourRegion].
(** haar.rs 261-278 enumerate_haar_features *)
Definition enumerate_haar_features (w h : Z) : res (list feature) :=
  ls <- mapM (fun t => haar_features_of_type t w h) feature_types ;; Ok (concat ls).

(** haar.rs 377-380 num_features, u32 arithmetic *)
Definition num_features (side blocks : Z) : res Z :=
  let m := side / blocks in
  s1 <- chk_u 32 (side + 1) ;;
  a <- chk_u 32 (m * s1) ;;
  m1 <- chk_u 32 (m + 1) ;;
  mm <- chk_u 32 (m * m1) ;;
  b <- chk_u 32 (blocks * (mm / 2)) ;;
  chk_u 32 (a - b).
(** haar.rs 361-375 number_of_haar_features *)
Definition number_of_haar_features (w h : Z) : res Z :=
  let term k l := a <- num_features w k ;; b <- num_features h l ;; chk_u 32 (a * b) in
  s <- term 2 1 ;;
  t <- term 3 1 ;; s <- chk_u 32 (s + t) ;;
  t <- term 1 2 ;; s <- chk_u 32 (s + t) ;;
  t <- term 1 3 ;; s <- chk_u 32 (s + t) ;;
  t <- term 2 2 ;; s <- chk_u 32 (s + t) ;;
  chk_u 32 (s * 2).

(** haar.rs 384-419 draw_haar_feature, draw_haar_feature_mut *)
Definition draw_haar_feature_mut {P} (white black : P) (im : image P) (f : feature) : res (image P) :=
  let shift := match fsign f with Positive => 0 | Negative => 1 end in
  for_range 0 (fst (shape (ftype f))) (fun w im =>
    for_range 0 (snd (shape (ftype f))) (fun h im =>
      let color := if (w + h + shift) mod 2 =? 0 then white else black in
      for_range 0 (block_width f) (fun x im =>
        for_range 0 (block_height f) (fun y im =>
          t <- chk_u 8 (w * block_width f) ;; t <- chk_u 8 (left f + t) ;; px <- chk_u 8 (t + x) ;;
          t <- chk_u 8 (h * block_height f) ;; t <- chk_u 8 (top f + t) ;; py <- chk_u 8 (t + y) ;;
          put_pixel im px py color) im) im) im) im.
