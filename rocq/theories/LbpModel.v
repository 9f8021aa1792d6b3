(** Model of src/local_binary_patterns.rs. *)
From Verif Require Import Base.

(** local_binary_patterns.rs 38-90.  [unsafe_get_pixel] is a read that must be in
    bounds: a read outside is modelled as an error. *)
Definition local_binary_pattern (im : image Z) (x y : Z) : res (option Z) :=
  if (iw im =? 0) || (ih im =? 0) then Ok None
  else if (x =? 0) || (iw im - 1 <=? x) || (y =? 0) || (ih im - 1 <=? y) then Ok None
  else
    center <- get_pixel im x y ;;
    neighbors <- mapM (fun '(dx, dy) => get_pixel im (x + dx) (y + dy))
      [(0, -1); (1, -1); (1, 0); (1, 1); (0, 1); (-1, 1); (-1, 0); (-1, -1)] ;;
    pattern <- for_range 0 8 (fun i pattern =>
       n <- vget neighbors i ;;
       Ok (Z.lor pattern (Z.shiftl (if n <? center then 1 else 0) i))) 0 ;;
    Ok (Some pattern).

(** u8::rotate_right, for 0 < k < 8 *)
Definition rotate_right (b k : Z) : Z := Z.lor (Z.shiftr b k) (Z.land (Z.shiftl b (8 - k)) 255).
(** local_binary_patterns.rs 101-107 *)
Definition min_shift (byte : Z) : Z :=
  fold_left (fun m i => Z.min m (rotate_right byte i)) (zrange 1 8) byte.
(** u8::count_ones *)
Definition count_ones8 (b : Z) : Z := zsum 0 8 (fun i => if Z.testbit b i then 1 else 0).
(** local_binary_patterns.rs 124-126 *)
Definition count_transitions (byte : Z) : Z := count_ones8 (Z.lxor byte (rotate_right byte 1)).

(** local_binary_patterns.rs 131-388, copied mechanically *)
Definition UNIFORM_REPRESENTATIVE_2 : list Z :=
  [
   0; 1; 1; 3; 1; 170; 3; 7; 1; 170; 170; 170; 3; 170; 7; 15; 1; 170; 170; 170; 170; 170; 170; 170; 3; 
   170; 170; 170; 7; 170; 15; 31; 1; 170; 170; 170; 170; 170; 170; 170; 170; 170; 170; 170; 170; 170; 
   170; 170; 3; 170; 170; 170; 170; 170; 170; 170; 7; 170; 170; 170; 15; 170; 31; 63; 1; 170; 170; 
   170; 170; 170; 170; 170; 170; 170; 170; 170; 170; 170; 170; 170; 170; 170; 170; 170; 170; 170; 170; 
   170; 170; 170; 170; 170; 170; 170; 170; 170; 3; 170; 170; 170; 170; 170; 170; 170; 170; 170; 170; 
   170; 170; 170; 170; 170; 7; 170; 170; 170; 170; 170; 170; 170; 15; 170; 170; 170; 31; 170; 63; 127; 
   1; 3; 170; 7; 170; 170; 170; 15; 170; 170; 170; 170; 170; 170; 170; 31; 170; 170; 170; 170; 170; 
   170; 170; 170; 170; 170; 170; 170; 170; 170; 170; 63; 170; 170; 170; 170; 170; 170; 170; 170; 170; 
   170; 170; 170; 170; 170; 170; 170; 170; 170; 170; 170; 170; 170; 170; 170; 170; 170; 170; 170; 170; 
   170; 170; 127; 3; 7; 170; 15; 170; 170; 170; 31; 170; 170; 170; 170; 170; 170; 170; 63; 170; 170; 
   170; 170; 170; 170; 170; 170; 170; 170; 170; 170; 170; 170; 170; 127; 7; 15; 170; 31; 170; 170; 
   170; 63; 170; 170; 170; 170; 170; 170; 170; 127; 15; 31; 170; 63; 170; 170; 170; 127; 31; 63; 170; 
   127; 63; 127; 127; 255
  ].

(** local_binary_patterns.rs 391-648, copied mechanically *)
Definition MIN_SHIFT : list Z :=
  [
   0; 1; 1; 3; 1; 5; 3; 7; 1; 9; 5; 11; 3; 13; 7; 15; 1; 17; 9; 19; 5; 21; 11; 23; 3; 25; 13; 27; 7; 
   29; 15; 31; 1; 9; 17; 25; 9; 37; 19; 39; 5; 37; 21; 43; 11; 45; 23; 47; 3; 19; 25; 51; 13; 53; 27; 
   55; 7; 39; 29; 59; 15; 61; 31; 63; 1; 5; 9; 13; 17; 21; 25; 29; 9; 37; 37; 45; 19; 53; 39; 61; 5; 
   21; 37; 53; 21; 85; 43; 87; 11; 43; 45; 91; 23; 87; 47; 95; 3; 11; 19; 27; 25; 43; 51; 59; 13; 45; 
   53; 91; 27; 91; 55; 111; 7; 23; 39; 55; 29; 87; 59; 119; 15; 47; 61; 111; 31; 95; 63; 127; 1; 3; 5; 
   7; 9; 11; 13; 15; 17; 19; 21; 23; 25; 27; 29; 31; 9; 25; 37; 39; 37; 43; 45; 47; 19; 51; 53; 55; 
   39; 59; 61; 63; 5; 13; 21; 29; 37; 45; 53; 61; 21; 53; 85; 87; 43; 91; 87; 95; 11; 27; 43; 59; 45; 
   91; 91; 111; 23; 55; 87; 119; 47; 111; 95; 127; 3; 7; 11; 15; 19; 23; 27; 31; 25; 39; 43; 47; 51; 
   55; 59; 63; 13; 29; 45; 61; 53; 87; 91; 95; 27; 59; 91; 111; 55; 119; 111; 127; 7; 15; 23; 31; 39; 
   47; 55; 63; 29; 61; 87; 95; 59; 111; 119; 127; 15; 31; 47; 63; 61; 95; 111; 127; 31; 63; 95; 127; 
   63; 127; 127; 255
  ].
