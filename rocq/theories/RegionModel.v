(** Model of src/region_labelling.rs.  [unsafe_get_pixel]/[unsafe_put_pixel] are
    modelled by checked accesses.  Pixels are an arbitrary type with an equality
    test ([I::Pixel: Eq]); [usize] has 64 bits. *)
From Verif Require Import Base UnionFindModel.

(** src/region_labelling.rs:9-16 *)
Inductive connectivity := Four | Eight.

Definition is_eight (c : connectivity) : bool := match c with Four => false | Eight => true end.

Section Labelling.
  Context {A : Type} (eqb : A -> A -> bool).

  (** src/region_labelling.rs:157-164 (and 168-173, 178-183, 187-192): one
      neighbour test; [adj_labels\[0..num_adj\]] is the list [adj] *)
  Definition try_adj (im : image A) (out : image Z) (current : A) (guard : bool) (nx ny : Z)
             (adj : list Z) : res (list Z) :=
    if guard then
      pixel <- get_pixel im nx ny ;;
      if eqb pixel current then
        label <- get_pixel out nx ny ;;
        Ok (adj ++ [label])
      else Ok adj
    else Ok adj.

  (** src/region_labelling.rs:147-217: body of the first raster pass *)
  Definition label_pixel (im : image A) (conn : connectivity) (background : A) (y x : Z)
             (st : image Z * forest * Z) : res (image Z * forest * Z) :=
    let '(out, f, next_label) := st in
    current <- get_pixel im x y ;;
    if eqb current background then Ok st
    else
      adj <- try_adj im out current (0 <? x) (x - 1) y [] ;;
      adj <- try_adj im out current (0 <? y) x (y - 1) adj ;;
      adj <- try_adj im out current ((0 <? y) && is_eight conn && (0 <? x)) (x - 1) (y - 1) adj ;;
      adj <- try_adj im out current ((0 <? y) && is_eight conn && (x <? iw im - 1)) (x + 1) (y - 1) adj ;;
      match adj with
      | [] =>
          out' <- put_pixel out x y next_label ;;
          next' <- chk_u 32 (next_label + 1) ;;
          Ok (out', f, next')
      | _ :: _ =>
          let min_label := fold_left Z.min adj (2 ^ 32 - 1) in
          out' <- put_pixel out x y min_label ;;
          f' <- for_each adj (fun l f => union f min_label l) f ;;
          Ok (out', f', next_label)
      end.

  (** src/region_labelling.rs:225-241: body of the second raster pass *)
  Definition relabel_pixel (im : image A) (background : A) (y x : Z)
             (st : image Z * forest * list Z * Z) : res (image Z * forest * list Z * Z) :=
    let '(out, f, output_labels, count) := st in
    pixel <- get_pixel im x y ;;
    if eqb pixel background then Ok st
    else
      label <- get_pixel out x y ;;
      '(r, f') <- root f label ;;
      output_label <- vget output_labels r ;;
      '(output_label, count') <-
        (if output_label <? 1 then (c <- chk_u 32 (count + 1) ;; Ok (count, c))
         else Ok (output_label, count)) ;;
      output_labels' <- vset output_labels r output_label ;;
      out' <- put_pixel out x y output_label ;;
      Ok (out', f', output_labels', count').

  (** src/region_labelling.rs:122-245 *)
  Definition connected_components (im : image A) (conn : connectivity) (background : A)
    : res (image Z) :=
    let image_size := iw im * ih im in
    if 2 ^ 32 <=? image_size then Panic
    else
      let out := new_image (iw im) (ih im) 0 in
      if (iw im =? 0) || (ih im =? 0) then Ok out
      else
        '(out, f, _) <- for_range 0 (ih im) (fun y st =>
           for_range 0 (iw im) (fun x st => label_pixel im conn background y x st) st)
           (out, forest_new image_size, 1) ;;
        '(out, _, _, _) <- for_range 0 (ih im) (fun y st =>
           for_range 0 (iw im) (fun x st => relabel_pixel im background y x st) st)
           (out, f, map (fun _ => 0) (zrange 0 image_size), 1) ;;
        Ok out.
End Labelling.
