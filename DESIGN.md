# Design of the formal model of image-rs/imageproc

## 1. Technique

The model is written in Rocq (Coq 8.16.1) as small, total, computable functions, one per
function of the crate.  Each property of `properties.jsonl` is a theorem about those functions,
for all sizes, contents and histories.  Where the code violates the property as stated (usually:
as documented), the theorem is called `..._refuted` and exhibits a witness computed by the kernel;
the strongest true weaker statement is then proved next to it as `..._partial`.

### Common conventions of the model (`theories/Base.v`)

* A function that can panic returns `res A` = `Ok a | Panic | Timeout`.  `Panic` is a Rust panic
  (out-of-bounds `get_pixel`, failed `assert!`, arithmetic overflow in a build with overflow checks,
  `unwrap` on `None`).  `Timeout` is only produced by loops with explicit fuel (`loop`/`while`),
  never by `for` loops.  A theorem stating `= Ok _` therefore also states absence of panic and
  termination.
* `for x in lo..hi` is `for_range lo hi body`, structural recursion.
* `Image<P>` is `image A`: width, height (`Z`) and a row-major list of pixels.  `get_pixel`,
  `put_pixel` are bounds checked as in the `image` crate.  `unsafe_get_pixel` is modelled by the
  checked version, so an out-of-bounds unsafe access shows up as `Panic` and its absence is proved.
* Integers are `Z`.  Wherever a Rust fixed-width operation could overflow, the model either carries
  an explicit range check yielding `Panic`, or (stated in the comment of the definition) the
  theorem has a hypothesis / lemma showing it cannot overflow.
* Pixels are an arbitrary type `A` where the code is generic and only copies pixels; `Z` (one
  channel) where it computes.  Multi-channel code that treats channels independently is modelled
  per channel, said so in the comment.
* `f32`/`f64`: either proved exact (integers below 2^24 / 2^53), modelled with Flocq's IEEE-754
  binary32/binary64, or idealised to real/rational arithmetic.  Which one is said at each definition.

### File layout (`rocq/theories`)

`Base.v` (conventions), then for every area `XModel.v` (code model, every definition cites file and
lines), `XSpec.v` (independent specification), `XProofs.v` (lemmas), and `Props_X.v` (only
property theorems, closed by `exact`, each with `Print Assumptions`, and `Example`s showing the hypotheses are
met by non-trivial data).

## 2. Plan per property

* **C01** Flips mirror the image and are involutions. ComposeModel: in-place swap loops over `image A`. Loop invariant: rows/columns already swapped equal the mirror. Involution follows from the pixel characterisation and image extensionality.
* **C02** Quarter and half turns rotate exactly. GeomModel: rotate90/180/270 loops; same technique; group laws from the pixel characterisations.
* **C03** Integer translation replicates the border. GeomModel: translate with the slice copies; pointwise characterisation; i32 range hypothesis explicit.
* **C04** crop returns exactly the requested window. ComposeModel: crop; panic iff rectangle does not fit.
* **C05** replace copies the top image over the overlap. ComposeModel: replace. False of the code at the last row/column (`min(width-1, ..)`): refuted + partial.
* **C06** overlay blends the top image. ComposeModel: overlay with abstract blend. False (reads `bottom` instead of `top`): refuted + characterisation.
* **C07** Parallel variants equal the sequential ones under every schedule. MapModel: parallel execution = processing the pixels in an arbitrary permutation; equality with the sequential map.
* **C08** map_pixels2 is pointwise and rejects mismatched sizes. MapModel: false promise of panic refuted; pointwise law proved.
* **C09** Union-find tracks the equivalence closure of its unions. UnionFindModel: arrays as lists; invariant: acyclic parent forest with sizes; refinement to the equivalence closure by induction over the operation list.
* **C10** Connected components are exactly the monochrome components. RegionModel: two-pass algorithm over the union-find model; invariant relating labels and components of the scanned prefix.
* **C11** connected_components never panics on supported sizes. RegionModel: refuted with a 1x1 image.
* **C12** Integral images hold prefix sums. IntegralModel: loops; invariant on partially filled rows.
* **C13** sum_image_pixels is the rectangle sum. IntegralModel: checked unsigned arithmetic.
* **C14** Running sums equal windowed sums of the replicated row/column. IntegralModel: running sums over explicit buffers.
* **C15** adaptive_threshold compares with the clipped window mean. ContrastModel on top of IntegralModel.
* **C16** threshold follows the documented table. ContrastModel: table compared with the documented one; ToZero/ToZeroInverted refuted.
* **C17** stretch_contrast is the clamped affine map. ContrastModel: checked u16 arithmetic.
* **C18** Histogram equalisation is monotone and data-independent. FContrastModel: f32 with Flocq rounding (monotone rounding).
* **C19** Histograms count and percentiles are least levels. StatsModel: lists of counts.
* **C20** L1 and LInf distance transforms are exact. DistModel: two passes in place; invariant: after pass one each pixel has the best distance over the causal half plane paths; exactness by path induction.
* **C21** Squared Euclidean distance transform is exact. EuclidModel: the envelope algorithm with f64 arithmetic; invariants of both loops; rounded intersections compare with whole numbers as exact ones do.
* **C22** dilate/erode are the metric neighbourhoods of the foreground/background. MorphModel on top of DistModel; refuted for blank images at large k.
* **C23** Structuring-element constructors have the documented shape. MaskModel: membership by arithmetic.
* **C24** grayscale_dilate/erode are window max/min. MaskModel: mask_reduce row slicing.
* **C25** Grayscale opening and closing are idempotent and (anti-)extensive. MaskModel: adjunction between dilation and erosion.
* **C26** median_filter returns the true window median. MedianModel: histogram multiset invariant along the snake.
* **C27** 2-D filter is border-replicated correlation. FilterModel: kernels over Z (or any ring-like accumulate).
* **C28** 1-D filters agree with the reference formula for every kernel length. FilterModel: margins.
* **C29** separable_filter equals the outer-product 2-D correlation. FilterModel: refuted (intermediate clamp).
* **C30** box_filter is the two-pass truncated mean. BoxModel on top of running sums.
* **C31** Bresenham lines are complete, connected and close to the ideal line. LineModel: integer model of the f32 iterator (exact for |coords| < 2^22).
* **C32** Bresenham lines do not depend on drawing direction. LineModel.
* **C33** draw_line_segment touches exactly the in-image line pixels. LineModel: drawing.
* **C34** Rectangles are drawn exactly and clipped. RectModel.
* **C35** Circles are symmetric and within half a pixel of the radius. CircleModel: midpoint invariant.
* **C36** flood_fill recolours exactly the connected region. FloodModel: fuelled stack loop; partial correctness + termination measure.
* **C37** flood_fill always terminates. FloodModel: refuted; divergence for every fuel.
* **C38** Polygon filling never panics and follows the even-odd rule. PolygonModel: parity of crossings; rational intersections.
* **C39** suppress_non_maximum keeps exactly the local maxima. SuppressModel.
* **C40** local_maxima returns exactly the undominated points. SuppressModel: refuted, partial.
* **C41** Seams are valid. SeamModel.
* **C42** Seams are minimal. SeamModel: refuted with witness image.
* **C43** Seam removal and width reduction are exact. SeamModel.
* **C44** draw_vertical_seams marks the original coordinates. SeamModel: refuted.
* **C45** Contour following terminates and yields foreground borders. ContoursModel: termination by reversibility of the border-following step and pigeonhole.
* **C46** Every region has an outer contour. ContoursModel: refuted at the left edge.
* **C47** convex_hull contains all points and is convex. GeometryModel: Graham scan with checked i32 arithmetic and f64 distances; invariant over exact cross products (GeometryProofs), model against exact scan (HullProofs).
* **C48** contour_area is the shoelace area. GeometryModel: f64 shoelace accumulation, exact below 2^53 (AreaProofs); laws over Z; refuted for large coordinates.
* **C49** approximate_polygon_dp keeps the curve within epsilon. GeometryModel: recursion in f64; refuted for coinciding end points and for large coordinates; partial over the reals with rounding bounds (ApproxProofs).
* **C50** local_binary_pattern bits follow the documented numbering. LbpModel: refuted bit order; partial with the opposite order.
* **C51** Uniform LBP table is correct. LbpModel: exhaustive over 256 bytes (finite domain).
* **C52** FAST corner tests match their definition. CornerModel: the run search is checked on all 2^16 bit patterns (its complete domain); quick tests; FAST-12 refuted.
* **C53** FAST score is the largest passing threshold. CornerModel: monotonicity of the test in the threshold, loop invariant of the bisection.
* **C54** find_extremes returns extreme values and first locations. TemplateModel: loop invariant over raster order, generic in the comparison; refuted for (x, y) order and NaN.
* **C55** Template match scores are the documented sums. TemplateModel with Flocq: f32 accumulation, exact below 2^24, error bound (n+1)/2^24 otherwise; normalized methods by interval reasoning.
* **C56** BRIEF descriptors record every test. BriefModel: u128 shift written out; refuted.
* **C57** Hamming distance is a metric on descriptors and hashes. BriefModel.
* **C58** Descriptor matching is sound and finds duplicates. BriefModel: random bits universally quantified.
* **C59** HogSpec rejects incompatible options with an error. HogModel: option validation with usize arithmetic, the 3d views as offset arithmetic, descriptor assembly and block normalisation from an arbitrary grid of f32 histograms; an invariant that the written part of the vector is the concatenation of the blocks so far. cell_histograms (atan2) is not modelled.
* **C60** Canny hysteresis keeps exactly the weak edges linked to strong ones. EdgesModel: non-maximum suppression and hysteresis of the Canny detector over f32; the stack-based flood fill is related to the reachability closure by an invariant (marked = reachable, stack = frontier). Blur, Sobel and atan2 feed arbitrary f32 images.
* **C61** Clamp saturates. ClampModel: every Clamp impl, with Flocq for the float sources; order-theoretic specification of the nearest representable value.
* **C62** Sobel gradient magnitude is the integer square root. GradModel with Flocq.
* **C63** Rect membership and intersection agree. RectModel.
* **C64** Haar features evaluate to signed block sums. HaarModel: evaluate with u8 and i32 checks over the integral image model; the feature rectangle is cut into blocks and every block sum expressed by its corners.
* **C65** Haar feature count matches the enumeration. HaarModel: nested ranges as lists; NoDup, membership and length by induction; closed form by summation; refuted at 255.
* **C66** Projections compose and invert. ProjModel over R, f32 refutation with Flocq.
* **C67** Warping uses the pre-image or the default. WarpModel: interpolation in f32 with an approximate-arithmetic library for error bounds; guards characterised by exact floors; NaN refutations by computation.
* **C68** bilateral_filter size guard accepts every supported image. BilateralModel: bitwise negation as lxor with 2^32-1; equivalence over all u32.
* **C69** Salt-and-pepper noise changes pixels only to black or white. NoiseModel: the random number generator, its seeding and the samplers are parameters, so the theorems hold for every stream.
* **C70** In-place transposition is transposition. SignalsModel: swap loops over a flat vector, invariant per row; the 1-D DCT is a parameter.
* **C71** pixel_diffs lists exactly the differing pixels. UtilsModel: diffs as filtered raster lists; summary by the loop bounds.
* **C72** draw_cross draws a clipped plus sign. CrossModel.
* **C73** Weighted sums and interpolation stay between their inputs. PixelopsModel.
* **C74** Otsu's threshold maximises between-class variance. FContrastModel: f64 accumulation, exact sums; refuted for exact ties; partial with a relative error bound.
* **C75** match_histogram uses a monotone lookup. FContrastModel: loop invariant of the two-pointer scan; f32 shares are monotone, so the chosen level is nearest.
* **C76** LInf and L1 morphology obeys duality and composition. MorphModel.
* **C77** min_max returns attained per-channel bounds. StatsModel: loop invariant over the visited pixels.
* **C78** Line pixel iterators stay in the image and never hand out a pixel twice. LineModel: the major coordinate increases with every item, for all floats.
* **C79** Drawing a Haar feature paints exactly its blocks. HaarModel: draw loops, painted set as nested existence.
* **C80** The bilateral filter averages the clamped window for every radius. BilateralModel: exp and the colour distance are parameters; refuted from radius 91 (i16 table offset), partial below.
* **C81** Antialiased lines weight each pixel by its distance from the line. WuModel: plot loop over f32 intercepts; accumulated error bound along the line; refuted for negative coordinates.
* **C82** Control points determine the projection. ProjModel: rows of the linear system; the solver is a parameter assumed exact.
* **C83** Hough line detection reports the locally strongest lines over the threshold. HoughModel: f32 votes with Flocq, accumulator as image; suppression theorem of C17 reused; refuted at 65536 columns.
* **C84** A polar line is clipped to the image exactly. HoughModel: the clipping code over an arithmetic record, instantiated with R (exact clipping) and f32 (border membership); refuted at a lower corner.
* **C85** Drawing polar lines recolours only the pixels of the clipped lines. HoughModel + LineModel: clipped end points are inside the box, then the line theorem of C33.
* **C86** Mean squared error is the exact mean, zero only for equal images. SharpenModel: f64 sum exact below 2^53, one rounded division.
* **C87** sharpen3x3 and laplacian_filter compute the documented stencil with clamped borders. SharpenModel: instance of the 2-D correlation of C27 with checked integers (None = overflow).
* **C88** Channel extraction inverts channel embedding. SharpenModel: instance of map_pixels.
* **C89** Oriented FAST returns the strongest corners with their intensity-centroid orientation. OfastModel: corner score of C07/C08 reused, sort by score, moments of the patch; atan2 and random source as parameters.
* **C90** Kapur's threshold maximises the entropy of background and foreground. KapurModel: running sums over an arithmetic record, instantiated with R (equation 18 proved equal to the two entropies) and f64 (totality).
* **C91** Gaussian blur computes the normalised Gaussian average. GaussModel with Flocq: kernel construction loop, then the separable filter of C29; error bounds for sums of products of non-negative weights; exp is a parameter with a stated accuracy.
* **C92** sharpen_gaussian returns input + amount * (input - blur), clamped. GaussModel: blur of C91 on f32 images and one rounded expression per pixel.
* **C93** A cubic Bezier curve is drawn as a connected path close to the curve. BezierModel: the f32 evaluation with error bounds (Flocq), chord-to-curve distance from the second derivative over the reals, and the connected-line facts of C33.
* **C94** Text is drawn by covering pixels with the colour. TextModel: font and rasteriser as parameters; loop over stamps with a per-pixel invariant (painted); channel bounds reused from C73.
* **C95** Text size matches the laid-out text. TextModel: relational spec of the pen; refutation with a two-glyph font.
* **C96** The outline of an ellipse is connected, symmetric, and within one pixel of the ellipse. EllipseModel.v models draw_ellipse with both loops in f32 and the two render closures. With radii up to 250 px and py are exact, and p differs from the exact quadratic form by a bounded accumulated rounding error; loop invariants in the reals (EllipseProofs.v, EllipseProofs2.v) show every rendered offset has the ellipse within one pixel. Fuel is a parameter; the theorem holds for every fuel of at least w + h + 2.
* **C97** The filled ellipse is the area within its outline. Same list of offsets as C96; each row is a draw_line_segment call, shown to fill the row by the C32 line theorems; monotonicity of the quadratic form gives the inner and outer bounds.
* **C98** An antialiased polygon is its interior in solid colour with softened edges. AAPolygonModel.v models draw_antialiased_polygon as draw_polygon_with (C38) with the antialiased line plotter (C81); C38's scan-line theorem gives the fill, C81's theorem each edge line, composed over the list of edges in AAPolygonSpec.v.
* **C99** The HoG of an image is built from interpolated histograms of its gradients. HogCellsModel.v models cell_histograms and hog with atan2 as a parameter assumed accurate to 2^-20 (HogCellsSpec.v). Error analysis per operation (HogCellsProofs.v: direction; 2: interpolation; 3: one pixel; 4: the whole image, counting the pixels that touch a cell). The tent functions are Lipschitz, so a bin chosen wrongly by rounding costs only a small weight.
* **C100** Canny marks exactly the thinned, thresholded and connected edges of the blurred image. CannyModel.v composes the models of Gaussian blur (C91), Sobel (C23), suppression and hysteresis (C60) with hypot and atan2 as parameters. CannySpec.v restates the edge set over the reals and integers; the theorem goes through the accuracy of the direction (HogCellsProofs.v) and the order-preservation of the rounded strength. Consequences by bounds on the blurred window.
* **C101** Rotation shows at every pixel the value of the point that the rotation takes there. WarpModel.v has rotate and rotate_about_center with the sine and cosine as parameters accurate to 2^-22. RotateSpec.v gives the rotation over the reals. Exact entries (0, 1, negations) are tracked through the composition and the inverse; the rest by forward error analysis, then C67.
* **C102** The perceptual hash records which low frequencies are strong, whatever the brightness and contrast. PhashModel.v models phash on top of the models of dct2d (C70), crop (C04) and Bits64 (C57), with resize and the one-dimensional transform as parameters. PhashSpec.v gives the cosine coefficients over the reals. Forward error analysis of the two passes and of the running sum; the coefficients of a constant vanish (telescoping sum of cosines), which gives the invariance.
* **C103** min_area_rect returns the smallest rectangle around the points. MinRectModel.v models min_area_rect, rotating_calipers and Rotation for integer points in f64, with atan2 and sin_cos as parameters. MinRectSpec.v gives rectangles at any angle over the reals. MinRectGeom.v proves the theorem of Freeman and Shapira (a least rectangle is parallel to a hull edge) by a continuity and second-order argument; MinRectNum.v and MinRectProofs.v bound the rounding of the calipers. The refutation is a triangle whose least rectangle lies along the closing edge.
* **C104** render_hist_grid shows the star of every cell in its own square. RenderModel.v models render_hist_grid and the drawing of rays on top of the models of lines (C31) and HoG grids, with sin and cos as parameters. RenderSpec.v gives the value of a pixel of a star as the last bucket whose rays go through it. Induction over buckets and cells; the refutation is a grid of two cells.
* **C105** HoG blocks are unit vectors whatever the contrast. On top of HogModel.v (the blocks of the descriptor, C59). UnitSpec.v gives sums and norms over the reals. UnitProofs.v bounds the running sums, the square root and the division in f32; the refutations are single values whose squares underflow or overflow.
* **C106** A change of brightness changes no gradient, descriptor, corner or pattern. Two runs of the models of GradientModel.v, HogCellsModel.v, CornerModel.v and LbpModel.v on related images. BrightSpec.v says how the images are related. The derivatives come from C62 and C27, FAST and the patterns from the models pixel by pixel, the negative for FAST-9 from C52.
* **C107** Mirroring or turning the image mirrors or turns the result. SymSpec.v defines the eight symmetries of a rectangle and when one image is another one moved. The proofs combine the pixel-exact theorems of C10, C19, C20, C24, C26, C30, C52, C53 and C62 with re-indexed sums, distances, paths and circles (SymProofs.v, SymProofs2.v).
* **C108** A template cut from the image is found where it was cut. Props_Find.v defines an occurrence of a template pixel by pixel and combines C04, C54 and C55; a score is zero exactly at the occurrences, and Cauchy-Schwarz for the documented sums bounds the correlation.
* **C109** A tile can be processed on its own. Props_Tile.v defines tiles and the pixels clear of their cuts. Replicated borders of the tile and of the image agree within the reach; the theorems follow from the pixel-exact ones of C15, C22, C24, C26, C27, C29, C30, C53 and C62.
* **C110** Brighter images give brighter results and negatives give negatives. Props_Order.v defines the order and the negative pixel by pixel. Medians: more values at or above a level in the brighter image, mirrored counts in the negative; the rest follows from the pixel-exact theorems of C24, C26, C27, C30, C53 and C62.
* **C111** Contrast operations settle after one application. Props_Settle.v. Equalisation: the rank of an output level is the rank of the largest input level sent to it, by monotonicity. Matching: shares of present levels are at least 2^-22 apart, more than two f32 rounding errors, so the least level that reaches the share of a present level is that level. Large images: an explicit image whose two shares round to the same float.
* **C112** Shapes of one colour can be drawn in any order and any number of times. Props_Paint.v names the seven drawing calls as one type of shapes; every call recolours a set of pixels that depends only on the shape (C33, C34, C35, C38, C72), and unions of sets do not depend on the order.
* **C113** Distance transforms behave like distances and agree with each other. Props_Metric.v, from the exactness theorems of C20 and C21 and the triangle inequality; the blank value and the cap of 255 are covered.
* **C114** flood_fill recolours one connected component and can be undone. Props_FillRegion.v: reachability through pixels of one colour (C36) is the path relation of C10; after filling with a fresh colour the region is the set of pixels of that colour.
* **C115** Global statistics depend on which pixels there are, not where they are. Props_Shuffle.v: the histogram is a list of counts (C19), and counts are invariant under permutation; the other functions read the image only through the histogram and its size.
* **C116** Chains of geometric operations combine as expected. Props_Chain.v, pixel by pixel from the theorems of C01 to C05 and the algebra of clamped coordinates.

## 3. Trusted base

* Coq's kernel (with `vm_compute`).
* What `Print Assumptions` lists under every theorem in `Props_*.v`: for most of them nothing
  ("Closed under the global context"); for the theorems that mention real numbers, the standard
  library's axioms of the reals (see section 4).
* The faithfulness of the model to the Rust source, by reading.  The code was not run.
* Semantics assumed of dependencies: `image` crate (`ImageBuffer` row-major, bounds-checked
  `get_pixel`/`put_pixel`, `from_vec` accepts a container at least as long as needed; `SubImage::inner_mut` returns
  the underlying image, which C104 turns on), `rayon`
  (`for_each`/`map` call the closure once per element, in any order), `rand` (arbitrary stream).

### What is not modelled

Every public function of the crate that computes something has a definition in a `*Model*.v` file,
except those listed here.

* `src/window.rs` (opens a window through SDL), `src/proptest_utils.rs` (test data generators), and in
  `src/utils.rs` the loading of files, the bench images and the printing of pixel differences.
* Accessors that are inlined where they are used: `Rect::width`/`height`, the `Sink`/`Source` traits
  of `distance_transform.rs` (`len`, `get`, `set`), `Canvas::dimensions`, `Array3d`/`View3d` accessors,
  `HasBlack`/`HasWhite`, `Score`, the operators of `Point` and `Projection`, constructors.
* Functions that are parameters of the model, with what is assumed of them stated in each theorem:
  the real functions of libm (`exp`, `ln`, `sin`, `cos`, `tan`, `atan2`, `hypot`), the singular value
  decomposition of `nalgebra`, the one-dimensional transform of `rustdct`, `imageops::resize`,
  glyph outlines of `ab_glyph`, random generators.
* Running time and memory use.

## 4. Axioms listed by Print Assumptions

Theorems about f32/f64 arithmetic use Flocq (`BinarySingleNaN`), whose correctness lemmas are
stated over the standard library's real numbers.  `Print Assumptions` lists for them (and only
for them) the standard library's

* `ClassicalDedekindReals.sig_not_dec`, `ClassicalDedekindReals.sig_forall_dec`,
* `FunctionalExtensionality.functional_extensionality_dep`,
* `Classical_Prop.classic`.

They concern the files Props_Line.v (all but the concrete panic theorem), Props_Shape.v
(c34_hollow_rect, c35_filled_circle, c63_contains_f32), Props_Polygon.v, Props_Gradient.v,
Props_Seam.v and every later file that imports Float.v.
Even theorems whose statements only mention operations of Float.v list some of them, because the
operations carry proofs.  All other theorems are closed under the global context.  No axiom,
parameter, functor or module type is declared by this development.

`coqchk` also names constants that the standard library seals behind its own module types: those of
`Coq.Reals.Rdefinitions` (`RbaseSymbolsImpl.*`, `RinvImpl.*`, the operations of the reals, which are
defined there and hidden) and of `Coq.ssr.ssrunder` (`Under_rel.*`, loaded with Flocq's use of
ssreflect).  They are not assumptions of any theorem here.
