{"id": "C01", "title": "Flips mirror the image and are involutions", "statement": "flip_horizontal(img) has the same size as img and its pixel at (x,y) is img's pixel at (width-1-x,y); flip_vertical mirrors y instead. Both never panic, the in-place variants agree, and applying the same flip twice returns the original image.", "quantifier": "every image size (including empty and odd sizes), every pixel content and pixel type", "why_tests_cant": "The in-place swap loops depend on the parity of width/height and on aliasing of the two swapped pixels; sample sizes do not cover all of them.", "anchors": ["src/compose.rs: flip_horizontal, flip_horizontal_mut, flip_vertical, flip_vertical_mut"]}
{"id": "C02", "title": "Quarter and half turns rotate exactly", "statement": "rotate90, rotate180 and rotate270 move every input pixel to the rotated position, lose and invent no pixel, never panic, and satisfy rotate90 four times = identity, rotate270 after rotate90 = identity, rotate90 twice = rotate180, rotate180 twice = identity.", "quantifier": "every image size and content", "why_tests_cant": "rotate180_mut treats the middle row of odd-height images specially and works in place; laws must hold for all sizes.", "anchors": ["src/geometric_transformations.rs: rotate90, rotate180, rotate180_mut, rotate270"]}
{"id": "C03", "title": "Integer translation replicates the border", "statement": "translate(img,(tx,ty)) returns an image of the same size whose pixel (x,y) is img's pixel at (clamp(x-tx,0,w-1), clamp(y-ty,0,h-1)), i.e. pre-images outside the image take the nearest boundary pixel.", "quantifier": "every non-empty image, every offset pair (positive, negative, larger than the image) not overflowing i32", "why_tests_cant": "The implementation copies row slices by cases on the sign and size of tx; a test cannot enumerate all offset/size combinations.", "anchors": ["src/geometric_transformations.rs: translate"]}
{"id": "C04", "title": "crop returns exactly the requested window", "statement": "crop(img,rect) panics iff the rectangle does not fit in the image, and otherwise returns an image of the rectangle's size whose pixel (x,y) is img's pixel (rect.x+x, rect.y+y).", "quantifier": "every image and rectangle", "why_tests_cant": "Quantifies over all rectangles, including degenerate and maximal ones.", "anchors": ["src/compose.rs: crop, crop_parallel"]}
{"id": "C05", "title": "replace copies the top image over the overlap", "statement": "replace(bottom,top,x,y) keeps the size of bottom, every bottom pixel covered by top placed at (x,y) becomes the corresponding top pixel, every other pixel is unchanged, and it panics iff (x,y) is outside bottom.", "quantifier": "all image sizes and offsets, in particular placements where top reaches the last row or column", "why_tests_cant": "The end coordinates are clamped; only the last row/column exposes an off-by-one, which the doc example avoids.", "anchors": ["src/compose.rs: replace, replace_mut"]}
{"id": "C06", "title": "overlay blends the top image", "statement": "overlay(bottom,top,x,y) blends onto every covered bottom pixel the corresponding pixel of top, using the original bottom pixel as backdrop, and leaves all other pixels unchanged.", "quantifier": "all image sizes, offsets, pixel contents and any blend function", "why_tests_cant": "A test with a transparent top image (as in the docs) cannot tell whether top is read at all.", "anchors": ["src/compose.rs: overlay, overlay_mut"]}
{"id": "C07", "title": "Parallel variants equal the sequential ones under every schedule", "statement": "map_subpixels/map_pixels/map_enumerated_pixels (and _mut) give the same image as their _parallel variants whatever order the worker threads process the pixels in; the same holds for row-parallel filters and template matching.", "quantifier": "every image, every pure pixel function, every order in which the pixel or row tasks are executed", "why_tests_cant": "Schedules cannot be enumerated by tests.", "anchors": ["src/map.rs: map_*_parallel, map_*_mut_parallel", "src/filter/mod.rs: filter_parallel", "src/template_matching.rs: match_template_parallel"]}
{"id": "C08", "title": "map_pixels2 is pointwise and rejects mismatched sizes", "statement": "map_pixels2(a,b,f) applied to images of equal dimensions returns the image of f(a(x,y),b(x,y)); for images of different dimensions it panics.", "quantifier": "all pairs of images and all pure functions", "why_tests_cant": "The panic promise must hold for every pair of mismatched dimensions.", "anchors": ["src/map.rs: map_pixels2"]}
{"id": "C09", "title": "Union-find tracks the equivalence closure of its unions", "statement": "After any sequence of union, root and find calls on a forest of n elements, find(i,j) is true iff i and j are related by the reflexive-symmetric-transitive closure of the unioned pairs; num_trees is n minus the number of merging unions; trees() lists each class exactly once; no call with in-range arguments panics or loops forever.", "quantifier": "every n and every finite history of operations", "why_tests_cant": "Path compression and union by size make the internal state history dependent.", "anchors": ["src/union_find.rs: DisjointSetForest::{new,num_trees,root,find,union,trees}"]}
{"id": "C10", "title": "Connected components are exactly the monochrome components", "statement": "connected_components(img,conn,background) labels background pixels 0, gives two non-background pixels the same label iff they are joined by a 4-/8-connected path of pixels of one colour, and uses labels 1,2,3,... in raster order of first appearance.", "quantifier": "every image with fewer than 2^32 pixels, both connectivities, any background colour", "why_tests_cant": "The two-pass algorithm with equivalences is only right if it is right for every spiral/comb shape.", "anchors": ["src/region_labelling.rs: connected_components", "src/union_find.rs"]}
{"id": "C11", "title": "connected_components never panics on supported sizes", "statement": "connected_components panics only if the image has 2^32 or more pixels.", "quantifier": "every image, both connectivities, any background", "why_tests_cant": "A panic needs a specific foreground pattern (e.g. a single all-foreground pixel), not a specific size.", "anchors": ["src/region_labelling.rs: connected_components", "src/union_find.rs: DisjointSetForest::root"]}
{"id": "C12", "title": "Integral images hold prefix sums", "statement": "integral_image(img) is (w+1) by (h+1), its entry (x,y) is the sum of all pixels with x'<x and y'<y (per channel), and integral_squared_image the sum of squares; no panic or wrap occurs as long as the total fits the subpixel type.", "quantifier": "every image whose total fits the accumulator type", "why_tests_cant": "A recurrence over the whole image; sums must be right at every position for every size.", "anchors": ["src/integral_image.rs: integral_image, integral_squared_image, integral_image_impl"]}
{"id": "C13", "title": "sum_image_pixels is the rectangle sum", "statement": "sum_image_pixels(integral_image(img),l,t,r,b) equals the sum of img over the inclusive rectangle [l,r]x[t,b], with no intermediate unsigned underflow.", "quantifier": "every image and every rectangle inside it", "why_tests_cant": "Order of unsigned additions and subtractions matters for underflow for adversarial contents.", "anchors": ["src/integral_image.rs: sum_image_pixels"]}
{"id": "C14", "title": "Running sums equal windowed sums of the replicated row/column", "statement": "row_running_sum/column_running_sum fill the buffer so that differences of entries 2*padding+1 apart are exactly the window sums of the row/column extended by repeating its end pixels.", "quantifier": "every image, row/column index and padding", "why_tests_cant": "Index bookkeeping with padding at both ends for all sizes.", "anchors": ["src/integral_image.rs: row_running_sum, column_running_sum"]}
{"id": "C15", "title": "adaptive_threshold compares with the clipped window mean", "statement": "adaptive_threshold(img,r,delta) sets pixel (x,y) to 255 if img(x,y) >= floor-mean of the (2r+1)^2 window clipped to the image minus delta, else 0, and never panics for r > 0.", "quantifier": "every image, radius > 0 and delta", "why_tests_cant": "Window clipping at four borders for arbitrary radius and sizes.", "anchors": ["src/contrast.rs: adaptive_threshold"]}
{"id": "C16", "title": "threshold follows the documented table", "statement": "threshold(img,t,kind) maps every pixel according to the formula documented for the ThresholdType variant.", "quantifier": "every image, threshold and variant", "why_tests_cant": "The documented formula is the contract; tests that encode the code's behaviour cannot reveal a swap.", "anchors": ["src/contrast.rs: threshold, threshold_mut, ThresholdType"]}
{"id": "C17", "title": "stretch_contrast is the clamped affine map", "statement": "stretch_contrast(img,imin,imax,omin,omax) maps v<=imin to omin, v>=imax to omax and otherwise to omin + floor((v-imin)*(omax-omin)/(imax-imin)); it is monotone, stays in [omin,omax], never overflows its u16 arithmetic, and panics iff imin>=imax or omin>omax.", "quantifier": "every image and every 4-tuple of u8 bounds", "why_tests_cant": "2^32 parameter combinations times pixel values; overflow must be excluded for all.", "anchors": ["src/contrast.rs: stretch_contrast, stretch_contrast_mut"]}
{"id": "C18", "title": "Histogram equalisation is monotone and data-independent", "statement": "equalize_histogram maps equal pixels to equal pixels, never inverts the order of two intensities, and sends the brightest occurring intensity to 255.", "quantifier": "every non-empty image of fewer than 2^24 pixels", "why_tests_cant": "Order preservation through f32 division and truncation for every cumulative histogram.", "anchors": ["src/contrast.rs: equalize_histogram, equalize_histogram_mut"]}
{"id": "C19", "title": "Histograms count and percentiles are least levels", "statement": "histogram counts each level of each channel, cumulative_histogram is its prefix sum and ends at the pixel count, and percentile(img,p) is the least level whose cumulative share is at least p percent.", "quantifier": "every image and every p in 0..=100 (non-empty image for percentile)", "why_tests_cant": "Rounding of the integer percentage must never skip or overshoot a level.", "anchors": ["src/stats.rs: histogram, cumulative_histogram, percentile"]}
{"id": "C20", "title": "L1 and LInf distance transforms are exact", "statement": "distance_transform(img,L1|LInf) gives each pixel min(D,255) where D is the distance in that norm to the nearest foreground pixel, and the documented cap min(w+h,255) when there is none.", "quantifier": "every image size and content, both norms", "why_tests_cant": "A two-pass propagation must find the global minimum for every configuration.", "anchors": ["src/distance_transform.rs: distance_transform, distance_transform_mut, distance_transform_impl"]}
{"id": "C21", "title": "Squared Euclidean distance transform is exact", "statement": "euclidean_squared_distance_transform(img) gives each pixel the exact minimum of dx^2+dy^2 over foreground pixels, and infinity when there are none.", "quantifier": "every image size and content", "why_tests_cant": "The lower-envelope-of-parabolas algorithm has delicate index/intersection invariants.", "anchors": ["src/distance_transform.rs: euclidean_squared_distance_transform, distance_transform_1d_mut"]}
{"id": "C22", "title": "dilate/erode are the metric neighbourhoods of the foreground/background", "statement": "dilate(img,norm,k) is 255 exactly at pixels within distance k of a foreground pixel; erode is 0 exactly at pixels within distance k of a background pixel.", "quantifier": "every image, every k in 0..=255, norms L1 and LInf", "why_tests_cant": "Must hold for blank images and for k near the saturation value.", "anchors": ["src/morphology.rs: dilate, dilate_mut, erode, erode_mut"]}
{"id": "C23", "title": "Structuring-element constructors have the documented shape", "statement": "Mask::square(r), Mask::diamond(r), Mask::disk(r) contain exactly the offsets with LInf, L1, L2 norm at most r, each once, in the sorted order the reduction relies on; Mask::from_image contains exactly the non-zero pixels shifted by the centre.", "quantifier": "every radius 0..=255 and every mask image at most 511 wide/high", "why_tests_cant": "All radii and all offsets.", "anchors": ["src/morphology.rs: Mask::{square,diamond,disk,from_image}"]}
{"id": "C24", "title": "grayscale_dilate/erode are window max/min", "statement": "grayscale_dilate(img,mask) gives at (x,y) the maximum of img over in-image positions (x,y)+offset for offsets in the mask (0 if none); grayscale_erode the minimum (255 if none).", "quantifier": "every image, every mask", "why_tests_cant": "Row-sliced reduction with clipping at all borders for arbitrary masks.", "anchors": ["src/morphology.rs: grayscale_dilate, grayscale_erode, mask_reduce"]}
{"id": "C25", "title": "Grayscale opening and closing are idempotent and (anti-)extensive", "statement": "grayscale_open(img,mask) <= img <= grayscale_close(img,mask) pointwise, both are monotone in img, and applying either twice equals applying it once.", "quantifier": "every image and every point-symmetric mask", "why_tests_cant": "Algebraic laws over all images and masks.", "anchors": ["src/morphology.rs: grayscale_open, grayscale_close"]}
{"id": "C26", "title": "median_filter returns the true window median", "statement": "median_filter(img,rx,ry) gives every pixel (per channel) the median of the (2rx+1)x(2ry+1) window of the border-replicated image, and panics only when the documented sizes are exceeded.", "quantifier": "every image size, content and radii", "why_tests_cant": "The sliding histogram is updated incrementally along a snake path; any missed update accumulates.", "anchors": ["src/filter/median.rs: median_filter"]}
{"id": "C27", "title": "2-D filter is border-replicated correlation", "statement": "filter(img,kernel,f)/filter_clamped give at (x,y) f of sum_{i,j} kernel(i,j)*img(clamp(x+i-kw/2), clamp(y+j-kh/2)).", "quantifier": "every image and every kernel size (odd and even, larger than the image)", "why_tests_cant": "Centre and clamping arithmetic for all combinations of sizes.", "anchors": ["src/filter/mod.rs: filter, filter_clamped, filter_parallel"]}
{"id": "C28", "title": "1-D filters agree with the reference formula for every kernel length", "statement": "horizontal_filter/vertical_filter give at each pixel the clamped sum over i of kernel[i]*img(clamp(x+i-k/2)), whichever code path (kernel shorter or longer than the row) is used.", "quantifier": "every image and every kernel length", "why_tests_cant": "Separate margin code for left, interior, right and for oversized kernels.", "anchors": ["src/filter/mod.rs: horizontal_filter, vertical_filter"]}
{"id": "C29", "title": "separable_filter equals the outer-product 2-D correlation", "statement": "separable_filter(img,h,v) returns the result of the 2-D correlation with the outer product of the kernels, as documented.", "quantifier": "every image, every kernel pair of equal length", "why_tests_cant": "Fails only when the intermediate row pass leaves the pixel range.", "anchors": ["src/filter/mod.rs: separable_filter, separable_filter_equal"]}
{"id": "C30", "title": "box_filter is the two-pass truncated mean", "statement": "box_filter(img,rx,ry) gives at each pixel the floor-mean over the vertical window of the floor-means over the horizontal window of the border-replicated image.", "quantifier": "every non-empty image and radii", "why_tests_cant": "Running-sum buffers and index arithmetic for all sizes.", "anchors": ["src/filter/box_filter.rs: box_filter"]}
{"id": "C31", "title": "Bresenham lines are complete, connected and close to the ideal line", "statement": "For integer end points the line iterator yields exactly max(|dx|,|dy|)+1 points, each a king's move from the previous, includes both end points, and every point is within half a pixel of the ideal line along the minor axis.", "quantifier": "every pair of integer end points of magnitude at most 2^22 (where f32 arithmetic on them is exact)", "why_tests_cant": "All slopes and all octants.", "anchors": ["src/drawing/line.rs: BresenhamLineIter"]}
{"id": "C32", "title": "Bresenham lines do not depend on drawing direction", "statement": "The line from a to b and the line from b to a cover the same set of pixels.", "quantifier": "every pair of finite f32 end points", "why_tests_cant": "Tie-breaking on exact half-pixel crossings is direction-sensitive.", "anchors": ["src/drawing/line.rs: BresenhamLineIter"]}
{"id": "C33", "title": "draw_line_segment touches exactly the in-image line pixels", "statement": "draw_line_segment sets exactly the pixels of the Bresenham line that lie inside the image, changes nothing else and never panics.", "quantifier": "every image with sides below 2^31 and every pair of integer end points of magnitude at most 2^22; more generally every f32 line whose coordinates do not overflow i32", "why_tests_cant": "Clipping for every position relative to the canvas.", "anchors": ["src/drawing/line.rs: draw_line_segment, draw_line_segment_mut"]}
{"id": "C34", "title": "Rectangles are drawn exactly and clipped", "statement": "draw_filled_rect colours exactly the image pixels inside the rectangle; draw_hollow_rect exactly those on its one-pixel border; all other pixels unchanged.", "quantifier": "every non-empty image; filled: every rectangle within i32; hollow: coordinates of magnitude up to 2^22, where the f32 lines it is made of are exact", "why_tests_cant": "All clipping cases.", "anchors": ["src/drawing/rect.rs", "src/rect.rs: Rect::intersect, Rect::contains"]}
{"id": "C35", "title": "Circles are symmetric and within half a pixel of the radius", "statement": "draw_hollow_circle draws only pixels (x,y) whose offset from the centre satisfies the midpoint-circle inequality, draws in every column of the first octant, is 8-fold symmetric, and clips to the image; a negative radius draws nothing.", "quantifier": "every centre and radius, every image", "why_tests_cant": "All radii.", "anchors": ["src/drawing/conics.rs: draw_hollow_circle, draw_filled_circle"]}
{"id": "C36", "title": "flood_fill recolours exactly the connected region", "statement": "flood_fill(img,x,y,c) with c different from the colour at (x,y) recolours exactly the pixels 4-connected to (x,y) through pixels of that colour, and terminates without panic.", "quantifier": "every image, every start pixel, every new colour different from the old", "why_tests_cant": "The span-stack algorithm has to reach every shape of region.", "anchors": ["src/drawing/fill.rs: flood_fill, flood_fill_mut"]}
{"id": "C37", "title": "flood_fill always terminates", "statement": "flood_fill returns for every image, start pixel and fill colour.", "quantifier": "every image, start and colour, in particular filling with the colour already present", "why_tests_cant": "Non-termination cannot be observed by a finite test and depends on colour equality.", "anchors": ["src/drawing/fill.rs: flood_fill_mut"]}
{"id": "C38", "title": "Polygon filling never panics and follows the even-odd rule", "statement": "draw_polygon with at least 3 distinct-ended vertices never panics: every scan line crosses an even number of edges; filled pixels of a scan line are exactly the closed spans between consecutive crossing pairs, plus the outline.", "quantifier": "every vertex list whose first and last points differ, every image", "why_tests_cant": "Pairing of crossings depends on vertices lying exactly on the scan line.", "anchors": ["src/drawing/polygon.rs: draw_polygon_mut, draw_polygon_with_mut"]}
{"id": "C39", "title": "suppress_non_maximum keeps exactly the local maxima", "statement": "suppress_non_maximum(img,r) keeps a pixel's value iff no other pixel within LInf distance r is larger, or equal and lexicographically smaller in (x,y); all other pixels become 0.", "quantifier": "every image and radius", "why_tests_cant": "The block-skipping algorithm must agree with the definition for every alignment.", "anchors": ["src/suppress.rs: suppress_non_maximum"]}
{"id": "C40", "title": "local_maxima returns exactly the undominated points", "statement": "local_maxima(points,r) returns exactly the points for which no other input point within LInf distance r has a strictly larger score (ties broken by coordinate order).", "quantifier": "every list of scored points sorted by rows, every radius", "why_tests_cant": "Row-range arithmetic at the last row.", "anchors": ["src/suppress.rs: local_maxima"]}
{"id": "C41", "title": "Seams are valid", "statement": "find_vertical_seam(img) returns one column index per row, each within the image, consecutive ones differing by at most 1, and never panics for width>=2 and height>=1.", "quantifier": "every grayscale image with width >= 2", "why_tests_cant": "Back-tracking through dynamic-programming data at both borders.", "anchors": ["src/seam_carving.rs: find_vertical_seam"]}
{"id": "C42", "title": "Seams are minimal", "statement": "find_vertical_seam(img) returns a seam whose total gradient energy is minimal among all connected vertical seams.", "quantifier": "every grayscale image", "why_tests_cant": "Optimality over exponentially many seams.", "anchors": ["src/seam_carving.rs: find_vertical_seam"]}
{"id": "C43", "title": "Seam removal and width reduction are exact", "statement": "remove_vertical_seam deletes exactly the seam pixel from each row keeping order; shrink_width(img,target) returns an image of exactly the target width with rows that are subsequences of the original rows.", "quantifier": "every image, seam and target width (2 <= target <= width, or target = width)", "why_tests_cant": "Repeated application, all widths.", "anchors": ["src/seam_carving.rs: remove_vertical_seam, shrink_width"]}
{"id": "C44", "title": "draw_vertical_seams marks the original coordinates", "statement": "draw_vertical_seams(img, seams) with seams removed one after another marks exactly the original positions of the removed pixels.", "quantifier": "every image and every sequence of successively removed seams", "why_tests_cant": "The index shift depends on the order and number of previously removed seams.", "anchors": ["src/seam_carving.rs: draw_vertical_seams"]}
{"id": "C45", "title": "Contour following terminates and yields foreground borders", "statement": "find_contours terminates without panic on every image; every contour point is a foreground pixel, consecutive points are 8-neighbours, and every parent index refers to an earlier contour.", "quantifier": "every binary image", "why_tests_cant": "Termination of border following needs an argument about every shape.", "anchors": ["src/contours.rs: find_contours, find_contours_with_threshold"]}
{"id": "C46", "title": "Every region has an outer contour", "statement": "Every 8-connected foreground region contributes exactly one contour of type Outer, whose first point is its first pixel in raster order.", "quantifier": "every binary image including regions touching the image edge", "why_tests_cant": "Edge-touching regions.", "anchors": ["src/contours.rs: find_contours"]}
{"id": "C47", "title": "convex_hull contains all points and is convex", "statement": "convex_hull(points) returns input points, in order, such that every input point lies on or to the inner side of every hull edge and no three consecutive hull points are collinear or turn the wrong way.", "quantifier": "every list of points (at least 3 not all collinear, coordinates small enough for i32 products)", "why_tests_cant": "Graham scan correctness for all point sets with duplicates and collinear runs.", "anchors": ["src/geometry.rs: convex_hull, orientation"]}
{"id": "C48", "title": "contour_area is the shoelace area", "statement": "oriented_contour_area changes sign under reversal of the contour, is unchanged by cyclic rotation of the start point and by translation, and contour_area is its absolute value.", "quantifier": "every closed contour with integer coordinates", "why_tests_cant": "Laws over all polygons.", "anchors": ["src/geometry.rs: contour_area, oriented_contour_area"]}
{"id": "C49", "title": "approximate_polygon_dp keeps the curve within epsilon", "statement": "approximate_polygon_dp(curve,eps,closed) returns a subsequence of curve, starting at its first point, such that every dropped point is within eps of the chord replacing it.", "quantifier": "every curve and eps > 0", "why_tests_cant": "Recursion over all curves; degenerate chords.", "anchors": ["src/geometry.rs: approximate_polygon_dp"]}
{"id": "C50", "title": "local_binary_pattern bits follow the documented numbering", "statement": "local_binary_pattern returns None exactly on the one-pixel border (or outside), and otherwise a byte whose n-th most significant bit is set iff the centre is strictly brighter than neighbour n.", "quantifier": "every image and position", "why_tests_cant": "Documented bit order for all 256 comparison outcomes.", "anchors": ["src/local_binary_patterns.rs: local_binary_pattern"]}
{"id": "C51", "title": "Uniform LBP table is correct", "statement": "UNIFORM_REPRESENTATIVE_2[b] is the least rotation of b if b has at most two circular bit transitions and 170 otherwise; min_shift(b) is the least of the eight rotations.", "quantifier": "all 256 bytes", "why_tests_cant": "A hand-written table of 256 entries.", "anchors": ["src/local_binary_patterns.rs: UNIFORM_REPRESENTATIVE_2, min_shift, count_transitions"]}
{"id": "C52", "title": "FAST corner tests match their definition", "statement": "A pixel at least 3 from the border is a FAST-9/FAST-12 corner iff some circular run of 9/12 of the 16 circle pixels is entirely brighter than centre+t or entirely darker than centre-t; other pixels are never corners.", "quantifier": "every image, position and threshold", "why_tests_cant": "The quick-rejection tests and wrap-around run search must not change the answer for any of 2^128 circles.", "anchors": ["src/corners.rs: is_corner_fast9, is_corner_fast12, search_span"]}
{"id": "C53", "title": "FAST score is the largest passing threshold", "statement": "fast_corner_score(img,t,x,y,variant) for a pixel that is a corner at t returns the largest threshold in t..=255 at which it is still a corner, terminates, and never underflows.", "quantifier": "every image, position and threshold", "why_tests_cant": "Binary search relies on monotonicity for all contents.", "anchors": ["src/corners.rs: fast_corner_score"]}
{"id": "C54", "title": "find_extremes returns extreme values and first locations", "statement": "find_extremes returns the largest/smallest values and, among their locations, the lexicographically smallest.", "quantifier": "every non-empty image", "why_tests_cant": "Tie-breaking order for all images.", "anchors": ["src/template_matching.rs: find_extremes"]}
{"id": "C55", "title": "Template match scores are the documented sums", "statement": "match_template(img,tpl,SumOfSquaredErrors|CrossCorrelation) (and the masked versions) returns an (iw-tw+1)x(ih-th+1) image whose entries are the documented sums, reading only in-bounds pixels.", "quantifier": "every image and template with template no larger than image and sums below 2^24", "why_tests_cant": "unsafe_get_pixel makes out-of-bounds access a memory-safety matter for all sizes.", "anchors": ["src/template_matching.rs: match_template, match_template_with_mask"]}
{"id": "C56", "title": "BRIEF descriptors record every test", "statement": "brief(img,keypoints,len,pairs) returns descriptors of len bits, and two keypoints with different outcome on some test pair get different descriptors.", "quantifier": "every image, keypoints at least 17 from the edge, every list of test pairs whose length is a multiple of 128", "why_tests_cant": "Bits shifted out of a 128-bit chunk are lost silently.", "anchors": ["src/binary_descriptors/brief.rs: brief, brief_impl"]}
{"id": "C57", "title": "Hamming distance is a metric on descriptors and hashes", "statement": "hamming_distance counts differing bits: zero iff equal, symmetric, satisfies the triangle inequality and never exceeds the length.", "quantifier": "all pairs/triples of descriptors of equal length and of 64-bit perceptual hashes", "why_tests_cant": "All bit patterns.", "anchors": ["src/binary_descriptors/brief.rs: hamming_distance", "src/image_hash/bits.rs: Bits64"]}
{"id": "C58", "title": "Descriptor matching is sound and finds duplicates", "statement": "Every pair returned by match_binary_descriptors is (element of d1, element of d2) at distance below the threshold; every query that has an identical descriptor on the other side is matched, whatever random bits are drawn; every element of d1 with an exact duplicate in d2 is matched (threshold>0).", "quantifier": "all descriptor lists, thresholds and all random bit choices", "why_tests_cant": "Randomised hashing; the guarantee must hold for every draw.", "anchors": ["src/binary_descriptors/mod.rs: match_binary_descriptors"]}
{"id": "C59", "title": "HogSpec rejects incompatible options with an error", "statement": "HogSpec::from_options returns Ok only if cells tile the image and blocks tile the cells, returns Err otherwise without panicking, and on Ok the descriptor length is blocks_wide*blocks_high*orientations*block_side^2 with every block inside the cell grid.", "quantifier": "all image sizes and option values", "why_tests_cant": "usize subtraction and modulo can panic for some options.", "anchors": ["src/hog.rs: HogSpec::from_options, num_blocks, View3d::offset"]}
{"id": "C60", "title": "Canny hysteresis keeps exactly the weak edges linked to strong ones", "statement": "The hysteresis stage of canny marks exactly the pixels at or above the low threshold that are 8-connected through such pixels to a pixel at or above the high threshold.", "quantifier": "every suppressed-gradient image and 0 < low <= high", "why_tests_cant": "Neighbour enumeration must be complete for every edge direction.", "anchors": ["src/edges.rs: canny, hysteresis"]}
{"id": "C61", "title": "Clamp saturates", "statement": "Clamp::clamp(v) for every integer and float source type returns the value of the target range nearest to v (truncating fractions), for all non-NaN v.", "quantifier": "every source value", "why_tests_cant": "Boundary values of every type pair.", "anchors": ["src/definitions.rs: Clamp"]}
{"id": "C62", "title": "Sobel gradient magnitude is the integer square root", "statement": "sobel_gradients/prewitt_gradients give at each pixel floor(sqrt(gx^2+gy^2)) exactly, despite f32 arithmetic.", "quantifier": "every grayscale image", "why_tests_cant": "Rounding of f32 sqrt could cross an integer for some of two million inputs.", "anchors": ["src/gradients.rs: gradients, gradient_magnitude"]}
{"id": "C63", "title": "Rect membership and intersection agree", "statement": "Rect::contains(p) is left<=x<=right and top<=y<=bottom; a.intersect(b) is Some exactly when some pixel is in both, and its pixels are exactly the common ones.", "quantifier": "all rectangles representable without i32 overflow", "why_tests_cant": "All relative placements.", "anchors": ["src/rect.rs: Rect"]}
{"id": "C64", "title": "Haar features evaluate to signed block sums", "statement": "HaarFeature::evaluate on the integral image of a frame equals the sum of pixels in its white blocks minus the sum in its black blocks, negated for negative sign, reading only in-bounds entries and without i32 overflow.", "quantifier": "every u8 frame and every enumerated feature", "why_tests_cant": "Coefficient errors only appear for particular feature types and contents.", "anchors": ["src/haar.rs: HaarFeature::evaluate, enumerate_haar_features"]}
{"id": "C65", "title": "Haar feature count matches the enumeration", "statement": "enumerate_haar_features(w,h) lists each valid feature exactly once and has number_of_haar_features(w,h) elements.", "quantifier": "all u8 frame sizes 0..=255", "why_tests_cant": "Closed-form sum versus enumeration for all sizes including 255.", "anchors": ["src/haar.rs: enumerate_haar_features, number_of_haar_features"]}
{"id": "C66", "title": "Projections compose and invert", "statement": "Multiplying projections composes their point maps, invert() undoes the map, and from_matrix returns None exactly for non-invertible matrices.", "quantifier": "all matrices and points (real-number semantics); the None promise also in f32", "why_tests_cant": "Algebraic identities over all matrices; NaN paths.", "anchors": ["src/geometric_transformations.rs: Projection"]}
{"id": "C67", "title": "Warping uses the pre-image or the default", "statement": "warp/warp_with set each output pixel to the interpolated value of its pre-image, and to the default when the pre-image is outside; interpolation never reads outside the image.", "quantifier": "every image, mapping and interpolation mode", "why_tests_cant": "unsafe reads guarded by float comparisons, for all floats including NaN and infinities.", "anchors": ["src/geometric_transformations.rs: warp_inner, interpolate_nearest, interpolate_bilinear, interpolate_bicubic"]}
{"id": "C68", "title": "bilateral_filter size guard accepts every supported image", "statement": "bilateral_filter's size assertions pass for every image with both sides in 1..=i32::MAX and fail otherwise.", "quantifier": "all u32 sizes", "why_tests_cant": "The assertion uses bitwise negation; only an argument over all u32 shows it is equivalent.", "anchors": ["src/filter/bilateral.rs: bilateral_filter"]}
{"id": "C69", "title": "Salt-and-pepper noise changes pixels only to black or white", "statement": "salt_and_pepper_noise leaves each pixel unchanged or makes it black or white, keeps the size, and is a function of image, rate and seed.", "quantifier": "every image, rate, seed and random stream", "why_tests_cant": "All random streams.", "anchors": ["src/noise.rs: salt_and_pepper_noise, gaussian_noise"]}
{"id": "C70", "title": "In-place transposition is transposition", "statement": "The square in-place transposition used by phash equals the out-of-place transposition and is an involution; hence dct2d applies the row transform to columns and then rows.", "quantifier": "every square image", "why_tests_cant": "In-place swap order.", "anchors": ["src/image_hash/signals.rs: transpose_inplace, transpose, dct2d"]}
{"id": "C71", "title": "pixel_diffs lists exactly the differing pixels", "statement": "pixel_diffs(a,b,is_diff) on equally sized images lists in raster order exactly the positions where is_diff holds, and pixel_diff_summary is None iff the images are equal.", "quantifier": "all pairs of images", "why_tests_cant": "All images.", "anchors": ["src/utils.rs: pixel_diffs, pixel_diff_summary"]}
{"id": "C72", "title": "draw_cross draws a clipped plus sign", "statement": "draw_cross colours exactly those of the five pixels centre, left, right, up, down that are inside the image.", "quantifier": "every image and centre", "why_tests_cant": "All clipping cases, including i32 extremes.", "anchors": ["src/drawing/cross.rs: draw_cross_mut"]}
{"id": "C73", "title": "Weighted sums and interpolation stay between their inputs", "statement": "interpolate(a,b,w) for w in [0,1] gives each channel between the two inputs, equals an input at w=1 or w=0 up to truncation, and antialiased line weights handed to it are in [0,1].", "quantifier": "all pixels and weights; all line end points", "why_tests_cant": "Float rounding and negative coordinates.", "anchors": ["src/pixelops.rs: interpolate, weighted_sum", "src/drawing/line.rs: draw_antialiased_line_segment"]}
{"id": "C74", "title": "Otsu's threshold maximises between-class variance", "statement": "otsu_level(img) returns the first level maximising the between-class variance of the histogram.", "quantifier": "every non-empty image", "why_tests_cant": "Optimum over 256 levels for every histogram.", "anchors": ["src/contrast.rs: otsu_level"]}
{"id": "C75", "title": "match_histogram uses a monotone lookup", "statement": "match_histogram maps intensities through a table that is monotone and depends only on the two histograms.", "quantifier": "every pair of images", "why_tests_cant": "All histogram pairs.", "anchors": ["src/contrast.rs: match_histogram, histogram_lut"]}
{"id": "C76", "title": "LInf and L1 morphology obeys duality and composition", "statement": "open = dilate after erode and close = erode after dilate; dilate is extensive and monotone, erode anti-extensive and monotone; open/close are idempotent for images where the saturation cap is not reached.", "quantifier": "every image, norm and radius", "why_tests_cant": "Algebraic laws over all images.", "anchors": ["src/morphology.rs: open, close, dilate, erode"]}
{"id": "C77", "title": "min_max returns attained per-channel bounds", "statement": "min_max(img) returns, for every channel, a minimum and a maximum that are attained by some pixel and bound all pixels; it panics exactly on empty images.", "quantifier": "every image of every channel count", "why_tests_cant": "All pixel orders and values.", "anchors": ["src/stats.rs: min_max"]}
{"id": "C78", "title": "Line pixel iterators stay in the image and never hand out a pixel twice", "statement": "BresenhamLinePixelIter and BresenhamLinePixelIterMut never panic or leave the image for any end points (including NaN and infinities), and the mutable one never yields two references to the same pixel, which is what its unsafe lifetime extension relies on.", "quantifier": "every non-empty image up to 2^29 x 2^29 and every pair of f32 end points", "why_tests_cant": "The f32 end points are unbounded; aliasing is a property of every run.", "anchors": ["src/drawing/line.rs: BresenhamLinePixelIter, BresenhamLinePixelIterMut"]}
{"id": "C79", "title": "Drawing a Haar feature paints exactly its blocks", "statement": "draw_haar_feature paints the pixels a feature counts positively white and the ones it counts negatively black, leaves every other pixel as it was, and never panics for a feature that fits the image.", "quantifier": "every image and every feature that fits it", "why_tests_cant": "Block arithmetic must agree with evaluate for every feature type, sign, block size and position.", "anchors": ["src/haar.rs: draw_haar_feature_mut"]}
{"id": "C80", "title": "The bilateral filter averages the clamped window for every radius", "statement": "bilateral_filter succeeds for every non-empty image and radius, and each output pixel is the weighted average, rounded by the pixel conversion, of the window of the given radius with coordinates clamped to the image, weighted by spatial and colour distance.", "quantifier": "every 8-bit image, radius (u8), sigma and colour distance", "why_tests_cant": "The window arithmetic mixes u8, i16, i32 and table offsets; overflow appears only for some radii.", "anchors": ["src/filter/bilateral.rs: bilateral_filter, gaussian_euclidean_distance_squared"]}
{"id": "C81", "title": "Antialiased lines weight each pixel by its distance from the line", "statement": "draw_antialiased_line_segment blends, for each position between the ends along the major axis, the two pixels next to the ideal line once each with weight 1 minus their distance from it, and changes nothing else.", "quantifier": "every image, end points, colour and blend function", "why_tests_cant": "Float error accumulates along the line, and the coordinates are truncated, not floored; a few sample lines show neither.", "anchors": ["src/drawing/line.rs: draw_antialiased_line_segment"]}
{"id": "C82", "title": "Control points determine the projection", "statement": "from_control_points(from, to) returns a projection that maps each of the four source points to its target point.", "quantifier": "every four pairs of points for which the linear system has a solution", "why_tests_cant": "The system's coefficients must be right for all positions; tests try a few quadrilaterals.", "anchors": ["src/geometric_transformations.rs: Projection::from_control_points"]}
{"id": "C83", "title": "Hough line detection reports the locally strongest lines over the threshold", "statement": "detect_lines returns, without duplicates, exactly the lines (distance, angle) whose number of votes reaches the threshold and is the strict lexicographic maximum of its suppression neighbourhood, where every foreground pixel votes once per angle for the distance of the line through it.", "quantifier": "every grey image, vote threshold and suppression radius, any table of sines and cosines of magnitude at most 1", "why_tests_cant": "The accumulator index arithmetic and the u32 diagonal must be right for every size and angle.", "anchors": ["src/hough.rs: detect_lines, LineDetectionOptions, PolarLine"]}
{"id": "C84", "title": "A polar line is clipped to the image exactly", "statement": "intersection_points(line, w, h) returns None when the line misses the image rectangle and otherwise two points of the rectangle's border that delimit exactly the part of the line inside the rectangle.", "quantifier": "every distance, angle and rectangle", "why_tests_cant": "Case analysis over four edges and corners; tests try a few lines.", "anchors": ["src/hough.rs: intersection_points"]}
{"id": "C85", "title": "Drawing polar lines recolours only the pixels of the clipped lines", "statement": "draw_polar_lines(image, lines, colour) never panics and recolours exactly the Bresenham pixels of the clipped segments; all others keep their value.", "quantifier": "every image up to 2^29 x 2^29, every list of lines, any sines and cosines including NaN", "why_tests_cant": "The float end points are unbounded.", "anchors": ["src/hough.rs: draw_polar_lines, draw_polar_lines_mut, draw_polar_line"]}
{"id": "C86", "title": "Mean squared error is the exact mean, zero only for equal images", "statement": "root_mean_squared_error and peak_signal_to_noise_ratio are computed from the correctly rounded mean of the squared channel differences; that mean is symmetric and zero exactly for equal images; images of different sizes are refused; equal images have infinite signal-to-noise ratio.", "quantifier": "every pair of images of the same size", "why_tests_cant": "Float accumulation over arbitrarily many pixels; the u32 pixel count may overflow.", "anchors": ["src/stats.rs: mean_squared_error, root_mean_squared_error, peak_signal_to_noise_ratio"]}
{"id": "C87", "title": "sharpen3x3 and laplacian_filter compute the documented stencil with clamped borders", "statement": "sharpen3x3 gives clamp(5p - sum of the four neighbours) and laplacian_filter the sum of the four neighbours minus 4p at every pixel, borders replicated; the parallel versions return the same image and no intermediate overflows.", "quantifier": "every 8-bit image", "why_tests_cant": "All pixel values and all border positions, in i32 and i16 arithmetic.", "anchors": ["src/filter/sharpen.rs: sharpen3x3, sharpen3x3_parallel", "src/filter/mod.rs: laplacian_filter, laplacian_filter_parallel"]}
{"id": "C88", "title": "Channel extraction inverts channel embedding", "statement": "into_red/green/blue_channel returns the chosen channel of every pixel, from_red/green/blue_channel puts a grey image in that channel with zeros elsewhere, and extracting what was embedded returns the original.", "quantifier": "every image and subpixel type", "why_tests_cant": "All sizes and values.", "anchors": ["src/map.rs: into_red_channel, into_green_channel, into_blue_channel, from_red_channel, from_green_channel, from_blue_channel"]}
{"id": "C89", "title": "Oriented FAST returns the strongest corners with their intensity-centroid orientation", "statement": "oriented_fast(image, threshold, n, edge, seed) returns at most n distinct corners at least edge pixels away from the border, the n highest-scoring FAST-9 corners of the threshold, strongest first, each with the orientation of the intensity centroid of its 31 x 31 patch; without a threshold it samples one from the image.", "quantifier": "every grey image, threshold, target number and edge; any random source", "why_tests_cant": "Patch clipping, the threshold quantile and the sort must be right for all sizes and positions.", "anchors": ["src/corners.rs: oriented_fast, intensity_centroid, OrientedFastCorner"]}
{"id": "C90", "title": "Kapur's threshold maximises the entropy of background and foreground", "statement": "kapur_level(image) returns the lowest level s for which the sum of the entropies of the grey levels of the pixels at most s and of those above s is largest, among the levels with pixels on both sides; 0 if there is none.", "quantifier": "every grey image", "why_tests_cant": "The simplified formula with running sums must equal the two entropies for every histogram; ties and empty classes included.", "anchors": ["src/contrast.rs: kapur_level"]}
{"id": "C91", "title": "Gaussian blur computes the normalised Gaussian average", "statement": "gaussian_blur_f32(image, sigma) succeeds for every positive finite sigma and every output channel is the Gaussian-weighted average of the window of radius ceil(2 sigma) with replicated borders, rounded to the pixel type; in particular it lies between the smallest and largest value of the window and constant images are preserved.", "quantifier": "every image, channel count and positive sigma; any exponential with a small error", "why_tests_cant": "Normalisation and rounding errors of f32 kernels depend on sigma; two truncating passes; extreme sigmas.", "anchors": ["src/filter/mod.rs: gaussian_blur_f32, gaussian_kernel_f32, gaussian_pdf"]}
{"id": "C92", "title": "sharpen_gaussian returns input + amount * (input - blur), clamped", "statement": "sharpen_gaussian(image, sigma, amount) returns input + amount * (input - blurred input) limited to 0..255 at every pixel; amount 0 returns the input.", "quantifier": "every grey image, sigma and amount; any exponential with a small error", "why_tests_cant": "Rounding of the blur is amplified by the amount; all sigmas and amounts.", "anchors": ["src/filter/sharpen.rs: sharpen_gaussian"]}
{"id": "C93", "title": "A cubic Bezier curve is drawn as a connected path close to the curve", "statement": "draw_cubic_bezier_curve recolours the in-image pixels of one 8-connected path from the pixel nearest to the start point to the pixel nearest to the end point; the path stays within 2.5 pixels of the exact curve, passes within 3 pixels of every point of it, and no other pixel changes.", "quantifier": "every image, colour and finite control points", "why_tests_cant": "The number of segments and the float parameters depend on all eight coordinates; tests draw no curve at all.", "anchors": ["src/drawing/bezier.rs: draw_cubic_bezier_curve, draw_cubic_bezier_curve_mut"]}
{"id": "C94", "title": "Text is drawn by covering pixels with the colour", "statement": "draw_text(image, colour, x, y, scale, font, text) succeeds for every position and paints exactly the pixels covered by the glyphs, each channel mixed with the colour by the glyph's coverage (unchanged without coverage, exactly the colour with full coverage); parts outside the image are skipped.", "quantifier": "every font, text, position, colour and 8- or 16-bit image; every rasterisation with finite coverage", "why_tests_cant": "Fonts, positions and overlaps are unbounded; tests draw a handful of strings.", "anchors": ["src/drawing/text.rs: draw_text, draw_text_mut, layout_glyphs", "src/pixelops.rs: weighted_sum"]}
{"id": "C95", "title": "Text size matches the laid-out text", "statement": "text_size(scale, font, text) is one more than the pen position after the text and the line height, both rounded up, where glyphs are set one advance plus the kerning of each pair after one another; the empty text has size 0.", "quantifier": "every font and text", "why_tests_cant": "Kerning tables are indexed by ordered pairs; tests use one font.", "anchors": ["src/drawing/text.rs: text_size, layout_glyphs"]}
{"id": "C96", "title": "The outline of an ellipse is connected, symmetric, and within one pixel of the ellipse", "statement": "draw_hollow_ellipse with radii w and h recolours exactly the pixels inside the image of an outline that is symmetric about both axes of the ellipse, whose quarter is a connected staircase from the top extreme point to the right extreme point, and each of whose pixels has a point of the ellipse within one pixel in each coordinate. Everything else is unchanged and the call returns for every centre, image and pair of different positive radii.", "quantifier": "all images, colours, centres (also outside the image) and pairs of different positive radii", "why_tests_cant": "the decision variable is accumulated in f32 over both loops; rounding errors and the switch between the two regions depend on the radii, and only sampled radii can be tested", "anchors": ["src/drawing/conics.rs: draw_hollow_ellipse, draw_hollow_ellipse_mut, draw_ellipse"]}
{"id": "C97", "title": "The filled ellipse is the area within its outline", "statement": "draw_filled_ellipse recolours exactly the rows between the two sides of the outline of C96: every pixel that stays inside the ellipse when moved one pixel away from both axes, and no pixel that stays outside when moved one pixel towards both axes.", "quantifier": "all images, colours, centres and pairs of different positive radii", "why_tests_cant": "as for the outline; a filled ellipse is also drawn with floating-point line segments, each of which has to be a complete row", "anchors": ["src/drawing/conics.rs: draw_filled_ellipse, draw_filled_ellipse_mut, draw_ellipse"]}
{"id": "C98", "title": "An antialiased polygon is its interior in solid colour with softened edges", "statement": "draw_antialiased_polygon fills every interior pixel (even-odd rule) with the colour and then draws one antialiased line per edge: each pixel becomes the blend of the colour over the filled or original pixel with the coverage weights of the edges passing within about one pixel of it, and every other pixel is unchanged; the call does not panic.", "quantifier": "all images, colours, blend functions and polygons", "why_tests_cant": "the fill and the edge lines are computed by separate algorithms in f32 and i32; that they agree on every polygon, in every position relative to the image, cannot be sampled", "anchors": ["src/drawing/polygon.rs: draw_antialiased_polygon, draw_antialiased_polygon_mut, draw_polygon_with_mut", "src/drawing/line.rs: draw_antialiased_line_segment_mut"]}
{"id": "C99", "title": "The HoG of an image is built from interpolated histograms of its gradients", "statement": "hog computes, for every cell and every orientation bin, the sum over the image of the Sobel gradient magnitude per pixel of a cell, shared linearly between neighbouring cells and (cyclically) neighbouring bins, up to a small rounding error, and returns the block-normalised descriptor made from these histograms; every accepted combination of options returns a descriptor; mirroring the image mirrors the grid of cells.", "quantifier": "all one-channel 8-bit images and all options, any arc tangent accurate to 2^-20", "why_tests_cant": "entries accumulate up to millions of rounded products whose bins are chosen by floating-point floors and an external arc tangent; direction wrap-around at 0, PI and 2 PI depends on rounding", "anchors": ["src/hog.rs: hog, cell_histograms, gradient direction, Interpolation::from_position, Interpolation::from_position_wrapping, hog_descriptor_from_hist_grid"]}
{"id": "C100", "title": "Canny marks exactly the thinned, thresholded and connected edges of the blurred image", "statement": "canny returns an image of the size of its input, 255 at edges and 0 elsewhere. The edges are those of the Gaussian blur with sigma 1.4: pixels off the border whose gradient is no smaller than that of their two neighbours along the gradient direction and at least the high threshold, and those at least the low threshold connected to one through any of the eight neighbours. Flat regions and contrast too low for the low threshold give no edges; a step stronger than the high threshold is always found; above the greatest possible strength nothing is marked.", "quantifier": "all one-channel 8-bit images, all thresholds 0 < low <= high, any accurate exp, hypot and atan2", "why_tests_cant": "the marked set depends on the whole image through the flood fill, and on the roundings of blur, gradient, hypot and atan2", "anchors": ["src/edges.rs: canny, non_maximum_suppression, hysteresis"]}
{"id": "C101", "title": "Rotation shows at every pixel the value of the point that the rotation takes there", "statement": "rotate about a centre by an angle returns an image of the same size whose every pixel is the interpolated value of the input at the point that the clockwise rotation takes to it, located to within a small fraction of a pixel, or the default value when that point lies outside; rotate_about_center by half a turn in nearest mode returns the image upside down and back to front.", "quantifier": "all 8-bit and 16-bit images, all finite centres and angles, any accurate sin_cos, all interpolation modes", "why_tests_cant": "positions are results of three composed and inverted matrices in f32; a unit test compares a few angles on one small image", "anchors": ["src/geometric_transformations.rs: rotate, rotate_about_center, Projection::rotate, Projection::translate, warp"]}
{"id": "C102", "title": "The perceptual hash records which low frequencies are strong, whatever the brightness and contrast", "statement": "phash never panics and returns 64 bits: one for each of the 8 x 8 lowest non-constant cosine frequencies of the image reduced to 32 x 32, set exactly when that coefficient exceeds the mean of the 64. The distance between two hashes is the number of differing bits. Two pictures that differ only in brightness and contrast have the same hash, and a picture and its negative have opposite bits.", "quantifier": "all images, any accurate one-dimensional cosine transform, any reduction to 32 x 32 with bounded samples", "why_tests_cant": "each bit depends on 1024 samples through two passes of rounded transforms and a rounded mean of 64 values", "anchors": ["src/image_hash/phash.rs: phash, PHash::hamming_distance", "src/image_hash/signals.rs: dct2d", "src/image_hash/bits.rs: Bits64"]}
{"id": "C103", "title": "min_area_rect returns the smallest rectangle around the points", "statement": "min_area_rect returns the four corners, rounded outwards to integers and listed top left, top right, bottom right, bottom left, of a rectangle in any position that contains all the points, and no rectangle in any position that contains them has a smaller area. Points on one line give the segment between the two extreme points. For signed coordinates of moderate size it does not panic.", "quantifier": "all finite sets of integer points, all rectangles at all angles, any atan2 and sin_cos accurate to 10^-14", "why_tests_cant": "the minimum is over a continuum of rectangles, and the search is in rounded arithmetic", "anchors": ["src/geometry.rs: min_area_rect, rotating_calipers", "src/point.rs: Rotation, rotate, invert_rotation"]}
{"id": "C104", "title": "render_hist_grid shows the star of every cell in its own square", "statement": "render_hist_grid(side, grid, signed) returns a picture of grid columns times side by grid rows times side pixels. The square of each cell shows the star of that cell: a ray from its middle for each bucket (and the opposite ray without sign), in the direction of the bucket, with the strength of the bucket cut to 0..255; later buckets are drawn over earlier ones and the rest is black. It does not panic when the picture size fits.", "quantifier": "all grids, all bucket values, all side lengths, any bounded sine and cosine", "why_tests_cant": "there is no bound on the size of grids, and a test with one cell cannot see where the others go", "anchors": ["src/hog.rs: render_hist_grid, draw_star_mut, draw_ray_mut", "src/drawing/line.rs: draw_line_segment_mut"]}
{"id": "C105", "title": "HoG blocks are unit vectors whatever the contrast", "statement": "l1_norm and l2_norm return the sum of absolute values and the Euclidean norm. In a HoG descriptor every block whose histograms are not all zero is the list of its histograms divided by its Euclidean norm, so it has length 1 and does not change when all histograms are multiplied by a positive factor; a block of zeros stays zero. All up to rounding.", "quantifier": "all finite histogram grids, all block layouts, all positive factors", "why_tests_cant": "the squares of small and large values leave the range of f32, and the rounding grows with the number of entries", "anchors": ["src/hog.rs: hog_descriptor_from_hist_grid, block_norm", "src/math.rs: l1_norm, l2_norm"]}
{"id": "C106", "title": "A change of brightness changes no gradient, descriptor, corner or pattern", "statement": "If the same amount is added to every pixel of an image and no value leaves 0..=255, then the Sobel, Prewitt and Scharr derivatives, sobel_gradients, prewitt_gradients, sobel_gradient_map, the HoG descriptor, the FAST-9 and FAST-12 tests, scores and corner lists are exactly the same. Local binary patterns are the same after any change of intensities that keeps their order. Gradient magnitudes and FAST-9 corners are also the same in the photographic negative.", "quantifier": "all images, all amounts, all thresholds and HoG options, all order-keeping changes of intensities", "why_tests_cant": "a relation between two runs on different inputs; tests compare single runs with stored values", "anchors": ["src/gradients.rs: sobel_gradients, prewitt_gradients, sobel_gradient_map, horizontal_sobel, vertical_scharr", "src/hog.rs: hog", "src/corners.rs: corners_fast9, corners_fast12, fast_corner_score", "src/local_binary_patterns.rs: local_binary_pattern"]}
{"id": "C107", "title": "Mirroring or turning the image mirrors or turns the result", "statement": "Mirror or turn the input by flip_horizontal, flip_vertical, rotate90, rotate180, rotate270 or any combination, and the result is the old result mirrored or turned in the same way: L1 and LInf distance transforms, binary dilate, erode, open and close, grayscale_dilate and grayscale_erode (with the mask moved too), sobel_gradients, prewitt_gradients, median_filter (with the radii exchanged by a quarter turn), the regions of connected_components, FAST-9 corners and their scores. box_filter does so for mirrors and half turns. Histograms, the Otsu level and the Kapur level do not change.", "quantifier": "all images within the size limits of each function, all eight symmetries of the rectangle, all radii, masks, norms and thresholds", "why_tests_cant": "a relation between two runs on different inputs; the sweeps of the algorithms (rows before columns, first label first) are not symmetric", "anchors": ["src/geometric_transformations.rs: rotate90, rotate180, rotate270", "src/compose.rs: flip_horizontal, flip_vertical", "src/distance_transform.rs: distance_transform", "src/morphology.rs: dilate, erode, open, close, grayscale_dilate, grayscale_erode", "src/gradients.rs: sobel_gradients, prewitt_gradients", "src/filter/median.rs: median_filter", "src/filter/box_filter.rs: box_filter", "src/region_labelling.rs: connected_components", "src/corners.rs: corners_fast9", "src/stats.rs: histogram", "src/contrast.rs: otsu_level, kapur_level"]}
{"id": "C108", "title": "A template cut from the image is found where it was cut", "statement": "Cut a window out of a grayscale image with crop, match it with the (plain or normalized) sum of squared errors and ask find_extremes for the minimum: it is exactly 0 and its location is the first place, in reading order, where the image shows the same pixels, so the place of the cut if there is no other. For any template the minimum is 0 only if the template occurs in the image. The largest normalized cross-correlation is never above 1, and is 1 for a template that occurs and is not black, both up to the f32 error bound.", "quantifier": "all grayscale images with u32 sizes, all windows inside them, all templates of fewer than 2^20 pixels", "why_tests_cant": "a property of three functions used together; the exactness of the minimum depends on f32 rounding never turning a positive sum into zero", "anchors": ["src/template_matching.rs: match_template, find_extremes", "src/compose.rs: crop"]}
{"id": "C109", "title": "A tile can be processed on its own", "statement": "Cut a tile out of an image with crop and process it alone: away from the cuts (by the reach of the operation) every pixel of the result equals the pixel at the same place when the whole image is processed, and sides of the tile that are sides of the image need no margin. The reach is half the kernel for filter and separable_filter, 1 for sobel_gradients and prewitt_gradients, the radii for box_filter, median_filter, adaptive_threshold, dilate and erode, the largest offset of the mask for grayscale_dilate and grayscale_erode, 3 for corners_fast9.", "quantifier": "all images and tiles within the size limits of each function, all kernels (any arithmetic), radii, masks, norms and thresholds", "why_tests_cant": "a relation between two runs on inputs of different sizes; the implementations use running sums, sliding histograms and sweeps that carry state from far away", "anchors": ["src/compose.rs: crop", "src/filter/mod.rs: filter, separable_filter", "src/filter/box_filter.rs: box_filter", "src/filter/median.rs: median_filter", "src/gradients.rs: sobel_gradients, prewitt_gradients", "src/contrast.rs: adaptive_threshold", "src/morphology.rs: dilate, erode, grayscale_dilate, grayscale_erode", "src/corners.rs: corners_fast9"]}
{"id": "C110", "title": "Brighter images give brighter results and negatives give negatives", "statement": "If every channel of every pixel of one image is at most that of another, the same holds of the results of median_filter, box_filter and filter with a kernel without negative weights and a monotone final map. If one image is the negative of another (v becomes 255 - v), the median-filtered images are negatives too, grayscale_dilate of one is the negative of grayscale_erode of the other, and sobel_gradients, prewitt_gradients and corners_fast9 give the same result for both.", "quantifier": "all pairs of images in these relations within the size limits of each function, all radii, kernels, masks and thresholds", "why_tests_cant": "a relation between two runs on different inputs, over all pairs of images", "anchors": ["src/filter/median.rs: median_filter", "src/filter/box_filter.rs: box_filter", "src/filter/mod.rs: filter", "src/morphology.rs: grayscale_dilate, grayscale_erode", "src/gradients.rs: sobel_gradients, prewitt_gradients", "src/corners.rs: corners_fast9"]}
{"id": "C111", "title": "Contrast operations settle after one application", "statement": "Equalising an image that has been equalised changes nothing more. Matching the histogram of an image of at most 2^22 pixels to itself gives back the image. Applying a threshold of type Binary, Truncate, ToZero or ToZeroInverted a second time with the same threshold changes nothing.", "quantifier": "all grayscale images with fewer than 2^32 pixels (at most 2^22 for matching), all thresholds", "why_tests_cant": "a relation between an output and the output computed from it, over all images, through f32 rounding", "anchors": ["src/contrast.rs: equalize_histogram, match_histogram, threshold"]}
{"id": "C112", "title": "Shapes of one colour can be drawn in any order and any number of times", "statement": "Drawing a line, rectangle, circle, cross or polygon a second time in the same colour changes nothing, and drawing it again in another colour gives the same as drawing it only in that colour. A collection of such shapes drawn in one colour gives the same image in any order and with any repetitions. Two images of one size that agree at a pixel still agree there after the same shape has been drawn on both.", "quantifier": "all images up to about 2^31 by 2^31 pixels, all shapes with coordinates up to 2^22 whether inside the image or not, all collections of shapes", "why_tests_cant": "relates the results of different sequences of calls, for all shapes and all orders", "anchors": ["src/drawing/line.rs: draw_line_segment", "src/drawing/rect.rs: draw_hollow_rect, draw_filled_rect", "src/drawing/conics.rs: draw_hollow_circle, draw_filled_circle", "src/drawing/cross.rs: draw_cross", "src/drawing/polygon.rs: draw_polygon"]}
{"id": "C113", "title": "Distance transforms behave like distances and agree with each other", "statement": "distance_transform is zero exactly on the foreground, changes between two pixels at most by their distance, and does not grow when foreground is added. The LInf value is at most the L1 value, which is at most twice the LInf value. In an image with foreground the squared Euclidean transform lies between the squares of the LInf and the (uncapped) L1 value and is at least half the square of the L1 value.", "quantifier": "all grayscale images with width + height below 2^32 (sides up to 2^26 for the Euclidean transform), all pairs of pixels, all pairs of images with nested foregrounds", "why_tests_cant": "relates the values of different pixels, different images and different transforms, for all images", "anchors": ["src/distance_transform.rs: distance_transform, euclidean_squared_distance_transform"]}
{"id": "C114", "title": "flood_fill recolours one connected component and can be undone", "statement": "The pixels that flood_fill changes are exactly those to which connected_components (four-connected) gives the label of the start pixel. If the fill colour does not occur in the image, filling the same start pixel with its old colour gives back the original image.", "quantifier": "all images with sides below 2^31 - 1, all pixel types with decidable equality, all start pixels, colours and backgrounds", "why_tests_cant": "relates two different algorithms, and a call with the call that reverses it, for all images", "anchors": ["src/drawing/fill.rs: flood_fill", "src/region_labelling.rs: connected_components"]}
{"id": "C115", "title": "Global statistics depend on which pixels there are, not where they are", "statement": "Two images with the same pixels in different places, possibly of different width and height, have the same histogram, cumulative histogram, percentiles, Otsu level and Kapur level; equalize_histogram applies the same map of levels to both, and match_histogram gives the same result with either as target.", "quantifier": "all pairs of images with fewer than 2^32 pixels whose pixels are a permutation of each other", "why_tests_cant": "relates all rearrangements of all images", "anchors": ["src/stats.rs: histogram, cumulative_histogram, percentile", "src/contrast.rs: otsu_level, kapur_level, equalize_histogram, match_histogram"]}
{"id": "C116", "title": "Chains of geometric operations combine as expected", "statement": "Two translations that do not work against each other (in neither axis) are one translation by the sum. A crop of a crop is one crop of the original. A horizontal and a vertical flip, in either order, are a turn by 180 degrees. Pasting an image with replace and cropping the same window gives the pasted image, if the window stays clear of the last row and column.", "quantifier": "all images and pixel types, all shifts below 2^29, all nested windows, all positions", "why_tests_cant": "relates different sequences of calls for all images and arguments", "anchors": ["src/geometric_transformations.rs: translate, rotate180", "src/compose.rs: crop, flip_horizontal, flip_vertical, replace"]}
