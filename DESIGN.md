# Formal model of aleju/imgaug in Rocq

## 1. What is here

* `properties.jsonl` - the properties, in English.
* `rocq/theories/<Area>Model.v` - the model: Gallina functions mirroring the
  Python functions branch by branch. Every definition cites file and lines in
  `/repo`. No proofs in these files.
* `rocq/theories/<Area>Spec.v` - small independent specifications (where the
  statement needs vocabulary that is not the model's own).
* `rocq/theories/<Area>Proofs.v` - lemmas.
* `rocq/theories/<Area>Props.v` - only the property theorems, each closed by
  `exact lemma`, followed by `Print Assumptions` and by an `Example` showing
  that a concrete non-trivial case meets the hypotheses.
* `MANIFEST.json` - property -> theorems.
* `seeded/LOG.jsonl` - mutation log.

Naming: `*_refuted` = the property (or a natural reading of it) is false of the
code; the theorem gives a witness (a finding). `*_partial` = only a part of the
property is proved; the comment says what is missing.

## 2. Modelling conventions

* Python exceptions are values: `res A := Ok a | Err e`.
* Coordinates and other floats are exact rationals (`Q`, compared with `==`).
  Float rounding is *not* modelled (float32 storage of coordinates, `np.float32`
  intermediate results). Where a float effect decides the outcome it is either
  an explicit parameter of the model (e.g. the float estimate of a logarithm)
  or listed as excluded.
* `np.round` is round-half-to-even on `Q`; `int()` truncates toward zero.
* Arrays are (height, width, pixel function) triples; the pixel type is a
  parameter, so channels are covered by instantiating it. Statements about
  arrays are pointwise on the valid index range and include the shape.
  Python slicing (clipping, negative indices) is modelled explicitly.
* Random generators are modelled by an abstract state and oracle draw
  functions (Section variables); theorems hold for every such oracle.
* Concurrency is a transition system; theorems quantify over all runs.
* In-place mutation becomes returning the new value. Aliasing between inputs
  and outputs is not modelled unless a property is about it.

## 3. Plan per property

| id | model | proof idea |
|----|-------|-----------|
| C01 | `project_coords` over lists of rational points | list induction, field arithmetic |
| C02-C05, C07 | `BoundingBox` record over Q, all methods | case analysis on min/max + linear/non-linear arithmetic |
| C06 | filter | list induction |
| C08 | boxes <-> 4 keypoints per box, index arithmetic `4*i+j` | induction on boxes |
| C09 | `extract_from_image` on arrays, Python slice semantics | index arithmetic; refutations for pad=False and pad_max |
| C10-C12 | `_prevent_zero_sizes...`, `_crop_arr_`, `pad`, `_crop_and_pad_*` | lia, pointwise array equality |
| C13-C17 | the compute_* functions over Z/Q | div/mod, floor/ceil arithmetic |
| C18 | fliplr/flipud on arrays and coordinates | pointwise |
| C19-C20 | `_derive_seed`, id bookkeeping as a state machine | modular arithmetic, induction over calls |
| C21, C33, C34 | augmenter trees with abstract RNG states, seed_, worker state | induction over trees and schedules; refutation for list-augmenter branches |
| C22, C23 | transition systems of the pool/queues | invariants by induction over steps |
| C24 | dilation model of cv2 + pad/flip/slice | index arithmetic |
| C25, C26 | chunk loop, grid loop | induction |
| C27-C31, C35-C37 | batches as columns of rows, augmenter trees | induction |
| C32 | columnwise augmentation with RNG save/restore | state threading |
| C38 | inductive type of input forms, normalize / invert | case analysis; refutations |
| C39-C41 | loops of kps.py/utils.py | induction, counting |
| C42-C44 | arrays over Q/Z with dtype tags | arithmetic |
| C45-C47 | direct | induction / arithmetic |
| C48, C49 | prefetching caches as part of the world of AugModel | induction over draws; refinement to the unbuffered stream |
| C50-C53 | generators in a heap, programs of 32/64 bit draws | induction over programs, heap lemmas |
| C54, C55 | maps as arrays with dtype; inversion per component with table cache | case analysis, linear arithmetic |
| C56, C57 | addition, multiplication per component with dtype ranges | rounding lemmas |
| C58-C60 | cutout, replacement, dropout on lists and pixel functions | rounding lemmas, induction |
| C61-C63 | blending, masks | rounding lemmas, sums |
| C64, C65 | quarter turns, jigsaw loop | composition of index maps; permutation invariant of the swap loop |
| C66-C69 | stochastic parameters with a heap of shared lists and an abstract generator; argument parsers; cached matrices | induction over nested parameters; history induction |
| C70-C74 | Affine: matrices over Q with an abstract trigonometry, output canvas, argument forms and sampling; resampling as a parameter constrained at exactly hit pixels | composition of affine maps; convexity for the canvas; algebra over Q |
| C75-C79 | tables for uint8 images: contrast, equalize, autocontrast, quantization, hue and saturation; float32/float64 by exact rounding, power/exp/log2 as parameters with monotonicity | monotonicity and error bounds of rounding; histogram sums as counts of pixels; ranks; evaluation over the 256 values of a component |
| C80-C85 | line strings and polygons: clipping to the image, out-of-image tests, fractions, arrays, first points; shapely as a parameter with the assumption that the intersection with the four image edges is the set-theoretic one (an implementation is proved to meet it) | positions along the line string attached to every point (refinement of the loops), cover argument with the triangle inequality, lengths telescoped along the positions |
| C86-C90 | PerspectiveTransform: jitter to corner points, their order, the two enlarging loops (with fuel), the matrix (solver as a parameter with the assumption that four points go to four points), fit_output, images, maps and keypoints | projective geometry over Q: the areas of the triangles of four points give the weights of the corners, hence one sign on the hull, hence hull to hull; uniqueness of the matrix from the same relation; convexity of the drawn region by a bilinear bound; termination by the horizontal and vertical extents, which the order of the points makes non-negative |
| C91-C95 | KeepSizeByResize (parameters, samples, images, maps, keypoints, children as an arbitrary function of batches) and the pooling augmenters (sizes, maps, keypoints; images of Max/MinPooling through the model of C24) | row by row over the columns; the method used in a row is related to the chosen one; sizes after pooling are shown to be the rounded up quotient in both code paths |
| C96-C105 | segmentation.py: replace_segments_ (both implementations), segment_voronoi, the five point samplers as a recursive type, Voronoi and Superpixels; KD tree, slic, cv2.resize and the random number generator as arguments | averages as a specification over an enumeration of the pixels; both implementations shown to meet it; induction over samplers |
| C106 | normalization.py: polygons and line strings, with the constructors of Polygon and LineString; Python values as a nested type | one form type with its Python value; type estimation by two judgments (no element; first element of type k at depth n) closed under lists; round trip by cases |
| C107 | normalization.py: heatmaps and segmentation maps, generic in the class | one form type; class laws (make, get, copy) proved for both classes, round trip by cases |
| C108 | batches.py: UnnormalizedBatch, Batch and conversions; meta.py: augment_batch_ with the augmentation of the columns as parameter | composition of C38, C106 and C107; image arrays by grouping and merging |
| C109 | meta.py: augment() | invariants of building the batch from the arguments; composition with C108 |
| C110 | meta.py: augment_batches() with and without background processes | independence of the index; invariant of the table of original batches over all executions |
| C111 | meta.py: AssertShape | cases on the entries; induction over columns and items |
| C112 | meta.py: Lambda, AssertLambda; utils.py: conversion to keypoints and back | functions as parameters; splitting and regrouping of points by induction |
| C113 | meta.py: RemoveCBAsByOutOfImageFraction, ClipCBAsToImagePlanes; polys.py: area fraction and clipping | relation between columns; composition with C04, C80 and C84 |
| C114 | meta.py: copy_random_state_ on the trees of AugModel | invariant of the loop over pairs; simulation between a tree and its renamed copy for all runs |
| C115 | convolutional.py: convolve_, Convolve | filter2D as a finite sum with mirrored indices; sums by induction; rounding and clipping monotone |
| C116 | convolutional.py: matrix generators | linearity of the sum in the kernel; for directions: cos/acos over the reals, quarter turns by trigonometry |
| C117 | blur.py: average, median, gaussian and motion blur | the mean as a convolution (C115); parity and bounds of sizes; argument forms by cases |
| C118 | imgaug.py: imresize_many_images, imresize_single_image | cv2.resize as a parameter; the array version as a map over images, lists by equality with it |
| C119 | imgaug.py, heatmaps.py, segmaps.py: resizing | a contract of cv2.resize for one channel, carried through the dtype conversions |
| C120 | imgaug.py: imresize_many_images, imresize_single_image | case analysis, both directions |
| C121 | kps.py: draw_on_image | pixels as functions; induction over the keypoints |
| C122 | bbs.py: draw_box_on_image, draw_on_image | the rings are the level sets of one distance, so each pixel is painted once; induction over rings and boxes |
| C123 | segmaps.py, heatmaps.py: draw_on_image | cv2.resize as a parameter with a contract; per pixel |
| C124 | color.py: change_colorspace_, change_colorspaces_ | OpenCV's conversions as parameters; arrays with ownership; per pixel, lists by Forall2 |
| C125 | color.py: ChangeColorspace, Grayscale | the blend reads the array after the conversion; case split on ownership |
| C126 | color.py: change_color_temperature(s_) | the table by computation, interpolation over Q by monotonicity of neighbours |
| C127 | color.py: WithColorspace, WithBrightnessChannels | children as a parameter |
| C128 | color.py: WithHueAndSaturation | hue as an angle modulo 255; integer division |
| C129 | color.py: quantize_kmeans, _AbstractColorQuantization | cv2.kmeans and cv2.resize as parameters with contracts |
| C130 | lines.py: length, width, height, to_bounding_box, subdivide, concatenate | paths as sets of points and sums over edges, one induction for all additive measures |
| C131 | lines.py: compute_pointwise_distances, compute_distance, contains, coords_almost_equals | squared distances over Q, minimum over segments by convexity |
| C132 | polys.py: area, width, height, to_bounding_box, subdivide, exterior_almost_equals | shoelace sum as an additive measure of the outline |
| C133 | kps.py: to_distance_maps, from_distance_maps | real distances, first best position by induction over the positions |
| C134 | edges.py: Canny, RandomColorsBinaryImageColorizer | OpenCV as parameter; per image result; comparison of two detectors agreeing on allowed inputs |
| C135 | weather.py: FastSnowyLandscape, CloudLayer | conversions as parameters, rounding by intervals |
| C136 | weather.py: SnowflakesLayer, RainLayer | noise made from oracles, value functions monotone |
| C137 | dtypes.py: gate_dtypes_strs, allow_only_uint8, all gates of the library | words of a string as an inductive relation; case analysis over the 13 dtypes for the gates |
| C138 | dtypes.py: get_minimal_dtype, promote_array_dtypes_, increase_array_resolutions_ | inclusion of value sets decided by a boolean table, proved sound and complete; induction over the list |
| C139 | contrast.py: _ContrastFuncWrapper, LinearContrast for all dtypes | dtype conversion of DtyModel; monotonicity and relative error of rounding to floats |
| C140 | contrast.py: AllChannelsCLAHE, HistogramEqualization, the intensity applier | functions and conversions as parameters; induction over the batch |
| C141 | imgcorruptlike.py: _call_imgcorrupt_func, _ImgcorruptAugmenterBase | global state of numpy as an explicit argument; induction over the batch |
| C142 | imgcorruptlike.py: _apply_glass_blur_imgaug and its loop | loop invariant over the three nested loops; numpy views modelled as they are |
| C143 | collections.py: parameters of RandAugment | terms of the model of stochastic parameters (C66-C69) and its specification of samples |
| C144 | debug.py: _resizepad_to_size, grid cells, columns and grid | canvas of positions; induction over rows and columns |
| C145 | debug.py: SaveDebugImageEveryNBatches, schedule, destinations | state machine over histories of batches, folder as a map; invariant by induction; decimal numbers of the standard library |
| C146 | parameters.py: Choice over parameters | parameters with names, draws and choices as parameters of the model; induction over the list and over the chosen elements |
| C147 | artistic.py: stylize_cartoon, Cartoon | pictures as functions, OpenCV and colour conversions as parameters; arithmetic, and counting of edges in windows with reflected borders |

## 4. Trusted base

* Coq 8.16.1's kernel.
* `Print Assumptions` of the property theorems (see section 5).
* The reading of the Python code: nothing was executed.
* Behaviour of numpy/cv2/shapely/multiprocessing as described in the comments
  of the models (slicing, rounding, `cv2.dilate` anchor, queues, semaphores).

## 5. Assumptions listed by Print Assumptions

837 theorems in the files *Props.v. `Print Assumptions` follows each of them in the source.
All are "Closed under the global context" except the following, which are about real logarithms and use the
classical reals of the standard library (`Coq.Reals`):

* `C113_remove`
* `C113_fraction_of_polygons`
* `C116_alpha`
* `C116_directed`
* `C116_directions`
* `C116_turn`
* `C133_maps`
* `C133_from_maps`
* `C133_one_position`
* `C133_empty`
* `C133_round_trip`
* `C133_round_trip_exact`
* `C85_fraction`
* `C85_clipping_does_not_lengthen`
* `C85_remove_by_fraction`
* `C85_extreme_fractions`
* `C130_length`
* `C130_concatenate`
* `C130_subdivide_path`
* `C15_padding_reaches_power_partial`
* `C15_cropping_reaches_power_partial`
* `C15_padding_is_minimal_at_powers_refuted`

For each of these the axioms are: `ClassicalDedekindReals.sig_forall_dec`, `ClassicalDedekindReals.sig_not_dec`, `Classical_Prop.classic`, `FunctionalExtensionality.functional_extensionality_dep`.
No axiom, Variable or Hypothesis outside of sections is declared in this development.

## 6. Results per property

| id | status | theorems | remarks |
|----|----|----|----|
| C01 | proved | 7 |  |
| C02 | proved | 9 |  |
| C03 | proved | 6 |  |
| C04 | partial | 9 | The claim that clipping leaves boxes inside the image unchanged is false of the code for boxes reaching closer than float32-eps to the far border; shown by C04_clip_leaves_fully_inside_boxes_refuted. Everything else is proved. |
| C05 | proved | 3 |  |
| C06 | proved | 4 |  |
| C07 | proved | 8 |  |
| C08 | proved | 5 |  |
| C09 | partial | 8 | Holds except for three defects, each shown by a _refuted theorem: boxes inside the image that round to the far border lose the last row/column; pad_max shifts content when the box starts further than pad_max above/left of the image; pad=False accepts boxes above the image because of a lexicographic tuple comparison. |
| C10 | proved | 4 |  |
| C11 | proved | 2 |  |
| C12 | proved | 4 |  |
| C13 | proved | 6 |  |
| C14 | proved | 4 |  |
| C15 | partial | 6 | Floating point logarithm is an oracle assumed accurate to 2^-46 for sizes up to 2^40. Minimality fails at exact powers (C15_padding_is_minimal_at_powers_refuted), and allow_zero_exponent pads size 1 (C15_allow_zero_exponent_keeps_size_one_refuted). |
| C16 | proved | 4 |  |
| C17 | partial | 5 | keep-aspect-ratio can produce an empty axis: C17_keep_aspect_ratio_never_empties_refuted. |
| C18 | proved | 11 |  |
| C19 | proved | 3 |  |
| C20 | partial | 4 | Proved for sequences of completed calls followed by a running imap_batches. Interleaving map_batches with a running imap_batches, or abandoning an imap_batches, produces duplicate ids (C20_during_running_imap_refuted, C20_after_abandoned_imap_refuted). |
| C21 | partial | 2 | Proved for augmenter trees whose branches do not own an RNG; C21_branch_with_own_rng_refuted shows that a branch (Sometimes, WithChannels, ...) that is itself a random augmenter with its own RNG is never reseeded by the worker, so results then depend on the schedule. |
| C22 | partial | 8 | The bound is k+1, not k: the next batch is loaded before the buffer slot is acquired (C22_buffer_bound_k_refuted). chunksize > output_buffer_size deadlocks (C22_chunks_larger_than_buffer_refuted). Order, at-most-once, completeness and progress are proved for every schedule. |
| C23 | partial | 8 | Completeness is proved for loading processes; with loading threads (the default) a batch can be lost (C23_complete_with_threads_refuted). An exception in an augmentation worker blocks get_batch (C23_progress_after_crash_refuted). At-most-once, finality of None and progress without crashes are proved. Queue capacities are not modelled. |
| C24 | proved | 4 |  |
| C25 | proved | 2 |  |
| C26 | partial | 3 | Placement is proved for all calls; given both rows and cols, cols is ignored (C26_given_columns_refuted). |
| C27 | proved | 2 |  |
| C28 | proved | 4 |  |
| C29 | proved | 2 |  |
| C30 | proved | 2 |  |
| C31 | partial | 3 | find/remove are exact on everything reachable through the children lists; an augmenter that is itself a branch is neither found nor removed (C31_branch_itself_refuted). |
| C32 | partial | 3 | Proved without prefetching and for deterministic trees. With prefetched parameters the columns of one batch can get different samples (C32_prefetched_parameters_refuted). |
| C33 | partial | 3 | Proved; additionally, converting an already deterministic augmenter changes what that augmenter returns (C33_converting_deterministic_advances_refuted). |
| C34 | partial | 3 | Proved for trees whose branches are lists; a branch that draws random numbers itself is not reached by seed_ (C34_branch_itself_refuted). |
| C35 | proved | 5 |  |
| C36 | proved | 8 |  |
| C37 | partial | 6 | Exact for channel lists without repetitions; a repeated channel loses another one (C37_repeated_channel_refuted). |
| C38 | partial | 9 | Proved for all input forms except arrays for several images (restoring raises, C38_arrays_for_several_images_refuted), lists of arrays with different dtypes (C38_mixed_dtypes_refuted) and inverted boxes (C38_inverted_boxes_refuted); coordinates in array forms have to be float32 numbers. |
| C39 | proved | 3 |  |
| C40 | partial | 6 | Positions inside the image are recovered; keypoints right of/below the image are painted and found again with low thresholds because the painted square is clipped to the last column (C40_outside_not_found_refuted). |
| C41 | partial | 6 | Gaps are below twice max_distance (C41_gaps_below_twice_max_distance_partial), not below max_distance (C41_max_distance_refuted). |
| C42 | partial | 8 | Arithmetic is exact except for the uint8 round trip, which includes the float32 roundings. Only the first 50 components decide about clipping (C42_clipping_refuted). |
| C43 | partial | 8 | Only the first 100 components are tested for negative ids (C43_negative_ids_raise_refuted). |
| C44 | partial | 9 | Saturation is proved whenever the largest value of the integer dtype is a float of the source dtype; float16->int16, float32->int32/uint32, float64->int64/uint64 are refuted (C44_saturation_refuted): the clip bound rounds up and astype overflows. Booleans, infinities, NaN and subnormals are not modelled. |
| C45 | proved | 1 |  |
| C46 | proved | 3 |  |
| C47 | proved | 5 |  |
| C48 | proved | 2 |  |
| C49 | partial | 3 | Augmenters used before still hand out samples prefetched before imgaug.seed (C49_used_augmenters_refuted). |
| C50 | partial | 6 | RNG.copy resets the cached half of a 64 bit number, so a copy taken after an odd number of 32 bit draws differs (C50_copy_after_one_draw_refuted); everything else is proved. numpy's bit generators are an arbitrary state machine. |
| C51 | proved | 1 |  |
| C52 | proved | 3 |  |
| C53 | partial | 2 | On old numpy float64 samples close to 1 are rounded to 1 (C53_below_one_on_old_numpy_refuted). |
| C54 | partial | 2 | Proved for segmentation maps; heatmaps lose the information that their array was two-dimensional (C54_heatmap_operations_keep_form_refuted). |
| C55 | partial | 11 | uint8 thresholds have to be whole numbers in 0..256: fractional and negative thresholds are refuted (C55_fractional_threshold_refuted, C55_negative_threshold_refuted). Floats are exact numbers. |
| C56 | partial | 6 | uint8 proved completely; other dtypes for integer amounts away from the limits of the intermediate dtype. Wrapping at these limits and rejected combinations of dtypes are refuted. |
| C57 | partial | 6 | uint8 only; results depend on the image size (C57_size_independence_refuted) and Python numbers raise for small images (C57_python_numbers_refuted). |
| C58 | proved | 8 | numpy's conversion of fill values to the dtype and the noise are parameters; coordinates are exact. |
| C59 | partial | 5 | Integer and boolean images. Masks that are not binary make the augmenter draw the wrong number of samples (C59_fractional_masks_refuted). |
| C60 | partial | 5 | Images without channels lose their annotations whatever nb_keep_channels is (C60_no_channels_refuted); batches without images and with (H, W) shapes raise (C60_shapes_without_channels_refuted). |
| C61 | partial | 11 | Weighted mean up to 1 (uint8) or 1/2; exact at 0 and 1. Refuted: with a mask, identical uint8 images do not blend to themselves (1 becomes 0, 3 becomes 4); image_bg is overwritten by masks on images below 64*64 pixels; only the first alpha is range-checked. |
| C62 | partial | 7 | Refuted: keypoints outside of the image become their rounded input position, whatever the branches do; at mask value 1/2 maps and points follow different branches. |
| C63 | partial | 9 | Refuted for gradients with end before start: the result leaves [min_value, max_value]. |
| C64 | partial | 12 | cv2's resize is a parameter of which only the output size is used. Refuted: a keypoint with y = 0 counts as inside of the image but lies outside after a quarter turn (x' = height). keep_size with keypoints on empty images raises. |
| C65 | partial | 11 | Everything except the documented meaning of max_steps, which is refuted: steps are counted per position, so for max_steps >= 2 a cell can travel further than max_steps (C65_max_steps_refuted). |
| C66 | partial | 13 | All modelled parameters, any nesting, provided no in-place parameter is applied to a deterministic list (C68). Refuted: rerolled signs for sizes with several axes; Discretize of float32 samples beyond int16. Not modelled: Choice over parameters, TruncatedNormal, Laplace, ChiSquare, Weibull, FromLowerResolution, Power, Sigmoid, SimplexNoise. |
| C67 | partial | 11 | Refuted: probabilities below 1e-6 never fire; a kernel size of one integer and one float is not a range. Empty lists are accepted and fail on drawing. |
| C68 | partial | 2 | Proved if no in-place parameter works on a deterministic list, refuted for Clip, ForceSign and Divide on them. |
| C69 | partial | 3 | Proved while sizes do not shrink; refuted in general. |
| C70 | partial | 4 | Pixels and points without fit_output; with fit_output (C70_fit_partial) the matrices agree up to a constant offset, and the refutation shows that the offset is visible (1 px for a quarter turn). cos, sin, tanh are an abstract record, the resampler is a parameter of which only exactly hit pixels are used. |
| C71 | partial | 9 | Rotation, scaling and translation mean what is documented, about the image centre. Refuted: shear uses tanh of the angle instead of tan; an x-translation of exactly 1e-4 drops the whole shift. |
| C72 | partial | 4 | Canvas contains the pixel grid tightly, all augmentables agree on the shape. Refuted: near-identity transformations change the shape of coordinates only; points in the last pixel row leave the canvas. |
| C73 | partial | 2 | Maps with the aspect ratio of the image; refuted for others. |
| C74 | partial | 4 | Refuted: a tuple for shear draws one value for both axes although the parameter's documentation promises two. |
| C75 | proved | 9 | Power, exp and log2 are parameters assumed to be monotone; float32 arithmetic is exact rounding. |
| C76 | partial | 7 | Refuted: the input of the non-in-place function changes for small images; masks are ignored unless there are 1 or 3 channels; without PIL the brightest pixel need not become 255. |
| C77 | partial | 3 | Path without PIL (cutoff 0, or not two-dimensional and not three channels). Refuted: white may become 254. |
| C78 | partial | 8 | Refuted: 255 bins give black images; values on a bin's lower end may fall into the bin below. |
| C79 | partial | 9 | Images in HSV already. Refuted: samples out of range are not rejected. |
| C80 | partial | 7 | shapely's intersection is a parameter assumed to be correct for the four edges of the image; an intersection function that meets the assumption for all inputs is defined and proved correct. Refuted for images without pixels. |
| C81 | partial | 4 | Refuted for lines inside the strips of 1/1000 at the right and lower border. |
| C82 | partial | 6 | Refuted for lines that are visible only inside the strips. |
| C83 | partial | 6 | Refuted: fill_from_xy_array_ is not atomic. |
| C84 | partial | 9 | Intersection of polygons is a parameter. Refuted: a point is lost if neighbouring points coincide. |
| C85 | proved | 4 | Exact real lengths; axioms of the real numbers of the standard library. |
| C86 | partial | 4 | Sizes for all jitter; the corners for jitter that is small compared to the shape. Refuted: for elongated images a corner is used twice and another one is lost. |
| C87 | proved | 2 | For small jitter. cv2.getPerspectiveTransform is a parameter assumed to take the four points to the four points if no three are on a line; a solver is defined and proved to do so. |
| C88 | partial | 4 | cv2.warpPerspective is a parameter assumed to put exactly hit pixels where the matrix says (a warp that does is defined). Refuted: pixel centres and keypoints drift apart by up to half a pixel times the local enlargement. |
| C89 | partial | 3 | For small jitter on both shapes and regions of at least two pixels, without fit_output. Refuted for maps of low resolution. |
| C90 | partial | 2 | Provided the corners of the image land on a convex quadrilateral. Refuted in general: the horizon may cross the image. |
| C91 | proved | 4 | The children are an arbitrary function of batches. cv2.resize gives arbitrary values; that its result has the requested size is part of the model. |
| C92 | partial | 6 | Refuted: maps with NO_RESIZE keep the image size of the children; methods given as integers fail when mixed with names; segmentation maps cannot be resized like the images. |
| C93 | partial | 3 | Refuted for an array of zero images. |
| C94 | proved | 6 | Images of MaxPooling and MinPooling with pixel values, one channel (all channels alike). AveragePooling and MedianPooling share the code for maps and coordinates. |
| C95 | partial | 2 | At most half a pixel of the pooled image, exact for divisible sizes. Refuted: the keypoint may lie in the neighbouring pixel. |
| C96 | partial | 7 | One channel (all channels alike); integer and bool dtypes; averages in exact arithmetic. Refuted: flags by id without numba if an id is missing; averages of bool images. |
| C97 | proved | 1 |  |
| C98 | partial | 3 | The KD tree is an argument assumed to return a nearest cell (argmin shows that this can be met). Refuted without numba: the mask is shifted if a cell has no pixel. |
| C99 | proved | 3 | Coordinates are exact rationals. |
| C100 | proved | 2 | Induction over nested samplers; the random number generator is an argument. |
| C101 | proved | 1 |  |
| C102 | proved | 3 | Binomial with probability 0 or 1 is an assumption about the generator. |
| C103 | partial | 2 | Refuted for a negative maximum, which is accepted and removes one point. |
| C104 | partial | 5 | cv2.resize gives arbitrary values of the requested size. Refuted: thin images larger than max_size raise AssertionError. |
| C105 | partial | 4 | slic is an argument. Refuted: thin images larger than max_size raise AssertionError. |
| C106 | partial | 7 | Proved for all forms except those refuted: Keypoints as line strings, tuples of points as polygons, closed polygons, arrays without polygons. Augmentation is any function of the points of an object. |
| C107 | partial | 6 | Proved for the forms with a channel axis; the documented forms without it are refuted. Heatmap objects are assumed to have the range 0 to 1 in the statements about whole batches. |
| C108 | proved | 3 | The augmentation of the normalized columns is any function of the content of images and maps and of the coordinates of the other augmentables (see C01 and following for the execution of augmenters). |
| C109 | proved | 5 | Deprecation and duplicate warnings are left out. |
| C110 | partial | 5 | The processes are a transition system with load and receive events; the k-th call of the augmenter is an arbitrary function. Lists of line strings are refuted. |
| C111 | partial | 4 | Proved; the number of items of empty columns is refuted. |
| C112 | partial | 10 | Functions are arbitrary. The mode keypoints for polygons (polygon recoverer) is not modelled. |
| C113 | proved | 3 | Coordinates are exact rationals; shapely's intersection is a parameter with a stated contract. |
| C114 | partial | 12 | Proved for plain branches and sources that have not prefetched samples; the other cases and atomicity on errors are refuted. RNG objects shared by several augmenters are not modelled. |
| C115 | proved | 7 | cv2.filter2D is modelled in exact arithmetic (correlation, BORDER_REFLECT_101, rounding half to even, saturation). |
| C116 | proved | 9 | Exact arithmetic; DirectedEdgeDetect over the reals, which brings in the axioms of the standard library's reals. |
| C117 | partial | 12 | cv2.blur in exact arithmetic; cv2.medianBlur, cv2.GaussianBlur and scipy are not modelled beyond the sizes passed to them; the rotation in MotionBlur is a parameter with a stated contract. Monotonicity of the Gaussian size and mixed arguments are refuted. |
| C118 | partial | 6 | That every image keeps its dtype is refuted for lists of one shape with different dtypes; everything else is proved. |
| C119 | proved | 8 | cv2.resize is a parameter with the contract resizes/picks/averages of RszSpec.v. float16 is clipped but not rounded. |
| C120 | proved | 5 | cv2.resize is a parameter with the contract of RszSpec.v. |
| C121 | partial | 9 | The documented square size, raise_if_out_of_image and large integers are refuted; everything else is proved. Overflow of colours outside the dtype is not modelled. |
| C122 | partial | 6 | skimage's polygon_perimeter is modelled as the border of a rectangle. Values outside 0..255 under transparent boxes are refuted. Labels are not modelled. |
| C123 | partial | 5 | cv2.resize is a parameter (resizes, picks_by_position); the colour map is a function. Thin heatmaps are refuted. |
| C124 | proved | 7 | OpenCV's conversions of one colour are parameters (cvt, gray). |
| C125 | partial | 7 | Holds for views and for gray from RGB/BGR (C125_blend_partial, C125_grayscale); refuted for images of lists. |
| C126 | partial | 9 | The table is the one of the source. The checks of later temperatures and the purity of change_color_temperature are refuted. |
| C127 | partial | 3 | The children are a parameter. GRAY as target is refuted. |
| C128 | partial | 3 | The children are a parameter; the identity without children is refuted. Float32 arithmetic was compared with the exact one for all hues. |
| C129 | partial | 13 | cv2.kmeans and cv2.resize are parameters. Sizes int(size * max_size / side) are computed exactly. Alpha of resized images and thin images are refuted. |
| C130 | proved | 9 | Coordinates are rationals, lengths real numbers. |
| C131 | partial | 12 | shapely's distance of a point to a geometry is modelled by the formula of the foot of the perpendicular; proved to be the minimum. compute_distance and contains consider the corner points only (C131_distance_partial, C131_contains_partial); the full claims are refuted. |
| C132 | partial | 9 | shapely's area is modelled by the shoelace formula. Empty polygons and the tolerance of the constructor are refuted. |
| C133 | proved | 6 | Distances are real numbers; coordinates rational. |
| C134 | proved | 3 | cv2.Canny is a parameter; the theorem about its arguments compares any two detectors that agree on allowed inputs. |
| C135 | proved | 7 | Colour conversions and the power function are parameters; the noise of clouds is drawn by other augmenters (parameter). |
| C136 | proved | 5 | Salt, gate, resizing, blurs and gamma contrast are parameters, assumed to map bytes to bytes. That the colour of drops is derived from a sum of components is documented as pseudo-random. |
| C137 | proved | 8 | float128 is assumed to exist. White space other than spaces is not modelled. |
| C138 | proved | 10 | np.promote_types is modelled by its documented rules. Floats have no subnormals. Finding: the common dtype of three arrays depends on their order. |
| C139 | proved | 12 | Computations in float64 are exact until converted to the image's dtype; results have to be in the range of float64. Finding: images without channels raise ValueError with per_channel. |
| C140 | proved | 8 | OpenCV's conversions, CLAHE and equalizeHist are parameters. CLAHE is AllChannelsCLAHE as the function of the theorem about intensities; this composition is not written out. |
| C141 | proved | 6 | The functions of the imagecorruptions library are a parameter. |
| C142 | partial | 7 | The Gaussian filter is a parameter. Findings: the exchange copies one pixel and loses the other (C142_rearranges_refuted); severities 0 to -4 are accepted (C142_severity). Bounds, origin of the pixels, borders, strengths 1 to 5 and the result's shape are proved. |
| C143 | proved | 8 | Floats are exact. The augmenters themselves are those of other claims; the choice of augmenters is not modelled. |
| C144 | partial | 8 | Texts are sizes only; resizing is by the identity, which is what a row of the image's own height gives. Findings: signed integers are shown black (C144_signed_refuted), some larger cells raise AssertionError (C144_larger_cells_refuted). Layout and bytes are proved. |
| C145 | partial | 5 | Drawing is a parameter; writing files succeeds. Finding: the latest image is in batch_latest.png, the documented latest.png is never written (C145_documented_name_refuted). |
| C146 | partial | 3 | Parameters are told apart by their strings. Proved for lists of parameters with different strings; finding: parameters whose strings are equal though they differ share the samples of the last one (C146_similar_parameters_refuted). |
| C147 | partial | 8 | OpenCV's median blur, mean shift, Canny and Laplacian, percentiles and colour conversions are parameters. Proved for positive edge prevalences; finding: edge_prevalence 0 is accepted but fails on all images (C147_zero_prevalence_refuted). |

## 7. Which parts of the code are modelled

Lines are those of `/repo`. Everything not listed is not modelled.

| file | modelled | not modelled |
|------|----------|--------------|
| `imgaug.py` | pooling (1182-1672), `apply_lut_` (2076-2120), `draw_grid` (1779-1883), `flatten` (426-452), `compute_line_intersection_point` (721-785), hooks as parameters (2140-2281), number checks (246-298), resizing (879-1181) | drawing of text, quokka data, deprecation helpers |
| `random.py` | RNG objects, copying, deriving, advancing, equality, integers/random polyfills, seeds, `temporary_numpy_seed` (all as operations on abstract or explicit generator states) | the bit streams of numpy's generators |
| `parameters.py` | the parameter classes listed in `ParModel.sparam`, argument parsing, prefetching (AugModel), the distance cache of FrequencyNoise, Choice over parameters | probabilities of Choice, TruncatedNormal, Laplace, ChiSquare, Weibull, FromLowerResolution, Power, Sigmoid, SimplexNoise, the FFT of FrequencyNoise, plotting |
| `multicore.py` | seeds, ids, `imap_batches(_unordered)`, `_Pool_worker`, BatchLoader, BackgroundAugmenter | contexts, exceptions in Pool workers, `terminate`, pickling |
| `dtypes.py` | value ranges, `clip_`, `change_dtype_`, `restore_dtypes_`, gates, promotion helpers | deprecated gate_dtypes |
| `augmentables/bbs.py`, `kps.py`, `utils.py` | BoundingBox, Keypoint and their OnImage classes: projection, shifting, clipping, set operations, out-of-image tests, conversion to keypoints and arrays, extraction from images, similar points, keypoint images, interpolation of points, drawing of keypoints and boxes, distance maps | labels |
| `augmentables/heatmaps.py`, `segmaps.py` | construction, conversion, normalization change, copies, draw_on_image | drawing of maps without image |
| `augmentables/lines.py` | clipping, out-of-image tests and fraction, removal, shift, arrays and keypoints (exact rationals; shapely's intersection with the image edges as a parameter), length, box, subdivision, concatenation, distances, comparison | drawing, heatmaps, extraction, find_intersections_with |
| `augmentables/polys.py` | as lists of points under flips; clipping, out-of-image test, closest and first point (shapely's polygon intersection as a parameter), fraction out of the image, area, box, subdivision, comparison | drawing, extraction, validity, recovering of broken polygons |
| `augmentables/batches.py` | rows and columns, subselection and its inverse, propagation hooks, conversions between the batch classes | deprecated Batch attributes |
| `augmentables/normalization.py` | all functions | conversions between bool and numbers in lists of mixed dtypes |
| `augmenters/meta.py` | execution of augmenter trees, Sequential, SomeOf, OneOf, Sometimes, wrapping augmenters, WithChannels, ChannelShuffle, seeding, determinism, tree queries and removal, augment(), augment_batch_(), augment_batches(), AssertShape, Lambda, AssertLambda, RemoveCBAsByOutOfImageFraction, ClipCBAsToImagePlanes, copy_random_state_() | string representations, Lambda for polygons in the mode keypoints |
| `augmenters/size.py` | padding, cropping, amounts, target sizes, fixed sizes, Resize's size computation, KeepSizeByResize (without StochasticParameters given by the user) | interpolation |
| `augmenters/flip.py` | all | |
| `augmenters/geometric.py` | Rot90, Jigsaw, Affine (331-382, 617-797, 1265-1631 without interpolation, cval, modes and backends), PerspectiveTransform (3646-4108 without interpolation, cval, modes and the polygon recoverer) | PiecewiseAffine, ElasticTransformation, WithPolarWarping |
| `augmenters/arithmetic.py` | add, multiply, invert, solarize, cutout, replace_elementwise, Dropout2d, TotalDropout | JPEG compression, Salt/Pepper wrappers |
| `augmenters/blend.py` | blend_alpha, BlendAlpha, BlendAlphaMask, mask generators | SomeColorsMaskGen, SimplexNoise and frequency masks |
| `augmenters/contrast.py` | the tables of gamma, sigmoid, log and linear contrast for uint8 (100-423), linear contrast for all dtypes, `_ContrastFuncWrapper`, CLAHE, histogram equalization (OpenCV as parameter) | gamma, sigmoid and log contrast of other dtypes, sampling |
| `augmenters/pillike.py` | equalize with and without PIL (215-365), autocontrast without PIL (366-530) | PIL's autocontrast, enhancement, filters, affine |
| `augmenters/color.py` | uniform quantization and posterization (3850-4153), AddToHueAndSaturation on HSV images (2363-2569), colour space conversion (177-385), temperatures (388-972), children in other spaces (988-1306, 1572-1754), ChangeColorspace and Grayscale (2723-3016), k-means and the base class of quantization (3094-3516) | the formulas of OpenCV's conversions, k-means itself, the convenience subclasses of WithHueAndSaturation and WithBrightnessChannels |
| `augmenters/pooling.py` | all sizes, maps and coordinates; images of MaxPooling and MinPooling | the values of AveragePooling and MedianPooling |
| `augmenters/segmentation.py` | replacing segments, Voronoi cells, all point samplers, the images of Voronoi and Superpixels (integers and bool, one channel) | float images, slic, the KD tree, parameters of the constructors except p_drop |
| `augmenters/convolutional.py` | convolve_, Convolve and all matrix generators | sampling of the parameters |
| `augmenters/blur.py` | blur_avg_, AverageBlur, kernel sizes of median and gaussian blur, choice of backend, MotionBlur's kernel | the values of median and gaussian blur, bilateral blur, mean shift |
| `augmenters/edges.py` | Canny, random colours of edges (cv2.Canny as parameter) | sampling of parameters |
| `augmenters/weather.py` | FastSnowyLandscape, drawing of CloudLayer, SnowflakesLayer, RainLayer (blurs, resizing, noise as parameters) | sampling of the layers' parameters, Clouds, Fog, Snowflakes, Rain as compositions |
| `augmenters/imgcorruptlike.py` | _call_imgcorrupt_func, _ImgcorruptAugmenterBase, glass blur (other corruptions as parameter) | the corruptions of the imagecorruptions library |
| `augmenters/collections.py` | the parameters of RandAugment | choice and order of its augmenters |
| `augmenters/debug.py` | layout of debug images, conversion to bytes, SaveDebugImageEveryNBatches | texts, heatmaps and segmentation maps |
| `augmenters/artistic.py` | stylize_cartoon, Cartoon on drawn samples | the OpenCV filters, np.percentile, colour conversions |
| other augmenters | | overlay |

## 8. Findings

Behaviour of the code that contradicts its documentation or a natural reading
of it; each has a `_refuted` theorem with a witness unless marked (reading).

* imap_batches loads up to one batch more than the buffer size; a chunksize above output_buffer_size deadlocks.
* Batch ids (hence seeds) repeat if map_batches runs while an imap generator is suspended or abandoned.
* The threaded BatchLoader can lose batches; an exception in a BackgroundAugmenter worker leaves get_batch blocked.
* Prefetched samples ignore the state of the RNG: setting the state does not reproduce results.
* Augmenters whose children list is itself a list-like augmenter: seed_, localize_random_state_, copies and searches skip that augmenter.
* to_deterministic on a deterministic augmenter advances it; an exception inside a deterministic augmenter leaves its RNG advanced.
* draw_grid ignores `cols` if `rows` is given.
* Clipping boxes at the border loses parts smaller than float32's epsilon; extraction without padding compares corners lexicographically; pad_max misaligns the content.
* Padding to powers and keep-aspect-ratio: float logarithms lead to the next larger power; see C15, C17.
* shuffle_channels with duplicate channel indices loses channels.
* to_keypoint_image paints keypoints outside of the image at its border.
* interpolate_points_by_max_distance may exceed the maximum distance.
* Normalization: arrays (N,K,2) with N other than 1 cannot be inverted; mixed dtypes, tuples and [None] change; inverted boxes are reordered.
* change_dtype_ with clipping overflows for large floats and refuses 64 bit integers.
* RNG.copy() resets the cached half of a 64 bit draw; polyfill_random can return 1.0.
* Heatmaps: only the first 50 components are checked; several methods lose the two-dimensional form. Segmentation maps: only the first 100 components are checked.
* invert/solarize: fractional and negative thresholds for uint8; custom ranges raise a TypeError instead of the intended message.
* multiply_scalar gives results that depend on the image size; add_scalar wraps around or raises for some dtypes and silently tiles a wrong number of values.
* Dropout2d raises an IndexError for shapes without channel axis; images with zero channels lose their annotations; ReplaceElementwise fails for fractional masks.
* blend_alpha with a mask changes identical uint8 images and overwrites image_bg; only the first alpha is checked. BlendAlphaMask rounds keypoints outside of the image and treats masks of 0.5 differently for maps and coordinates. Inverted gradients leave their range.
* Rot90: a keypoint on the upper border leaves the image; keep_size fails for keypoints on empty images.
* Jigsaw: max_steps of two or more lets cells travel further.
* Discretize turns float32 samples beyond int16 into unrelated integers; ForceSign with rerolling leaves wrong signs for sizes with several axes; Clip, ForceSign and Divide change the values of deterministic lists; FrequencyNoise depends on the sizes drawn before; probabilities below 1e-6 never fire; kernel sizes of mixed number types are not ranges.
* Affine with fit_output misaligns keypoints and pixels by A(1/2,1/2)-(1/2,1/2), e.g. 1 px for a quarter turn; points in the last pixel row or column can leave the fitted canvas; a near-identity transformation leaves the image alone but changes the image shape recorded for coordinates.
* Affine's shear uses tanh instead of tan, so it never reaches 45 degrees; an x-translation of exactly 1e-4 drops the y-translation as well (x is tested twice); a tuple for shear gives both axes the same value; maps of another aspect ratio than their image are rotated inconsistently with it.
* equalize (not in-place) overwrites its input for three-channel images below 64*64 components; masks are ignored for channel numbers other than 1 and 3; small and large images use different formulas, and with the latter the brightest pixels do not become 255 (128 instead of 255 for an image half 0, half 100).
* autocontrast maps the brightest pixel to 254 for some ranges (0..25, 29, 50, ...), as float64 rounding is cut down.
* quantize_uniform with 255 bins makes every image black (the last filled table row is 254); with 14, 26, 28, ... bins, values on a bin's lower end fall into the bin below.
* AddToHueAndSaturation does not check samples of value_saturation: -300 adds 212, 256 sets the saturation to zero; for value only the first sample is checked.
* C80 (`C80_no_pixels_refuted`): clipping to an image of height or width 0 gives points although nothing is inside (the border is placed at -1/1000).
* C81/C82 (`C81_strip_refuted`, `C82_strip_refuted`): a line string that is inside the image only in the strip of 1/1000 at the right or lower border is clipped away and counts as fully outside.
* C83 (`C83_atomic_refuted`): `fill_from_xy_array_` overwrites some line strings before it raises for a wrong number of rows.
* C84 (`C84_point_lost_refuted`): changing the first point of a polygon in which a point occurs twice in a row loses one of the two; clipping raises an AssertionError if shapely gives a collection that is not empty (`C84_clip_nothing`).
* C86 (`C86_elongated_refuted`): PerspectiveTransform orders the corner points by x+y and y-x, in pixels. For elongated images this mixes them up: in an image of 10x100 with a jitter of 12% the bottom left corner is used twice and the top left one is lost.
* C88 (`C88_centre_refuted`): PerspectiveTransform applies one matrix to pixel indices and to coordinates, although the centre of pixel (0, 0) has the coordinates (0.5, 0.5); where the image is enlarged, keypoints leave their pixel.
* C89 (`C89_small_map_refuted`): the minimum size of two pixels applies to the arrays of maps too, so maps of low resolution are moved differently from their image.
* C90 (`C90_horizon_refuted`): with fit_output and a jitter of 40% the corners of the image change sides and its centre leaves the canvas.
* C92 (`C92_map_no_resize_refuted`): KeepSizeByResize with NO_RESIZE for maps (the example in its documentation) leaves the attribute shape of the map at the size after the children while the image is resized, so following augmenters treat the map as belonging to an image of another size.
* C92 (`C92_integer_refuted`, `C92_mixed_list_refuted`): methods given as integers of cv2 are accepted, but become strings such as "2" in arrays of strings and are then rejected when an image is resized.
* C92 (`C92_segmaps_as_images_refuted`): interpolation_segmaps=SAME_AS_IMAGES with the default for images raises ValueError (int32 arrays can only be resized by nearest neighbour).
* C93 (`C93_empty_array_refuted`): KeepSizeByResize turns an array of zero images into a list.
* C95 (`C95_pixel_refuted`): pooling with a kernel size that does not divide the image size may move a keypoint to the neighbour of the pixel its pixel was pooled into.
* (reading) KeepSizeByResize.get_parameters and `__str__` leave out interpolation_segmaps. The documentation of the pooling augmenters says the arrays of heatmaps and segmentation maps are not changed; they are resized.
* C96 (`C96_gap_refuted`), C98 (`C98_mask_refuted`): without numba (and for dtypes other than 8 bit ones) the flags of replace_segments_ are matched with the segments by the rank of their id, not by the id. A Voronoi cell without pixels shifts the mask of all later cells.
* C96 (`C96_bool_mean_refuted`): for bool images the average color is True if any pixel is True (the average is cast to bool).
* C103 (`C103_negative_refuted`): SubsamplingPointsSampler accepts a negative n_points_max, which then becomes -1 and removes the last point instead of limiting anything.
* C104, C105 (`C104_thin_refuted`, `C105_thin_refuted`): Voronoi and Superpixels with max_size fail on images with an aspect ratio above max_size, e.g. 1x300 pixels with the default 128: the short side is rounded down to zero and imresize raises AssertionError.
* (reading) `_ensure_image_max_size` computes the new size with `int(size * (max_size / size))`; the floating point product may be below max_size, giving max_size - 1.
* C106 (`C106_keypoints_as_lines_refuted`): line strings given as Keypoints, a documented form, raise TypeError (`LineString.__init__` takes the length of each point).
* C106 (`C106_tuple_of_points_refuted`): one polygon given as a tuple of points is classified as a polygon but raises AssertionError in `Polygon.__init__`; a line string in that form is accepted.
* C106 (`C106_closed_polygon_refuted`): polygons that repeat their first point at the end come back with one point less, even if nothing is augmented.
* C106 (`C106_empty_array_refuted`): arrays of images without polygons, of shape (N,0,P,2), are normalized but cannot be restored.
* C107 (`C107_documented_segmap_forms_refuted`): segmentation maps given as (N,H,W) array or list of (H,W) arrays, the only array forms documented for `segmentation_maps`, always raise ValueError; a channel axis is required.
* C110 (`C110_line_strings_refuted`): `augment_batches()` accepts lists of heatmaps, segmentation maps, keypoints, bounding boxes and polygons on images, but a list of LineStringsOnImage raises.
* C111 (`C111_number_of_items_of_empty_columns_refuted`): AssertShape does not check columns without items, so an expected number of four images passes with none.
* C112 (`C112_short_results_refuted`, `C112_new_boxes_are_ordered_refuted`): if the keypoint function of Lambda returns fewer objects than it was given, the remaining bounding boxes or line strings are dropped silently (`zip`); the corners of the bounding boxes are brought into order before the function is applied instead of afterwards.
* C114 (`C114_after_use_refuted`, `C114_drawing_branch_refuted`, `C114_all_or_nothing_refuted`): copy_random_state does not copy samples that the source has prefetched, so a copy of a used augmenter gives other outputs than the source; augmenters that serve as branches (e.g. SomeOf in Sometimes) are not reached; when it raises, some augmenters have been changed already.
* C116 (`C116_integer_blend`): for integer images Sharpen/Emboss/EdgeDetect clip the blend, not the effect, so the result differs from blending the image with the full effect.
* C117 (`C117_gauss_monotone_refuted`, `C117_mixed_refuted`, `C117_extra_ignored`): sigma 4.99 gets a Gaussian kernel of size 15 and sigma 5 one of size 13; AverageBlur raises for (parameter, tuple), although the documentation says that both are treated by the same rules, and silently ignores surplus entries of an inner tuple.
* C118 (`C118_mixed_dtypes_refuted`): imresize_many_images stacks a list of images of one shape into one array, so e.g. a uint8 image beside a float32 image comes back as float32.
* (reading) `dtypes._convert_dtype_strs_to_types_cached` (dtypes.py:374-379) calls itself without end; nothing uses it.
* C121 (`C121_square_size_refuted`, `C121_raise_refuted`, `C121_large_integers_refuted`): keypoints of even size S are drawn as squares of S + 1 pixels; raise_if_out_of_image raises for keypoints inside the image whose rounded position is outside and does not raise for keypoints outside whose square is visible; transparent keypoints round all pixels of int32 images to float32.
* C122 (`C122_clipping_refuted`): transparent boxes clip all pixels of e.g. int16 or float images to 0..255.
* C123 (`C123_columns_refuted`, `C123_thin_images_refuted`): drawing a heatmap with one column without colour map transposes it and returns a larger image; with a colour map every image with one row or column raises IndexError (np.squeeze).
* C125 (`C125_alpha_ignored_refuted`, `C125_gray_of_other_spaces_refuted`): ChangeColorspace converts images of a list in place and then blends the result with itself: alpha is ignored. Grayscale from e.g. HSV blends with the RGB image.
* C126 (`C126_temperatures_checked_refuted`, `C126_input_kept_refuted`): change_color_temperatures_ checks only the first temperature; change_color_temperature (no underscore) overwrites its argument.
* C127 (`C127_gray_refuted`): WithColorspace(GRAY) is accepted and fails at every image.
* C128 (`C128_identity_refuted`): WithHueAndSaturation with no-op children changes the hue of 165 of 180 hues by -1.
* C129 (`C129_alpha_refuted`, `C129_thin_images_refuted`): with max_size, the alpha channel is resized down and up; images of e.g. 3 x 500 pixels raise for max_size=128 (the default of KMeansColorQuantization).
* C131 (`C131_distance_refuted`, `C131_contains_refuted`): LineString.compute_distance and contains only look at the corner points of the line string: the midpoint of any edge longer than 2*max_distance is "not contained", and compute_distance is not symmetric (sqrt(26) versus 1 for two crossing-free lines).
* C132 (`C132_empty_refuted`, `C132_points_kept_refuted`): Polygon([]).width, height and to_bounding_box raise ValueError; the constructor drops a last point 0.05 pixels from the first for coordinates of about 10000.
* (C138) `get_minimal_dtype` folds `np.promote_types` from left to right: [int8, uint16, float16] gives float64, [uint16, float16, int8] gives float32, although float32 holds all values of the three (`C138_order_matters`).
* (C139) contrast augmenters raise ValueError ("need at least one array to stack") for images without channels if parameters are drawn per channel; without per_channel they return them (`C139_no_channels_raise`).
* (C139, reading) linear contrast rounds uint8 results down and those of all other integer dtypes to the nearest integer.
* (C142) glass blur's exchange of two pixels, `x[h, w], x[h_prime, w_prime] = x[h_prime, w_prime], x[h, w]`, works on numpy views: the first assignment overwrites what the second one reads. One pixel is copied and the other is lost (`C142_turn`, `C142_rearranges_refuted`).
* (C142) severity - 1 indexes a Python list, so severities 0, -1, ..., -4 are accepted and use the strengths of 5, 4, ..., 1 (`C142_severity`).
* (C144) debug images show all images of signed integer dtypes black: the minimum of the dtype is added instead of subtracted (`C144_signed_refuted`).
* (C144) `_resizepad_to_size` raises AssertionError for some cells larger than the image (10x30 into 40x61); draw_debug_image does not reach this case, as its rows have the height of the image (`C144_larger_cells_refuted`, `C144_layout`).
* (C145) SaveDebugImageEveryNBatches documents that the latest image is saved to `latest.png`; the file is `batch_latest.png` (`C145_documented_name_refuted`).
* (C146) Choice over parameters identifies them by their strings, which round numbers: of two DeterministicLists that differ in the fifth decimal (or two Deterministics in the ninth, or two RandomSigns with probabilities 0.001 and 0.004) only the last is sampled (`C146_similar_parameters_refuted`).
* (C147) Cartoon accepts edge_prevalence 0, but then 1/0 is infinite and int() of it raises OverflowError for all images (`C147_zero_prevalence_refuted`).
* (C147) In large images whose percentile of edge strengths is 0, mostly flat ones, Cartoon divides by 0 and draws no edges (`C147_flat_images`).
* (reading) a comment of stylize_cartoon speaks of at most 3 edge pixels, the code drops edges with less than 3.
* (reading) a list as block size of uint8 pooling raises a TypeError; Jigsaw refuses boxes only after changing the images.
