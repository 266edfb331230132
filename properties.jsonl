{"id": "C01", "title": "Projecting coordinates to a resized image is scale-exact and reversible", "statement": "Projecting the points of a keypoint, bounding box, line string or polygon from an image of size HxW onto one of size H'xW' multiplies x by W'/W and y by H'/H, leaves the number and order of points unchanged, projecting back returns the original points, projecting via an intermediate size equals projecting directly, and projecting between equal sizes changes nothing; image sizes that are not positive are rejected (when the sizes differ).", "quantifier": "all lists of points (any length), all positive source and target sizes, all intermediate sizes", "why_tests_cant": "coordinates and sizes range over infinitely many values; tests sample a few sizes", "anchors": ["imgaug/augmentables/utils.py:project_coords_", "imgaug/augmentables/kps.py:Keypoint.project_, KeypointsOnImage.on_", "imgaug/augmentables/bbs.py:BoundingBox.project_"]}
{"id": "C02", "title": "Bounding-box intersection and union have their geometric meaning", "statement": "The intersection of two boxes contains exactly the points contained in both boxes, and 'no intersection' is returned exactly when no point lies in both; the union is the smallest axis-aligned box containing both. Both operations ignore argument order.", "quantifier": "all pairs of boxes with arbitrary corner order given to the constructor, all points of the plane", "why_tests_cant": "needs every relative position of two boxes and every point", "anchors": ["imgaug/augmentables/bbs.py:BoundingBox.__init__, contains, intersection, union"]}
{"id": "C03", "title": "IoU is a bounded symmetric similarity", "statement": "iou(a,b)=iou(b,a), 0<=iou<=1, iou is 0 when the boxes do not intersect, iou(a,a)=1 for boxes of positive area, and iou(a,b)=1 only if both boxes have the same corners; no division by zero ever happens.", "quantifier": "all pairs of boxes including degenerate (zero-area) ones", "why_tests_cant": "universal over real coordinates incl. degenerate boxes", "anchors": ["imgaug/augmentables/bbs.py:BoundingBox.iou, area, intersection"]}
{"id": "C04", "title": "Clipping a box to the image plane yields exactly the visible part", "statement": "For a non-empty image, clip_out_of_image returns a box that lies in the half-open image plane, never grows a box, is idempotent, leaves boxes that are fully inside unchanged, and for boxes that are partly inside the image contains exactly the points of the box that lie in the clip region; after clip_out_of_image of a whole on-image container every remaining box is fully within the image and exactly the boxes that are partly within the image remain, in order. Empty images are rejected.", "quantifier": "all boxes, all image sizes, all lists of boxes", "why_tests_cant": "universal over positions relative to each image border", "anchors": ["imgaug/augmentables/bbs.py:BoundingBox.clip_out_of_image_, is_fully_within_image, is_partly_within_image, BoundingBoxesOnImage.clip_out_of_image_"]}
{"id": "C05", "title": "Out-of-image fraction of a box is a genuine fraction", "statement": "compute_out_of_image_fraction always lies in [0,1]; it is 0 for a box fully inside the image and 1 for a box of positive area that does not overlap the image; for boxes of positive area fraction*area plus the overlapped area equals the area; zero-area boxes never cause a division by zero and give 0 or 1.", "quantifier": "all boxes and image sizes", "why_tests_cant": "universal over positions; the zero-area branch is a corner", "anchors": ["imgaug/augmentables/bbs.py:BoundingBox.compute_out_of_image_area, compute_out_of_image_fraction"]}
{"id": "C06", "title": "Removing by out-of-image fraction is an order-preserving filter", "statement": "remove_out_of_image_fraction(f) keeps exactly the items whose out-of-image fraction is below f, in their original order and unchanged, is idempotent, and removing with a smaller threshold removes at least as much; remove_out_of_image(fully,partly) keeps exactly the boxes allowed by the flags.", "quantifier": "all lists of items and all thresholds", "why_tests_cant": "all list lengths and thresholds", "anchors": ["imgaug/augmentables/utils.py:_remove_out_of_image_fraction_", "imgaug/augmentables/bbs.py:BoundingBoxesOnImage.remove_out_of_image_"]}
{"id": "C07", "title": "Shift, extend and coordinate arithmetic compose", "statement": "Shifting by (a,b) and then by (c,d) equals shifting by (a+c,b+d), shifting back restores the object, the legacy arguments top/right/bottom/left mean y+top-bottom and x+left-right; shifting preserves width, height, area and IoU of boxes; extending grows the box on exactly the requested sides.", "quantifier": "all boxes, keypoints and shift amounts", "why_tests_cant": "universal over real amounts", "anchors": ["imgaug/augmentables/utils.py:_normalize_shift_args", "imgaug/augmentables/bbs.py:BoundingBox.shift_, extend_", "imgaug/augmentables/kps.py:Keypoint.shift_"]}
{"id": "C08", "title": "Converting boxes to keypoints and back is lossless", "statement": "Converting a bounding-boxes container to a keypoints container and writing the keypoints back restores every box and its label and the image shape, for any number of boxes; if the keypoints were transformed in between, every box becomes the smallest axis-aligned box around its own four transformed corners (no mixing between boxes), and a wrong number of keypoints is rejected.", "quantifier": "all lists of boxes, all coordinate transformations in between", "why_tests_cant": "any number of boxes, any transformation", "anchors": ["imgaug/augmentables/bbs.py:BoundingBoxesOnImage.to_keypoints_on_image, invert_to_keypoints_on_image_", "imgaug/augmentables/utils.py:convert_cbaois_to_kpsois, invert_convert_cbaois_to_kpsois_"]}
{"id": "C09", "title": "Extracting a box from an image returns only pixels of the box", "statement": "extract_from_image with padding returns an array of exactly the (rounded) box size whose pixels are the image pixels at the box position and zeros outside the image; without padding, boxes that are not inside the image yield only zeros; limiting the padding (pad_max) never shifts image content.", "quantifier": "all integer boxes, all images, all pad_max values", "why_tests_cant": "every relative position of box and image", "anchors": ["imgaug/augmentables/bbs.py:BoundingBox.extract_from_image"]}
{"id": "C10", "title": "Cropping never removes the whole image and never removes more than asked", "statement": "For every image axis of size >=1 and any non-negative crop amounts, the effective crops are non-negative, never exceed the requested amounts (unless needed to redistribute) and leave an axis of size max(1, size - requested); when enough pixels remain, exactly the requested pixels are removed. The cropped array is the corresponding window of the input.", "quantifier": "all axis sizes and crop amounts", "why_tests_cant": "unbounded integers with saturation corner cases on both sides", "anchors": ["imgaug/augmenters/size.py:_prevent_zero_sizes_after_crops_, _crop_trbl_to_xyxy, _crop_arr_"]}
{"id": "C11", "title": "Padding keeps the image content in place", "statement": "pad adds exactly the requested number of rows/columns on each side, keeps every original pixel at offset (top,left), fills with the (dtype-clipped) cval in constant mode and with the documented neighbours in edge/reflect/symmetric mode; channels are padded independently, for any number of channels; negative amounts are rejected.", "quantifier": "all arrays, pad amounts, channel counts and modes modelled", "why_tests_cant": "unbounded sizes; the >4-channel code path loops over channel blocks", "anchors": ["imgaug/augmenters/size.py:pad"]}
{"id": "C12", "title": "Crop-and-pad moves coordinates and pixels together", "statement": "For any (crop, pad) amounts, CropAndPad moves keypoints (and thus boxes, polygons, line strings) by exactly the offset by which it moves image pixels, and reports as new shape exactly the shape of the augmented image; with keep_size the shape is the input shape and coordinates are scaled with the image.", "quantifier": "all images, croppings, paddings, keypoints", "why_tests_cant": "relation between two code paths for all amounts incl. over-cropping", "anchors": ["imgaug/augmenters/size.py:_crop_and_pad_arr, _crop_and_pad_kpsoi_, _compute_shape_after_crop_and_pad"]}
{"id": "C13", "title": "Crop/pad amounts for multiples are exact and minimal", "statement": "compute_paddings_to_reach_multiples_of yields non-negative paddings after which the axis is a positive multiple and no smaller padding would do; compute_croppings_to_reach_multiples_of yields non-negative croppings leaving the largest multiple not exceeding the axis size; the two sides differ by at most one with the extra pixel at the bottom/right; None leaves the axis unchanged; non-positive multiples are rejected.", "quantifier": "all axis sizes and multiples", "why_tests_cant": "unbounded integers", "anchors": ["imgaug/augmenters/size.py:compute_paddings_to_reach_multiples_of, compute_croppings_to_reach_multiples_of"]}
{"id": "C14", "title": "Crop/pad amounts for aspect ratios reach the ratio to within one pixel", "statement": "compute_paddings_to_reach_aspect_ratio only pads one axis (for non-empty images), pads non-negative amounts, and the resulting width differs from ratio*height (or height from width/ratio) by less than one pixel, exactly reaching it when that is an integer; the cropping counterpart likewise only crops one axis and leaves at least one pixel; padding to square yields a square.", "quantifier": "all shapes and all positive ratios", "why_tests_cant": "real-valued ratios and all shapes", "anchors": ["imgaug/augmenters/size.py:compute_paddings_to_reach_aspect_ratio, compute_croppings_to_reach_aspect_ratio"]}
{"id": "C15", "title": "Crop/pad amounts for powers reach a power of the base", "statement": "compute_paddings_to_reach_powers_of yields an axis size that is a power of the base, not smaller than the input and minimal with that property (subject to allow_zero_exponent); the cropping counterpart yields the largest power not exceeding the axis size.", "quantifier": "all axis sizes and bases", "why_tests_cant": "unbounded integers; logarithm based code", "anchors": ["imgaug/augmenters/size.py:compute_paddings_to_reach_powers_of, compute_croppings_to_reach_powers_of"]}
{"id": "C16", "title": "Pad/crop to fixed size reach the size wherever they are positioned", "statement": "PadToFixedSize pads an axis smaller than the target to exactly the target and leaves larger axes unchanged, CropToFixedSize crops a larger axis to exactly the target and leaves smaller axes unchanged, both with non-negative amounts for every position in [0,1]; position 0 puts everything at one side, 1 at the other.", "quantifier": "all sizes and all positions in [0,1]", "why_tests_cant": "continuous position parameter", "anchors": ["imgaug/augmenters/size.py:PadToFixedSize._calculate_paddings, CropToFixedSize._calculate_crop_amounts"]}
{"id": "C17", "title": "Resize computes the documented target size", "statement": "Resize with an int gives that size, with a float the rounded fraction but at least 1, with 'keep' the input size, with 'keep-aspect-ratio' the other side scaled by the input's aspect ratio; shorter-side/longer-side assign the values to the shorter/longer side.", "quantifier": "all image sizes and size specifications", "why_tests_cant": "unbounded", "anchors": ["imgaug/augmenters/size.py:Resize._compute_height_width"]}
{"id": "C18", "title": "Flipping is an involution that treats all data alike", "statement": "Fliplr/Flipud applied twice restore images, heatmaps, segmentation maps, keypoints, boxes, polygons and line strings; the pixel at column i moves to column W-1-i and the coordinate x moves to W-x, so a coordinate lying in a pixel's cell still lies in the moved pixel's cell (interior); boxes keep x1<=x2; elements of rows that were not sampled stay unchanged.", "quantifier": "all images, sizes and coordinates, all sample vectors", "why_tests_cant": "universal over sizes", "anchors": ["imgaug/augmenters/flip.py:fliplr, flipud, Fliplr._augment_batch_, Flipud._augment_batch_"]}
{"id": "C19", "title": "Seeds derived for background workers are always valid", "statement": "For every base seed and batch index, the seeds used to reseed the global and the augmenter RNG in a worker lie in the valid seed range, and two batch ids closer than the seed range get different seeds.", "quantifier": "all integers as base seed and batch id (including negative ones)", "why_tests_cant": "unbounded integers, modulo arithmetic", "anchors": ["imgaug/multicore.py:_derive_seed, _reseed_global_local, _Pool_worker"]}
{"id": "C20", "title": "Batch ids handed out by a pool are consecutive and unique", "statement": "Over any sequence of completed map_batches/map_batches_async/imap_batches calls on one pool, the i-th submitted batch overall gets id i; no two batches get the same id. (Checked also for calls interleaved with a still running imap_batches.)", "quantifier": "all sequences of calls, all batch counts, all interleavings", "why_tests_cant": "histories and interleavings", "anchors": ["imgaug/multicore.py:Pool._handle_batch_ids, Pool._handle_batch_ids_gen"]}
{"id": "C21", "title": "Pool with a seed gives schedule-independent results", "statement": "With a fixed seed, the augmented result of every batch depends only on the seed, the pipeline, the batch and its position, never on the number of workers or on which worker processes which batch in which order.", "quantifier": "all pipelines, all schedules of batches over workers, all worker histories", "why_tests_cant": "exponentially many schedules", "anchors": ["imgaug/multicore.py:_Pool_worker, _reseed_global_local", "imgaug/augmenters/meta.py:Augmenter.seed_, Augmenter.get_children_lists, Sometimes.get_children_lists"]}
{"id": "C22", "title": "imap_batches respects the output buffer bound and order", "statement": "With output_buffer_size=k at no point in any execution are more than k batches loaded from the generator but not yet handed to the user, every batch is returned exactly once, in input order for imap_batches, and the run can always make progress until all batches are returned.", "quantifier": "all generators, worker counts and interleavings", "why_tests_cant": "interleavings", "anchors": ["imgaug/multicore.py:Pool.imap_batches, _ibuffer_batch_loading, _create_output_buffer_left"]}
{"id": "C23", "title": "Background augmentation queue loses and duplicates nothing", "statement": "For every interleaving of loader, main worker, augmentation workers and consumer, each batch produced by the load function is delivered by get_batch at most once; after the end-of-stream None every batch has been delivered exactly once; None is returned forever after.", "quantifier": "all interleavings, numbers of workers and batches", "why_tests_cant": "interleavings", "anchors": ["imgaug/multicore.py:BatchLoader, BackgroundAugmenter"]}
{"id": "C24", "title": "Max/min pooling equals blockwise max/min", "statement": "The fast uint8 max/min pooling (padding, flipping, dilation/erosion, strided slicing) returns for every output cell exactly the maximum/minimum over the corresponding block of the (padded) input, and the output size is ceil(size/block).", "quantifier": "all image sizes, block sizes and contents", "why_tests_cant": "index arithmetic for all sizes and block sizes", "anchors": ["imgaug/imgaug.py:_minmax_pool_uint8_, pool"]}
{"id": "C25", "title": "Lookup tables are applied channel-exactly", "statement": "apply_lut_ maps every pixel of channel c through the c-th column of the table (or through the single table), for any number of channels, including more than 512.", "quantifier": "all images, channel counts, tables", "why_tests_cant": "chunking loop over channel blocks of 512", "anchors": ["imgaug/imgaug.py:apply_lut_, apply_lut"]}
{"id": "C26", "title": "Image grids place every image in its own cell", "statement": "draw_grid places image i at cell (i / cols, i mod cols), cells do not overlap, every image is completely visible unchanged, the remaining area is zero and the grid has at least as many cells as images; given rows and cols are honoured.", "quantifier": "all image counts, sizes and grid sizes", "why_tests_cant": "universal over counts and sizes", "anchors": ["imgaug/imgaug.py:draw_grid"]}
{"id": "C27", "title": "Row subselection and its inversion only touch the selected rows", "statement": "Selecting rows of a batch by index, augmenting the selection and writing it back changes exactly the selected rows in every column, keeps the other rows, the number and order of rows and None columns, for every list of distinct valid indices, including none or all rows.", "quantifier": "all batches, all index lists, all row-wise augmentations", "why_tests_cant": "all index subsets", "anchors": ["imgaug/augmentables/batches.py:_BatchInAugmentation.subselect_rows_by_indices, invert_subselect_rows_by_indices_"]}
{"id": "C28", "title": "SomeOf and OneOf apply exactly the sampled number of children", "statement": "For every sample of n, SomeOf applies exactly min(n, number of children) distinct children to the row and no others, keeping the children's order unless random_order is set, OneOf applies exactly one; n ranges given as tuples are clipped to the number of children and None means all.", "quantifier": "all children lists, all n, all shuffles, all batches", "why_tests_cant": "all shuffles and sizes", "anchors": ["imgaug/augmenters/meta.py:SomeOf._get_augmenter_active, _get_n, _augment_batch_, OneOf"]}
{"id": "C29", "title": "Sequential applies every child exactly once", "statement": "Sequential without random order applies its children first to last; with random order it applies each child exactly once in a permuted order; nested sequences behave like their concatenation.", "quantifier": "all children lists, all permutations", "why_tests_cant": "all orders", "anchors": ["imgaug/augmenters/meta.py:Sequential._augment_batch_"]}
{"id": "C30", "title": "Sometimes partitions the rows between its branches", "statement": "Every row of a batch is processed by exactly one of the then-branch (sample true) and the else-branch (sample false) and by nothing if that branch is absent; rows are never lost, duplicated, or reordered.", "quantifier": "all sample vectors, all batches", "why_tests_cant": "all subsets of rows", "anchors": ["imgaug/augmenters/meta.py:Sometimes._augment_batch_"]}
{"id": "C31", "title": "Removing augmenters removes exactly the matching ones", "statement": "remove_augmenters removes from a pipeline exactly the augmenters for which the predicate holds (children of kept augmenters are processed recursively, everything below a removed augmenter disappears with it) and keeps order and structure of all others; find_augmenters returns exactly the matching augmenters in traversal order.", "quantifier": "all augmenter trees and predicates", "why_tests_cant": "all trees; in-place deletion by shifting indices", "anchors": ["imgaug/augmenters/meta.py:Augmenter.remove_augmenters_, remove_augmenters, find_augmenters, get_all_children"]}
{"id": "C32", "title": "Images and all other columns receive the same transformation", "statement": "When a batch holds several kinds of data, every column is augmented starting from the same RNG state, so that the sampled parameters agree between images, heatmaps, segmentation maps, keypoints, boxes, polygons, line strings; the state after the call differs from the one before.", "quantifier": "all augmenters defined column-wise, all RNG states, all column subsets", "why_tests_cant": "all RNG states", "anchors": ["imgaug/augmenters/meta.py:Augmenter._augment_batch_, _maybe_deterministic_ctx"]}
{"id": "C33", "title": "Deterministic augmenters repeat themselves", "statement": "An augmenter converted with to_deterministic gives equal outputs for equal inputs, call after call, whatever is augmented in between; to_deterministic does not alter the original's output sequence except advancing its RNG.", "quantifier": "all augmenters, inputs, and call histories", "why_tests_cant": "all histories", "anchors": ["imgaug/augmenters/meta.py:Augmenter.to_deterministic, augment_batch_, _maybe_deterministic_ctx"]}
{"id": "C34", "title": "Seeding a pipeline makes it reproducible", "statement": "After seed_(s), the outputs of a pipeline depend only on s, the pipeline structure and the inputs, not on what it was used for before; every augmenter in the tree gets its own stream.", "quantifier": "all pipelines, all prior histories, all seeds", "why_tests_cant": "all trees and histories", "anchors": ["imgaug/augmenters/meta.py:Augmenter.seed_, get_children_lists, Sometimes.get_children_lists, WithChannels.get_children_lists"]}
{"id": "C35", "title": "A deactivated or empty step changes nothing", "statement": "If hooks deactivate an augmenter, or the batch is empty, the batch is returned unchanged and no random number is consumed; hooks that forbid propagation keep the children from being executed; columns hidden by hooks reappear unchanged in the result.", "quantifier": "all batches, hooks, augmenters", "why_tests_cant": "all hook functions", "anchors": ["imgaug/augmenters/meta.py:Augmenter.augment_batch_", "imgaug/augmentables/batches.py:_BatchInAugmentation.apply_propagation_hooks_, invert_apply_propagation_hooks_"]}
{"id": "C36", "title": "WithChannels touches only the selected channels", "statement": "WithChannels applies its children to exactly the selected channels and leaves all other channels and the channel order unchanged.", "quantifier": "all images, channel lists, child augmentations", "why_tests_cant": "all channel subsets", "anchors": ["imgaug/augmenters/meta.py:WithChannels._augment_batch_"]}
{"id": "C37", "title": "Channel shuffling is a permutation of the selected channels", "statement": "shuffle_channels outputs the same multiset of channels; channels not listed stay in place.", "quantifier": "all channel counts, channel lists and shuffles", "why_tests_cant": "all permutations", "anchors": ["imgaug/augmenters/meta.py:shuffle_channels, ChannelShuffle"]}
{"id": "C38", "title": "Normalising inputs and restoring outputs round-trips", "statement": "For every supported input form of images, keypoints and bounding boxes (array, single object, list, nested lists, containers), augmenting with an identity augmenter returns data of the same form, count, order and values.", "quantifier": "all supported input forms, all sizes", "why_tests_cant": "many forms times all sizes", "anchors": ["imgaug/augmentables/normalization.py:normalize_keypoints, invert_normalize_keypoints, normalize_bounding_boxes, invert_normalize_bounding_boxes, normalize_images, invert_normalize_images"]}
{"id": "C39", "title": "Similar points of a keypoint form the exact Manhattan ball", "statement": "generate_similar_points_manhattan(n, step) returns exactly all points reachable with at most n steps of the given size in the four directions, each once, 2n^2+2n+1 in total.", "quantifier": "all n, step sizes and positions", "why_tests_cant": "all n", "anchors": ["imgaug/augmentables/kps.py:Keypoint.generate_similar_points_manhattan"]}
{"id": "C40", "title": "Keypoint images encode keypoint positions recoverably", "statement": "to_keypoint_image followed by from_keypoint_image returns for every keypoint whose rounded position lies in the image the centre of the pixel it was rounded to, for every number of keypoints and every marker size; keypoints outside the image are reported as not found.", "quantifier": "all keypoint lists, image sizes, marker sizes", "why_tests_cant": "positions at and beyond all borders", "anchors": ["imgaug/augmentables/kps.py:KeypointsOnImage.to_keypoint_image, from_keypoint_image"]}
{"id": "C41", "title": "Interpolated points respect the requested density", "statement": "interpolate_points places exactly the requested number of equally spaced points between neighbouring points and keeps the originals in order; interpolate_points_by_max_distance leaves no two neighbouring points further apart than max_distance.", "quantifier": "all point lists, step counts and distances", "why_tests_cant": "all lengths", "anchors": ["imgaug/augmentables/utils.py:interpolate_point_pair, interpolate_points, interpolate_points_by_max_distance"]}
{"id": "C42", "title": "Heatmaps keep their value range and values", "statement": "Creating a heatmap with range (min,max) and reading it back returns the input values; values outside the range are clipped; inverting twice restores the heatmap; change_normalization there and back restores values; conversion to uint8 and back restores uint8 values exactly.", "quantifier": "all arrays, all ranges min<max", "why_tests_cant": "all arrays of any size; clipping decided by a prefix only", "anchors": ["imgaug/augmentables/heatmaps.py:HeatmapsOnImage.__init__, get_arr, invert, to_uint8, from_uint8, change_normalization"]}
{"id": "C43", "title": "Segmentation maps keep class ids", "statement": "A segmentation map of any accepted dtype and dimensionality read back via get_arr equals the input including dtype and number of dimensions; negative class ids are rejected.", "quantifier": "all arrays of the accepted dtypes", "why_tests_cant": "all sizes; validation on a prefix only", "anchors": ["imgaug/augmentables/segmaps.py:SegmentationMapsOnImage.__init__, get_arr, copy"]}
{"id": "C44", "title": "Converting dtypes saturates and rounds correctly", "statement": "change_dtype_ with clip and round maps every value to the nearest value representable in the target integer dtype (ties to even, saturating at the ends) and is the identity if the dtypes agree; converting to a wider dtype and restoring is lossless.", "quantifier": "all values and dtype pairs", "why_tests_cant": "all values", "anchors": ["imgaug/dtypes.py:change_dtype_, clip_, get_value_range_of_dtype, restore_dtypes_"]}
{"id": "C45", "title": "Flattening nested inputs preserves order", "statement": "flatten yields the leaves of arbitrarily nested lists/tuples in left-to-right order and leaves strings and arrays intact.", "quantifier": "all nestings", "why_tests_cant": "unbounded depth", "anchors": ["imgaug/imgaug.py:flatten"]}
{"id": "C46", "title": "Line intersection points lie on both lines", "statement": "compute_line_intersection_point returns a point lying on both infinite lines, and False exactly when the lines have zero determinant (parallel, identical or degenerate).", "quantifier": "all quadruples of points", "why_tests_cant": "universal over coordinates", "anchors": ["imgaug/imgaug.py:compute_line_intersection_point"]}
{"id": "C47", "title": "Bounded random integers hit exactly the requested interval", "statement": "The polyfill used on old numpy for integers(low, high, endpoint) requests exactly the half-open range numpy's randint needs for the inclusive/exclusive interval asked for.", "quantifier": "all low, high, endpoint flags", "why_tests_cant": "all integers", "anchors": ["imgaug/random.py:polyfill_integers"]}
{"id": "C48", "title": "Prefetching parameter samples loses and invents nothing", "statement": "A parameter that is prefetched in blocks hands out exactly the requested number of samples per call, and across calls with one RNG the concatenation of all samples handed out is an unbroken prefix of the blocks drawn from the RNG; requests not served from the cache come directly from the RNG and a change of the RNG object empties the cache.", "quantifier": "all sequences of request sizes, block sizes, samplers and cache states", "why_tests_cant": "all histories of calls", "anchors": ["imgaug/parameters.py:AutoPrefetcher.draw_samples, AutoPrefetcher._prefetch"]}
{"id": "C49", "title": "imgaug.seed makes fresh pipelines reproducible", "statement": "After imgaug.seed(s), augmenters that use the global RNG and were not used before produce outputs that depend only on s, whatever was augmented by other augmenters before.", "quantifier": "all augmenter trees, histories and batches", "why_tests_cant": "all histories", "anchors": ["imgaug/random.py:seed", "imgaug/augmenters/meta.py:Augmenter.augment_batch_"]}
{"id": "C50", "title": "Copied RNGs reproduce the original and do not interfere", "statement": "RNG.copy() returns an RNG that yields the same numbers as the original for every sequence of sampling calls, and drawing from one never changes the numbers of the other; use_state_of_ makes two RNGs yield the same numbers; equals() is true only for RNGs with the same future numbers.", "quantifier": "all generator states, all sampling calls, all interleavings of calls on the two RNGs", "why_tests_cant": "all histories of draws, including an odd number of 32 bit draws", "anchors": ["imgaug/random.py:RNG.copy, copy_generator, normalize_generator_, RNG.use_state_of_, is_generator_equal_to"]}
{"id": "C51", "title": "A temporary numpy seed leaves no trace", "statement": "A block of code under temporary_numpy_seed(e) starts from the state seeded with e, and after it - also when it raises - numpy's global random state is what it was before; without a seed the block is not affected.", "quantifier": "all seeds, all global states, all blocks of code, with or without exception", "why_tests_cant": "all blocks and states, exceptional exits", "anchors": ["imgaug/random.py:temporary_numpy_seed"]}
{"id": "C52", "title": "Deriving RNGs", "statement": "derive_rngs_(n) creates n new RNGs with their own states determined by the parent's state, changes no other RNG than the parent and advances the parent by an amount that does not depend on n; on old numpy the n seeds are valid and different.", "quantifier": "all states of the parent, all n", "why_tests_cant": "all counts and states", "anchors": ["imgaug/random.py:RNG.derive_rngs_, derive_generators_"]}
{"id": "C53", "title": "Random floats lie in the half-open unit interval", "statement": "Numbers sampled with RNG.random are at least 0 and below 1 on every supported numpy version.", "quantifier": "all outputs of numpy's generators", "why_tests_cant": "rounding of one in many million values", "anchors": ["imgaug/random.py:polyfill_random"]}
{"id": "C54", "title": "Operations on maps keep their form", "statement": "Padding, pooling or resizing a heatmap or segmentation map returns a map whose array has the dtype and the number of dimensions of the original's array.", "quantifier": "all maps, all such operations", "why_tests_cant": "all dtypes and shapes", "anchors": ["imgaug/augmentables/heatmaps.py:HeatmapsOnImage.pad, pad_to_aspect_ratio, avg_pool, max_pool, resize", "imgaug/augmentables/segmaps.py:SegmentationMapsOnImage.copy, deepcopy, pad, resize"]}
{"id": "C55", "title": "Inverting", "statement": "Inverting replaces every component v by max+min-v, where max and min are the limits of the dtype or the given ones; components above (below) a given threshold are chosen by their value, the others stay unchanged, inverting twice restores the image and previous calls do not influence the result.", "quantifier": "all images of supported dtypes, all limits and thresholds, all histories of calls", "why_tests_cant": "lookup tables cached between calls, limits of every dtype", "anchors": ["imgaug/augmenters/arithmetic.py:invert_, _invert_uint8_, _invert_uint8_subtract_, _generate_table_for_invert_uint8, _invert_by_distance, _invert_float, _invert_bool, solarize_"]}
{"id": "C56", "title": "Adding saturates", "statement": "Adding amounts to an image gives for each component the exact sum, limited to the range of the image's dtype and rounded to at most half a unit; it never wraps around.", "quantifier": "all images and amounts, per image, channel or component", "why_tests_cant": "all combinations of dtypes, values and shapes", "anchors": ["imgaug/augmenters/arithmetic.py:add_scalar, _add_scalar_to_uint8_, _add_scalar_to_non_uint8, add_elementwise, _add_elementwise_cv2_to_uint8, _add_elementwise_np_to_uint8"]}
{"id": "C57", "title": "Multiplying saturates", "statement": "Multiplying an image gives for each component the exact product, limited to the range of the image's dtype and rounded by at most one unit, whatever the size of the image; boolean masks keep or zero components and a pixelwise mask treats all channels alike.", "quantifier": "all uint8 images, factors and masks, per image, channel, pixel or component", "why_tests_cant": "several code paths chosen by size and shape", "anchors": ["imgaug/augmenters/arithmetic.py:multiply_scalar_, _multiply_scalar_to_uint8_lut_, _multiply_scalar_to_uint8_cv2_mul_, multiply_elementwise_, _multiply_elementwise_to_uint8_"]}
{"id": "C58", "title": "Cutout fills exactly the sampled areas", "statement": "Cutting out a rectangle changes no pixel outside of it and replaces every pixel inside by the fill value(s) or noise in the value range; areas have the sampled center and size and later ones overwrite earlier ones; in a batch every image gets its own areas.", "quantifier": "all images, rectangles (also outside of the image), fill modes and values, all batches", "why_tests_cant": "fractional and negative coordinates, numbers of fill values, batches", "anchors": ["imgaug/augmenters/arithmetic.py:cutout_, _fill_rectangle_gaussian_, _fill_rectangle_constant_, Cutout._augment_batch_, Cutout._augment_image_by_samples"]}
{"id": "C59", "title": "Replacing components", "statement": "Replacing elementwise gives each component selected by the mask its own sample, rounded and limited to the dtype's range, or without per_channel the same one to all channels of a pixel, and leaves all other components unchanged.", "quantifier": "all images, masks and samples", "why_tests_cant": "order of samples for every mask", "anchors": ["imgaug/augmenters/arithmetic.py:replace_elementwise_, ReplaceElementwise._augment_batch_"]}
{"id": "C60", "title": "Dropping channels and images", "statement": "Dropout2d zeroes only channels with a low sample, keeps at least nb_keep_channels of them, leaves the others unchanged and removes an image's annotations if and only if all its channels were dropped; TotalDropout removes image and annotations of a row together.", "quantifier": "all batches, samples, numbers of channels and nb_keep_channels", "why_tests_cant": "all batches and samples", "anchors": ["imgaug/augmenters/arithmetic.py:Dropout2d._augment_batch_, Dropout2d._draw_samples, TotalDropout._augment_batch_"]}
{"id": "C61", "title": "Blending two images gives the weighted mean", "statement": "blend_alpha(fg, bg, alpha) with weights in [0, 1] returns an image of the same shape in which every component is the weighted mean of the two inputs (within 1 for uint8, the nearest integer for uniform weights and other integer dtypes, the input favoured by the weight for booleans); weight 1 gives exactly the foreground and weight 0 exactly the background; the result never leaves the range of the dtype; wrong sizes are refused.", "quantifier": "all images, dtypes, channel counts and alphas: single numbers, per-channel, per-pixel and per-component arrays", "why_tests_cant": "A property of all component values and all weights; rounding makes tests with tolerance blind to systematic errors.", "anchors": ["imgaug/augmenters/blend.py:blend_alpha", "imgaug/augmenters/blend.py:blend_alpha_", "imgaug/augmenters/blend.py:_blend_alpha_uint8_single_alpha_", "imgaug/augmenters/blend.py:_blend_alpha_uint8_elementwise_", "imgaug/augmenters/blend.py:_blend_alpha_non_uint8"]}
{"id": "C62", "title": "Annotations of blended images come from one of the branches", "statement": "BlendAlpha takes all annotations of an image from one branch, according to the (mean) alpha; BlendAlphaMask takes each keypoint, or all of them in either-or mode, and each cell of a map from the branch the mask favours there; branches that add or remove annotations are refused.", "quantifier": "all masks, alphas and annotations of both branches", "why_tests_cant": "Requires all masks and positions, in particular points outside of the image and mask values at the threshold.", "anchors": ["imgaug/augmenters/blend.py:BlendAlpha", "imgaug/augmenters/blend.py:BlendAlphaMask"]}
{"id": "C63", "title": "Mask generators produce the masks they describe", "statement": "Gradient masks run monotonically from the first to the second value between start and end; grid and checkerboard masks have the image's size and constant cells; class-id and bounding-box masks are 1 exactly at the wanted cells and pixels; inverting a mask twice restores it.", "quantifier": "all image sizes, cell counts, values, boxes, labels, class ids", "why_tests_cant": "A statement about every pixel for every size and cell count, including sizes not divisible by the number of cells.", "anchors": ["imgaug/augmenters/blend.py:_LinearGradientMaskGen", "imgaug/augmenters/blend.py:RegularGridMaskGen", "imgaug/augmenters/blend.py:CheckerboardMaskGen", "imgaug/augmenters/blend.py:SegMapClassIdsMaskGen", "imgaug/augmenters/blend.py:BoundingBoxesMaskGen", "imgaug/augmenters/blend.py:InvertMaskGen"]}
{"id": "C64", "title": "Rotation by quarter turns moves everything consistently", "statement": "Rot90(k) turns images, heatmaps and segmentation maps clockwise by k quarter turns (k counted modulo 4; turns compose, four are the identity); a keypoint inside of a pixel ends up in the pixel that received the content; bounding boxes contain exactly the moved points of the original box; with keep_size the sizes stay and coordinates are projected accordingly; points of the image plane stay on the new image plane.", "quantifier": "all images, maps, keypoints, boxes, all integers k, both settings of keep_size", "why_tests_cant": "Agreement of pixel and coordinate transformation is a statement about every position in every image size; tests check a few corners of a few images.", "anchors": ["imgaug/augmenters/geometric.py:Rot90"]}
{"id": "C65", "title": "Jigsaw augmentation rearranges cells and moves keypoints with them", "statement": "The destinations generated for Jigsaw are a rearrangement of the cells; with max_steps=0 nothing moves and with max_steps=1 cells only swap with neighbours; moving the cells neither loses nor duplicates a pixel; keypoints inside of the image move with the pixel they lie on, others stay; with allow_pad every image size is accepted and padded to the smallest fitting size, without it unfitting sizes are refused; maps keep their array sizes.", "quantifier": "all image sizes, numbers of rows and columns, drawn steps and directions, all rearrangements, all keypoints", "why_tests_cant": "The loop swaps cells depending on previous swaps, so permutation and distance are invariants over all random draws and grid sizes.", "anchors": ["imgaug/augmenters/geometric.py:apply_jigsaw", "imgaug/augmenters/geometric.py:apply_jigsaw_to_coords", "imgaug/augmenters/geometric.py:generate_jigsaw_destinations", "imgaug/augmenters/geometric.py:Jigsaw"]}
{"id": "C66", "title": "Stochastic parameters produce samples of the requested shape and kind", "statement": "Drawing from a parameter returns an array of the requested size whose values are the ones the parameter describes: values within the bounds for uniform distributions (whatever their order), list elements for choices and deterministic lists, clipped, absolute, sign-forced, rounded or aggregated values of the inner parameter, and sums, products, differences and quotients of two parameters with one common or one individual sample per component.", "quantifier": "all nested parameters, sizes and behaviours of the random generator", "why_tests_cant": "Parameters nest arbitrarily and the samples are random; the dtypes of inner parameters decide about casts in the outer ones.", "anchors": ["imgaug/parameters.py:StochasticParameter.draw_samples", "imgaug/parameters.py:Uniform", "imgaug/parameters.py:Clip", "imgaug/parameters.py:Discretize", "imgaug/parameters.py:ForceSign", "imgaug/parameters.py:RandomSign", "imgaug/parameters.py:Multiply", "imgaug/parameters.py:Divide", "imgaug/parameters.py:IterativeNoiseAggregator"]}
{"id": "C67", "title": "Augmenter arguments are checked and mean what is documented", "statement": "Arguments of augmenters given as numbers, tuples, lists or parameters are accepted if and only if they have a documented form and lie within the value range; a number is then always used, a tuple gives values between its two entries, a list its entries; no sample leaves the value range; probabilities give 0 or 1, always 0 for 0 and always 1 for 1; two numbers as a kernel size are a range.", "quantifier": "all arguments, value ranges, settings of the parser and behaviours of the generator", "why_tests_cant": "Every combination of argument form, type and range bound.", "anchors": ["imgaug/parameters.py:handle_continuous_param", "imgaug/parameters.py:handle_discrete_param", "imgaug/parameters.py:handle_probability_param", "imgaug/parameters.py:handle_discrete_kernel_size_param", "imgaug/parameters.py:_check_value_range"]}
{"id": "C68", "title": "Drawing samples does not change a parameter", "statement": "After drawing, all deterministic lists have the values they had before, so that any later draw behaves as if the earlier had not happened (apart from the state of the generator).", "quantifier": "all nested parameters sharing deterministic lists, all sizes", "why_tests_cant": "Aliasing of arrays between nested parameters; visible only for particular combinations of parameters.", "anchors": ["imgaug/parameters.py:DeterministicList._draw_samples", "imgaug/parameters.py:Clip._draw_samples", "imgaug/parameters.py:ForceSign._draw_samples", "imgaug/parameters.py:Divide._draw_samples"]}
{"id": "C69", "title": "Frequency noise depends only on the size, not on earlier draws", "statement": "The frequencies that FrequencyNoise uses for an array of some size are the same, whatever sizes were drawn before.", "quantifier": "all sequences of sizes", "why_tests_cant": "The distance matrix is cached and the cache is shared by all draws; the history of sizes is unbounded.", "anchors": ["imgaug/parameters.py:FrequencyNoise._get_distance_matrix_cached", "imgaug/parameters.py:FrequencyNoise._draw_samples_hw"]}
{"id": "C70", "title": "Affine transformations move pixels and coordinates together", "statement": "After Affine augmentation without fit_output, the pixel whose centre was marked by a keypoint is found at the position of the augmented keypoint; the matrices used for images and for coordinates are the same map once pixel indices are read as pixel centres.", "quantifier": "all samples of scale, translation, rotation and shear, all image sizes, all pixels and points", "why_tests_cant": "Pixels and points are moved by different matrices with different centre offsets; agreement has to hold for every angle, size and combination of parameters.", "anchors": ["imgaug/augmenters/geometric.py:Affine", "imgaug/augmenters/geometric.py:_AffineMatrixGenerator", "imgaug/augmenters/geometric.py:_AffineSamplingResult"]}
{"id": "C71", "title": "Affine parameters have their geometric meaning", "statement": "Points are scaled, then rotated about the image centre by the angle given, then sheared, then shifted by the translation in pixels or in fractions of the image size; a pure translation by whole pixels shifts all points by it, the image centre is moved only by the translation, and rotations preserve distances.", "quantifier": "all samples, image sizes and points; all trigonometric functions satisfying the usual identities", "why_tests_cant": "Order of composition and centre of rotation are only visible for combinations of parameters and non-square images.", "anchors": ["imgaug/augmenters/geometric.py:_AffineMatrixGenerator", "imgaug/augmenters/geometric.py:_AffineSamplingResult.to_matrix"]}
{"id": "C72", "title": "fit_output gives a canvas that contains the whole transformed image, and the same one for all augmentables", "statement": "With fit_output=True every pixel of the image comes to lie on the new canvas, the canvas touches the transformed image and is less than one pixel larger than needed; images, heatmaps, segmentation maps, keypoints, boxes, polygons and line strings get the same new image shape.", "quantifier": "all samples, image sizes and augmentables", "why_tests_cant": "The canvas is computed from four corners, containment of all other pixels is a convexity argument over all matrices.", "anchors": ["imgaug/augmenters/geometric.py:_compute_affine_warp_output_shape", "imgaug/augmenters/geometric.py:Affine._augment_maps_by_samples", "imgaug/augmenters/geometric.py:Affine._augment_batch_"]}
{"id": "C73", "title": "Heatmaps and segmentation maps follow an affine transformation at their own resolution", "statement": "A value in a cell of a heatmap or segmentation map ends in the cell to which a keypoint at the cell's centre, in image coordinates, is moved, for maps that have the aspect ratio of their image.", "quantifier": "all samples, map and image sizes and cells", "why_tests_cant": "The transformation has to be rescaled to the map's resolution consistently for all sizes.", "anchors": ["imgaug/augmenters/geometric.py:Affine._augment_maps_by_samples", "imgaug/augmenters/geometric.py:_AffineSamplingResult.get_affine_parameters"]}
{"id": "C74", "title": "Affine arguments apply to one or both axes as documented", "statement": "A single value or parameter for scale, translation or shear is shared by both axes (a single shear number acts on x only), a dictionary draws the axes independently and leaves missing axes neutral; translation in pixels and in percent together, and empty dictionaries, are refused; without arguments the documented default ranges are used.", "quantifier": "all arguments, batch sizes and behaviours of the generator", "why_tests_cant": "Many combinations of argument forms, each with its own random streams.", "anchors": ["imgaug/augmenters/geometric.py:Affine.__init__", "imgaug/augmenters/geometric.py:Affine._handle_scale_arg", "imgaug/augmenters/geometric.py:Affine._handle_translate_arg", "imgaug/augmenters/geometric.py:Affine._handle_shear_arg", "imgaug/augmenters/geometric.py:Affine._draw_samples"]}
{"id": "C75", "title": "Contrast functions keep the order of brightness", "statement": "Gamma, sigmoid and log contrast with nonnegative gain, and linear contrast with nonnegative alpha, never make a darker component brighter than a brighter one (negative alpha reverses the order); black and white stay under gamma contrast, black under log contrast; gamma=1 and alpha=1 return the image unchanged; linear contrast is 127 + alpha*(v-127), limited to [0,255] and cut down; empty images are returned.", "quantifier": "all uint8 images of all sizes and channel numbers, all parameters, all rising power/exp/log functions", "why_tests_cant": "Float32 roundings act on 256 table entries for every value of a continuous parameter.", "anchors": ["imgaug/augmenters/contrast.py:adjust_contrast_gamma", "imgaug/augmenters/contrast.py:adjust_contrast_sigmoid", "imgaug/augmenters/contrast.py:adjust_contrast_log", "imgaug/augmenters/contrast.py:adjust_contrast_linear"]}
{"id": "C76", "title": "Histogram equalization maps values to their ranks", "statement": "equalize keeps the order of brightness; the new value of a component is the number of (masked) pixels darker than it, in units of 1/255 of those darker than the reference white, rounded; channels with one value, or too few pixels, stay; in small images of three channels the darkest pixels become 0 and the brightest 255; the function that is not in-place leaves its input alone; a mask restricts the counting.", "quantifier": "all uint8 images, channel numbers and masks", "why_tests_cant": "The table is computed from the histogram of an arbitrary image; two implementations are selected by the image size.", "anchors": ["imgaug/augmenters/pillike.py:equalize", "imgaug/augmenters/pillike.py:equalize_", "imgaug/augmenters/pillike.py:_equalize_no_pil_", "imgaug/augmenters/pillike.py:_equalize_pil_"]}
{"id": "C77", "title": "Autocontrast stretches what is left after cutting off both ends", "statement": "autocontrast keeps the order of brightness; after removing cutoff percent of the pixels (not counting ignored values) at either end, the darkest and brightest remaining value are stretched linearly to 0 and 255 and everything beyond is limited; channels with one value remaining stay unchanged.", "quantifier": "all uint8 images, channel numbers, nonnegative cutoffs and lists of ignored values, on the path without PIL", "why_tests_cant": "Cutting the histogram is an off-by-one-prone computation over arbitrary histograms; bins may be cut partially, completely or from both ends.", "anchors": ["imgaug/augmenters/pillike.py:autocontrast", "imgaug/augmenters/pillike.py:_autocontrast_no_pil"]}
{"id": "C78", "title": "Uniform quantization and posterization", "statement": "Quantizing to n bins keeps the order of brightness, leaves at most n values, and gives every component the lower end (or the center) of its bin, rounded; with k bits the low 8-k bits are cleared; 256 bins change nothing; other numbers of bins or bits are refused.", "quantifier": "all uint8 images, numbers of bins and bits, both settings of to_bin_centers", "why_tests_cant": "The bins are computed in float32 for 253 sizes and 256 values each; boundaries fall on either side.", "anchors": ["imgaug/augmenters/color.py:quantize_uniform_", "imgaug/augmenters/color.py:quantize_uniform_to_n_bits_", "imgaug/augmenters/color.py:_QuantizeUniformLUTTable", "imgaug/augmenters/color.py:posterize"]}
{"id": "C79", "title": "Hue is added as an angle, saturation with limits", "statement": "AddToHueAndSaturation adds the hue, projected from [-255,255] to [-180,180], modulo 180 and the saturation limited to [0,255] and leaves the value channel alone; adding and subtracting the same hue restores it, a full turn does nothing; value excludes value_hue and value_saturation; without per_channel both get the same sample.", "quantifier": "all HSV images, samples and parameters", "why_tests_cant": "Wrap-around of a table over all pairs of hue and offset; samples of arbitrary parameters.", "anchors": ["imgaug/augmenters/color.py:AddToHueAndSaturation"]}
{"id": "C80", "title": "Clipped line strings are pieces inside the image", "statement": "For an image with pixels, clipping a line string to the image never fails and gives parts that are not empty, lie completely in the image and on the line string, have its label and follow each other in the order of the line string. A line string inside the image comes back unchanged, an empty one gives no parts. For images without pixels the result may contain points although nothing is inside.", "quantifier": "all line strings of any length, all image shapes, all geometric intersection functions that are correct for the edges of the image", "why_tests_cant": "the parts depend on every configuration of vertices, border crossings and nearly coinciding points; tests use a few line strings", "anchors": ["imgaug/augmentables/lines.py:LineString.clip_out_of_image", "imgaug/augmentables/lines.py:LineString.find_intersections_with", "imgaug/augmentables/lines.py:LineStringsOnImage.clip_out_of_image_"]}
{"id": "C81", "title": "Clipping a line string loses nothing that is visible", "statement": "All vertices inside the image are kept in order, edges with both ends inside are kept completely, and every point of the line string that is inside the image (apart from strips of 1/1000 at the right and lower border) is within n/100 of a part, where n is the number of crossings reported per edge. A line inside one of the strips is lost.", "quantifier": "all line strings, shapes and correct intersection functions", "why_tests_cant": "a piece can get lost for particular arrangements of crossings only", "anchors": ["imgaug/augmentables/lines.py:LineString.clip_out_of_image", "imgaug/augmentables/lines.py:LineString.find_intersections_with", "imgaug/augmentables/lines.py:LineStringsOnImage.clip_out_of_image_"]}
{"id": "C82", "title": "Out-of-image tests of line strings", "statement": "A line string is fully inside iff all of it is in the image; partly inside iff a vertex is in the image or it runs through the image without the strips at the right and lower border; is_out_of_image returns False, partly or fully in the three cases, and the default for empty line strings. Removal keeps exactly the line strings that its arguments say, in order.", "quantifier": "all line strings and lists of them, all shapes, all arguments", "why_tests_cant": "the cases in which all vertices are outside but the line crosses the image are a continuum", "anchors": ["imgaug/augmentables/lines.py:LineString.is_out_of_image", "imgaug/augmentables/lines.py:LineString.is_partly_within_image", "imgaug/augmentables/lines.py:LineString.is_fully_within_image", "imgaug/augmentables/lines.py:LineStringsOnImage.remove_out_of_image_"]}
{"id": "C83", "title": "Line strings as coordinate arrays and keypoints", "statement": "Reading all coordinates and writing them back changes nothing; writing other coordinates keeps labels, shape and numbers of points and reads back as written; a wrong number of rows or keypoints raises an AssertionError. (Filling from an array is not atomic: the instance is half written when the error is raised.) Shifting by (x, y) and back gives the same points.", "quantifier": "all lists of line strings including empty ones, all arrays", "why_tests_cant": "the split of the rows among the line strings depends on all lengths", "anchors": ["imgaug/augmentables/lines.py:LineStringsOnImage.to_xy_array", "imgaug/augmentables/lines.py:LineStringsOnImage.fill_from_xy_array_", "imgaug/augmentables/lines.py:LineStringsOnImage.invert_to_keypoints_on_image_", "imgaug/augmentables/lines.py:LineString.shift_"]}
{"id": "C84", "title": "Polygons keep their cyclic order", "statement": "The closest point is the first of those with minimal distance; choosing another first point rotates the polygon and raises for invalid indices (a point is lost if neighbours coincide); by coordinates the closest point becomes first unless it is too far away. Clipping returns the intersection polygons, each rotated to start at a point as close as possible to a point of the original polygon - the original first point if it is still there. Polygons of one or two points never trip the assertion of clipping. is_out_of_image tells inside, partly and fully outside apart.", "quantifier": "all polygons, indices, coordinates, limits and image shapes; all results of the external polygon intersection", "why_tests_cant": "ties, wrap-around and degenerate polygons", "anchors": ["imgaug/augmentables/polys.py:Polygon.find_closest_point_index", "imgaug/augmentables/polys.py:Polygon.change_first_point_by_index", "imgaug/augmentables/polys.py:Polygon.change_first_point_by_coords", "imgaug/augmentables/polys.py:Polygon.clip_out_of_image", "imgaug/augmentables/polys.py:Polygon.is_out_of_image"]}
{"id": "C85", "title": "Fraction of a line string outside of the image", "statement": "The fraction is between 0 and 1, 0 for line strings inside, 1 if nothing is visible; fraction times length plus the length of the clipped parts is the length. Clipped parts together are never longer than the line string. Removal by fraction keeps exactly the line strings with a smaller fraction, in order.", "quantifier": "all line strings and lists of them, shapes, fractions", "why_tests_cant": "the sum of the lengths of the parts must not exceed the length for any arrangement of vertices", "anchors": ["imgaug/augmentables/lines.py:LineString.compute_out_of_image_fraction", "imgaug/augmentables/lines.py:LineString.length", "imgaug/augmentables/lines.py:LineStringsOnImage.remove_out_of_image_fraction_"]}
{"id": "C86", "title": "PerspectiveTransform cuts out a region of at least two by two pixels with the expected corners", "statement": "For every jitter and shape the search for a region ends after at most three rounds per axis, all sides of the region are at least two pixels long, and the output is as wide and high as the longer of two opposite sides, rounded down. If the jitter t satisfies t*(h+w) < (1-t)*min(h,w), the region is convex and its corners are the four corners of the image, each moved inwards by its own jitter, unless a side would be shorter than two pixels. (For elongated images a corner is lost even for moderate jitter.)", "quantifier": "all jitter values and image shapes", "why_tests_cant": "a loop on real distances whose end and result depend on eight random numbers and the shape", "anchors": ["imgaug/augmenters/geometric.py:PerspectiveTransform", "imgaug/augmenters/geometric.py:PerspectiveTransform._draw_samples", "imgaug/augmenters/geometric.py:PerspectiveTransform._order_points"]}
{"id": "C87", "title": "PerspectiveTransform spreads the region over the output", "statement": "For small jitter the corners of the region go to the corners of the output and every point of the region to a point of the output, with a matrix that can be inverted; the transformation is determined by the corners alone.", "quantifier": "all small jitter values, shapes, points of the region, all correct solvers for the matrix", "why_tests_cant": "every real point of the region; a division by zero or a change of sign inside of the region would show for few points only", "anchors": ["imgaug/augmenters/geometric.py:PerspectiveTransform", "imgaug/augmenters/geometric.py:PerspectiveTransform._draw_samples", "imgaug/augmenters/geometric.py:PerspectiveTransform._order_points"]}
{"id": "C88", "title": "PerspectiveTransform moves coordinates and pixels alike", "statement": "The augmented keypoints refer to a plane with exactly the shape of the augmented image (the input shape with keep_size, unchanged for images without pixels) and are, relative to it, where the matrix puts them. A pixel whose index is taken to another index is found there and a keypoint at the position of the index goes along. (A keypoint in the centre of the pixel does not: pixel centres are half a pixel away from indices and the matrix ignores it.)", "quantifier": "all samples, keypoints, image shapes, both values of keep_size", "why_tests_cant": "agreement of two code paths for all points", "anchors": ["imgaug/augmenters/geometric.py:PerspectiveTransform", "imgaug/augmenters/geometric.py:PerspectiveTransform._draw_samples", "imgaug/augmenters/geometric.py:PerspectiveTransform._order_points", "imgaug/augmenters/geometric.py:PerspectiveTransform._augment_keypoints_by_samples", "imgaug/augmenters/geometric.py:PerspectiveTransform._augment_images_by_samples"]}
{"id": "C89", "title": "PerspectiveTransform moves maps of any resolution like the image", "statement": "If the jitter is small for the shape of the image and for that of the map's array and no side of the regions is shorter than two pixels, then the matrix computed for the array moves every point to the same relative position as the image's matrix. Shapes stay the same with keep_size; otherwise the map refers to an image of the size of the output. (Maps of low resolution are moved differently.)", "quantifier": "all small jitter values, pairs of shapes and points", "why_tests_cant": "two matrices computed from differently rounded numbers must agree on every point", "anchors": ["imgaug/augmenters/geometric.py:PerspectiveTransform", "imgaug/augmenters/geometric.py:PerspectiveTransform._draw_samples", "imgaug/augmenters/geometric.py:PerspectiveTransform._order_points", "imgaug/augmenters/geometric.py:PerspectiveTransform._augment_maps_by_samples"]}
{"id": "C90", "title": "PerspectiveTransform with fit_output shows the whole image", "statement": "If the corners of the image land on a convex quadrilateral, every point of the image lands on the canvas, the corners touch all four sides of the canvas and are at most half a pixel away from where they would be without rounding, up to a common shift. (For large jitter the horizon crosses the image and the centre of the image leaves the canvas.)", "quantifier": "all matrices, shapes and points, all correct solvers", "why_tests_cant": "every real point of the image", "anchors": ["imgaug/augmenters/geometric.py:PerspectiveTransform._expand_transform"]}
{"id": "C91", "title": "KeepSizeByResize restores the sizes whatever the children do", "statement": "For every children and batch: every image for which a method other than NO_RESIZE is chosen comes out with the height and width it had before the children, resized by the chosen method (unchanged if the children kept the size), in its row and with the children's number of channels; keypoints refer to the original size again and keep their relative positions; the arrays of maps get their old size and their shape the old image size. With NO_RESIZE the row is exactly the output of the children. SAME_AS_IMAGES, given for all or chosen for a row, means the method of that row's image.", "quantifier": "all children, batches, parameters and random choices", "why_tests_cant": "children are arbitrary augmenters; each row takes its own random branch", "anchors": ["imgaug/augmenters/size.py:KeepSizeByResize", "imgaug/augmenters/size.py:KeepSizeByResize._augment_batch_", "imgaug/augmenters/size.py:KeepSizeByResize._keep_size_images", "imgaug/augmenters/size.py:KeepSizeByResize._keep_size_maps", "imgaug/augmenters/size.py:KeepSizeByResize._keep_size_keypoints", "imgaug/augmenters/size.py:KeepSizeByResize._draw_samples"]}
{"id": "C92", "title": "KeepSizeByResize succeeds and keeps a batch consistent", "statement": "With valid methods given by name, nearest neighbour for segmentation maps and no axis of size zero, it returns a batch with the same columns and rows. If before and after the children all augmentables of a row refer to the same image size, and in each row the image and the maps are either all resized or all left, the same holds for the result. (Not so with NO_RESIZE for maps only; integers mixed with names and segmentation maps resized like images raise errors.)", "quantifier": "all children, batches, parameters and random choices", "why_tests_cant": "combinations of three random choices per row with arbitrary children", "anchors": ["imgaug/augmenters/size.py:KeepSizeByResize", "imgaug/augmenters/size.py:KeepSizeByResize._augment_batch_", "imgaug/augmenters/size.py:KeepSizeByResize._draw_samples"]}
{"id": "C93", "title": "KeepSizeByResize returns an array if it was given one", "statement": "A non-empty array of images with no NO_RESIZE chosen comes back as an array if the children keep the numbers of channels equal, even if they returned a list of different sizes; an array is returned only if one was given and all images have one shape. (An array of zero images becomes a list.)", "quantifier": "all children, batches and random choices", "why_tests_cant": "children may return any mix of sizes", "anchors": ["imgaug/augmenters/size.py:KeepSizeByResize", "imgaug/augmenters/size.py:KeepSizeByResize._augment_batch_", "imgaug/augmenters/size.py:KeepSizeByResize._keep_size_images"]}
{"id": "C94", "title": "Pooling augmenters change all augmentables of a row alike", "statement": "Kernel sizes below one count as one; with one parameter kernels are square. Without keep_size every image of MaxPooling and MinPooling becomes the blockwise maximum or minimum with size rounded up, kernels of one pixel change nothing, maps and keypoints refer to exactly the size of the pooled image if they referred to the size of the image before, and keypoints keep their relative position. With keep_size all sizes, all maps and all keypoints stay as they are.", "quantifier": "all batches, kernel sizes, image sizes", "why_tests_cant": "the size of the pooled image and the size computed for coordinates come from different code and must agree for every size and kernel", "anchors": ["imgaug/augmenters/pooling.py:_AbstractPoolingBase", "imgaug/augmenters/pooling.py:_compute_shape_after_pooling", "imgaug/augmenters/pooling.py:MaxPooling", "imgaug/augmenters/pooling.py:MinPooling", "imgaug/imgaug.py:max_pool_"]}
{"id": "C95", "title": "Pooled keypoints stay close to their pixel", "statement": "Without keep_size a keypoint is at most half a pixel of the pooled image away from the position of its pixel in the padded and pooled image, and exactly there if the kernel size divides the image size. (It may lie in the neighbouring pixel: padding is distributed to both sides, but coordinates are scaled.)", "quantifier": "all kernel sizes, image sizes and keypoints", "why_tests_cant": "a bound over all real positions and sizes", "anchors": ["imgaug/augmenters/pooling.py:_AbstractPoolingBase", "imgaug/augmenters/pooling.py:_compute_shape_after_pooling"]}
{"id": "C96", "title": "Replacing segments averages exactly the chosen segments", "statement": "replace_segments_ returns an image in which every pixel of a segment whose flag is set has the average (rounded down to an integer) of all pixels of that segment, and every other pixel is unchanged; the new value lies between the smallest and the largest value of the segment. For 8 bit images with numba the flag is that of the segment id, otherwise that of the rank of the id among the ids that occur; the two agree if no id is missing. (For bool images the result is True as soon as one pixel is True.)", "quantifier": "all images, segment maps and flags", "why_tests_cant": "two implementations (one in two passes with running sums) must agree for all partitions of an image", "anchors": ["imgaug/augmenters/segmentation.py:replace_segments_", "imgaug/augmenters/segmentation.py:_replace_segments_np_", "imgaug/augmenters/segmentation.py:_replace_segments_numba_dispatcher_"]}
{"id": "C97", "title": "Replacing segments twice changes nothing more", "statement": "Applying replace_segments_ again with the same segments and flags to its result returns the same image.", "quantifier": "all images (also bool), segment maps and flags, with and without numba", "why_tests_cant": "needs exactness of averages of constant segments of any size", "anchors": ["imgaug/augmenters/segmentation.py:replace_segments_", "imgaug/augmenters/segmentation.py:_replace_segments_np_", "imgaug/augmenters/segmentation.py:_replace_segments_numba_dispatcher_"]}
{"id": "C98", "title": "Voronoi segmentation assigns each pixel to its nearest cell", "statement": "segment_voronoi returns the image in which every pixel whose centre is nearest to a cell chosen by the mask has the average color of the pixels assigned to that cell; the others are unchanged, and without cells the image is. (Without numba the mask is shifted if a cell has no pixel.)", "quantifier": "all images, cell coordinates, masks, and nearest neighbour searches", "why_tests_cant": "flattening of pixel coordinates and reshaping must match for every image size", "anchors": ["imgaug/augmenters/segmentation.py:segment_voronoi", "imgaug/augmenters/segmentation.py:_match_pixels_with_voronoi_cells", "imgaug/augmenters/segmentation.py:_generate_pixel_coords"]}
{"id": "C99", "title": "Regular grids put one point in the middle of each of rows x cols rectangles", "statement": "The regular grid samplers give every image the drawn number of rows and columns (limited to 1 and the image size; relative ones are rounded from the fraction of the image size), with exactly one point in the middle of each rectangle, row by row, and those points are the nearest ones exactly for the positions of their rectangles.", "quantifier": "all image sizes, numbers of rows and columns and positions", "why_tests_cant": "geometric statement about all real positions and all sizes", "anchors": ["imgaug/augmenters/segmentation.py:RegularGridPointsSampler", "imgaug/augmenters/segmentation.py:RelativeRegularGridPointsSampler"]}
{"id": "C100", "title": "Every point sampler gives each image points on its plane", "statement": "However point samplers are nested, sample_points returns one list per image, all points lie on the plane of their image, and no list is empty unless subsampling to less than one point is asked for. Input that is empty or has images that are not (H, W, C) raises an error.", "quantifier": "all trees of samplers, batches and random draws", "why_tests_cant": "induction over arbitrarily nested samplers", "anchors": ["imgaug/augmenters/segmentation.py:IPointsSampler", "imgaug/augmenters/segmentation.py:RegularGridPointsSampler", "imgaug/augmenters/segmentation.py:RelativeRegularGridPointsSampler", "imgaug/augmenters/segmentation.py:DropoutPointsSampler", "imgaug/augmenters/segmentation.py:UniformPointsSampler", "imgaug/augmenters/segmentation.py:SubsamplingPointsSampler"]}
{"id": "C101", "title": "Uniform sampling gives every image its own points", "statement": "Image k gets max(1, drawn number) points; each point is made of two uniform samples used by no other point, scaled to width and height and rounded.", "quantifier": "all batches, numbers of points and draws", "why_tests_cant": "samples for all images are drawn at once and divided by running offsets", "anchors": ["imgaug/augmenters/segmentation.py:UniformPointsSampler"]}
{"id": "C102", "title": "Dropping points keeps exactly the kept ones and never all are lost", "statement": "DropoutPointsSampler returns per image exactly the points with a drawn keep flag, in their order; if none is kept, exactly the middle point. p_drop=0 keeps all points, p_drop=1 leaves one. A tuple (a, b) must satisfy 0 <= a < b <= 1 and is turned to the probabilities [1-b, 1-a] of keeping a point; anything else is rejected.", "quantifier": "all samplers, probabilities and draws", "why_tests_cant": "random draws per image and numbers of points of any size", "anchors": ["imgaug/augmenters/segmentation.py:DropoutPointsSampler"]}
{"id": "C103", "title": "Subsampling limits the number of points without repeating any", "statement": "SubsamplingPointsSampler returns min(n, number of points) points of the other sampler at different positions of its list, and exactly its list if there are not more than n. (A negative maximum is accepted and removes one point.)", "quantifier": "all samplers, maxima and permutations", "why_tests_cant": "holds for every permutation drawn", "anchors": ["imgaug/augmenters/segmentation.py:SubsamplingPointsSampler"]}
{"id": "C104", "title": "Voronoi keeps image shapes and averages nearest cells", "statement": "Voronoi returns an image of the same shape and channels whenever the image remains non-empty when reduced to max_size; images not larger than max_size get exactly the chosen cells averaged; if no cell is chosen the image is unchanged. (Images whose sides differ by a factor above max_size raise an error.)", "quantifier": "all images, samplers of points, draws and sizes", "why_tests_cant": "resizing there and back must agree for all sizes", "anchors": ["imgaug/augmenters/segmentation.py:Voronoi", "imgaug/augmenters/segmentation.py:_ensure_image_max_size"]}
{"id": "C105", "title": "Superpixels keeps image shapes and averages chosen segments", "statement": "Superpixels returns an image of the same shape and channels under the same condition; in images not larger than max_size exactly the segments with a drawn sample above 0.5 are averaged. (Thin images raise an error.)", "quantifier": "all images, segmentations, draws and sizes", "why_tests_cant": "segment ids of any number are matched with samples by a modulus", "anchors": ["imgaug/augmenters/segmentation.py:Superpixels", "imgaug/augmenters/segmentation.py:_ensure_image_max_size"]}
{"id": "C106", "title": "Polygons and line strings come back in the form they were given", "statement": "Polygons and line strings may be given as arrays, (lists of) lists of points, objects, containers and lists of these. Their points, labels and image assignment are kept in the normalized data, and changing the points of every object there and restoring the form gives the input with the points of every object changed, with the type and dtype of the input. A wrong number of image shapes raises ValueError. (Exceptions found: line strings as Keypoints and polygons as tuples of points are rejected, closed polygons lose their last point, arrays without polygons cannot be restored.)", "quantifier": "all forms, dtypes, nestings, numbers of images, objects and points", "why_tests_cant": "the type of a nested input is estimated from its first non-empty element, and 18 forms times any nesting of empty lists must agree in two functions", "anchors": ["imgaug/augmentables/normalization.py:normalize_polygons", "imgaug/augmentables/normalization.py:normalize_line_strings", "imgaug/augmentables/normalization.py:_normalize_polygons_and_line_strings", "imgaug/augmentables/normalization.py:invert_normalize_polygons", "imgaug/augmentables/normalization.py:invert_normalize_line_strings", "imgaug/augmentables/normalization.py:_invert_normalize_polygons_and_line_strings", "imgaug/augmentables/normalization.py:find_first_nonempty", "imgaug/augmentables/normalization.py:estimate_normalization_type", "imgaug/augmentables/normalization.py:restore_dtype_and_merge"]}
{"id": "C107", "title": "Heatmaps and segmentation maps come back in the form they were given", "statement": "Heatmaps and segmentation maps may be given as an (N,H,W,C) array, a list of (H,W,C) arrays, an object or a list of objects. Changing the content of every map in the normalized data and restoring the form gives the input with the content of every map changed, with the dtype of the input; an array becomes a list only if the maps end up with different shapes. A wrong number of images raises ValueError, an unsupported dtype AssertionError. (Exception found: segmentation maps as (N,H,W) array or list of (H,W) arrays, the documented forms, always raise ValueError.)", "quantifier": "all forms, dtypes, shapes, values, numbers of images and content-changing augmentations", "why_tests_cant": "tests check a few forms of fixed size; the claim is about all contents and sizes, also those changed by augmentation", "anchors": ["imgaug/augmentables/normalization.py:normalize_heatmaps", "imgaug/augmentables/normalization.py:normalize_segmentation_maps", "imgaug/augmentables/normalization.py:invert_normalize_heatmaps", "imgaug/augmentables/normalization.py:invert_normalize_segmentation_maps", "imgaug/augmentables/normalization.py:restore_dtype_and_merge"]}
{"id": "C108", "title": "A batch with any mix of data is augmented completely, and its inputs are kept", "statement": "For an UnnormalizedBatch with any combination of images, heatmaps, segmentation maps, keypoints, bounding boxes, polygons and line strings in any of their supported forms, augment_batch_() sets every *_aug attribute to the augmented data in the form of the input. The *_unaug attributes and the batch's data never change. Augmenting an augmented batch again raises AssertionError.", "quantifier": "all combinations of forms of seven kinds of data, all augmentations of the normalized columns", "why_tests_cant": "the combinations of forms cannot be enumerated, and a mix-up between columns shows only in some of them", "anchors": ["imgaug/augmenters/meta.py:Augmenter.augment_batch_", "imgaug/augmentables/batches.py:UnnormalizedBatch.to_normalized_batch", "imgaug/augmentables/batches.py:UnnormalizedBatch.fill_from_augmented_normalized_batch_", "imgaug/augmentables/batches.py:Batch.to_batch_in_augmentation", "imgaug/augmentables/batches.py:Batch.fill_from_batch_in_augmentation_"]}
{"id": "C109", "title": "augment() returns one result per argument, in order and in the same form", "statement": "augment(**kwargs) returns the augmented data of each argument, in the order of the arguments and in the form of the argument; a single result is not wrapped in a tuple; image= gives a single image. With return_batch=True the batch is returned. An augmenter that changes nothing gives back the arguments. Before Python 3.6 the images come first, and calls with more than two arguments or two arguments without images raise ValueError. Calls without arguments, with unknown names or with both image= and images= raise AssertionError.", "quantifier": "all lists of arguments without duplicates, all forms, both Python generations", "why_tests_cant": "orders and combinations of eight arguments with all of their forms cannot be enumerated", "anchors": ["imgaug/augmenters/meta.py:Augmenter.augment", "imgaug/augmenters/meta.py:Augmenter.__call__"]}
{"id": "C110", "title": "augment_batches() returns the k-th result for the k-th batch, also in the background", "statement": "augment_batches() yields one result per batch: the k-th result is what augmenting the k-th batch alone gives, in the same form (batch, unnormalized batch, list of images, heatmaps, ...), with the same data and inputs. With background=True this holds for any interleaving of loading batches and receiving results; results in order give the same list as without background; a result with an unknown or already used index raises AssertionError. (Exception found: a list of line strings raises.)", "quantifier": "all lists of batches of any forms, all schedules of loading and receiving", "why_tests_cant": "schedules of background processes are not reproducible and cannot be enumerated", "anchors": ["imgaug/augmenters/meta.py:Augmenter.augment_batches", "imgaug/multicore.py:Pool.imap_batches"]}
{"id": "C111", "title": "AssertShape lets exactly the batches pass whose shapes fit", "statement": "AssertShape with a shape of four entries (None, an integer, a tuple (a, b) for a <= n < b or a list of allowed numbers, for the number of items, height, width and channels) returns the batch unchanged if every checked column fits the shape and otherwise raises AssertionError. (Exception found: columns without items are not checked, so an expected number of items is not enforced for them.)", "quantifier": "all batches, all shapes, all selections of columns to check", "why_tests_cant": "tests try a handful of shapes; boundaries of ranges and mixes of entries cannot be enumerated", "anchors": ["imgaug/augmenters/meta.py:AssertShape", "imgaug/augmenters/meta.py:AssertShape._check_shapes"]}
{"id": "C112", "title": "Lambda applies each function to its column and nothing else", "statement": "Lambda replaces each column for which a function was given by the result of that function, leaves the others alone and raises AssertionError if a result has a wrong form; without functions it changes nothing. AssertLambda returns the batch unchanged if all functions return True and otherwise raises AssertionError. With the mode keypoints, bounding boxes and line strings change as the corner points and points do when they are passed to the keypoint function. (Exceptions found: if the function returns fewer objects, the rest is dropped silently; the corners of the boxes are put in order before and not after applying the function.)", "quantifier": "all functions, all batches", "why_tests_cant": "the functions are supplied by the user and arbitrary", "anchors": ["imgaug/augmenters/meta.py:Lambda", "imgaug/augmenters/meta.py:AssertLambda", "imgaug/augmentables/utils.py:convert_cbaois_to_kpsois", "imgaug/augmentables/utils.py:invert_convert_cbaois_to_kpsois_"]}
{"id": "C113", "title": "Out-of-image removal and clipping treat every coordinate-based object of a batch", "statement": "RemoveCBAsByOutOfImageFraction keeps exactly the keypoints, boxes, line strings and polygons whose fraction outside of the image is below the given fraction, in order, and changes nothing else. ClipCBAsToImagePlanes leaves only objects in the image plane; those with no part in the image are removed and those inside are unchanged. Images, heatmaps and segmentation maps never change.", "quantifier": "all batches with any combination of columns, all fractions, all coordinates", "why_tests_cant": "boundaries in exact coordinates cannot be covered by examples", "anchors": ["imgaug/augmenters/meta.py:RemoveCBAsByOutOfImageFraction", "imgaug/augmenters/meta.py:ClipCBAsToImagePlanes", "imgaug/augmentables/polys.py:Polygon.compute_out_of_image_fraction"]}
{"id": "C114", "title": "copy_random_state() makes two augmenters of the same structure sample alike", "statement": "After target.copy_random_state(source), with both having the same structure and all RNGs of the source being its own, the target gives the same outputs as the source for any sequence of batches, and the source is not affected. By position the k-th augmenter receives the state of the k-th; by name the last augmenter of each name receives the state of the last one with that name; no other augmenter changes. A source with the global RNG, different lengths or missing names (unless tolerant) raise an Exception. (Exceptions found: samples prefetched by a used source are not copied, so outputs differ; augmenters serving as branches are skipped; a failing call has already changed some augmenters.)", "quantifier": "all augmenter trees, RNG states, sequences of batches, flags and names", "why_tests_cant": "equality of all later samples of two trees is a statement about unboundedly many batches", "anchors": ["imgaug/augmenters/meta.py:Augmenter.copy_random_state_", "imgaug/augmenters/meta.py:Augmenter.copy_random_state"]}
{"id": "C115", "title": "Convolve gives weighted sums of the surrounding pixels, stored in the dtype", "statement": "convolve() keeps dtype, size and number of channels. Every pixel of the result is the sum of the pixels around it (mirrored at the borders), weighted with the kernel of its channel, rounded and clipped to the dtype. One array as kernel means the same as that array for every channel, also above 512 channels; None for a channel keeps it. Kernels without negative entries and with total 1 never leave the value range of the channel; images of one colour are multiplied by the total of the kernel. A list of another length and unsupported dtypes raise errors. The augmenter asks its matrix function once per image, in order.", "quantifier": "all images of supported dtypes, all kernels, all numbers of channels", "why_tests_cant": "tests use 3x3 kernels on small images; kernel sizes, borders and values are unbounded", "anchors": ["imgaug/augmenters/convolutional.py:convolve_", "imgaug/augmenters/convolutional.py:Convolve"]}
{"id": "C116", "title": "Sharpen, Emboss and the edge detectors blend the image with their effect by alpha", "statement": "The result of Sharpen, Emboss and EdgeDetect is 1 - alpha parts of the pixel and alpha parts of the effect, clipped to the dtype; alpha 0 changes nothing and an alpha outside of [0, 1] raises. On images of one colour Sharpen gives (1 - alpha) + alpha * lightness times the colour, Emboss the same colour, EdgeDetect 1 - alpha times the colour. The kernel of DirectedEdgeDetect has centre 1, total 1 - alpha, no other positive entry, and lower entries the more a cell faces the direction, where 0 is the top and 0.25 the right; a quarter more turns it clockwise by a quarter. (Found: for integer images the blend is clipped and not the effect, so it can differ from blending with the image for alpha = 1.)", "quantifier": "all images, all alpha, lightness, strength and direction values", "why_tests_cant": "continuous parameters and all pixel values cannot be enumerated", "anchors": ["imgaug/augmenters/convolutional.py:Sharpen", "imgaug/augmenters/convolutional.py:Emboss", "imgaug/augmenters/convolutional.py:EdgeDetect", "imgaug/augmenters/convolutional.py:DirectedEdgeDetect"]}
{"id": "C117", "title": "Blurs use valid kernel sizes and stay in the value range of the image", "statement": "AverageBlur gives the mean of the pixels around, per image with its own sampled height and width, and never leaves the value range of a channel; sizes below one and (1, 1) change nothing. MedianBlur always uses odd sizes of at least 3, within a range with odd bounds. GaussianBlur uses odd sizes of at least 5, growing with sigma, changes nothing for a sigma near zero and the backend 'auto' works for every dtype except float128. The kernels of MotionBlur are odd, have no negative entries and total 1. (Exceptions found: the Gaussian kernel size is not monotone in sigma; AverageBlur raises for a parameter beside a tuple and ignores surplus entries of inner tuples.)", "quantifier": "all sizes, sigmas, images, dtypes and argument forms", "why_tests_cant": "sizes are sampled and unbounded; each needs to be valid", "anchors": ["imgaug/augmenters/blur.py:blur_avg_", "imgaug/augmenters/blur.py:AverageBlur", "imgaug/augmenters/blur.py:MedianBlur", "imgaug/augmenters/blur.py:_compute_gaussian_blur_ksize", "imgaug/augmenters/blur.py:blur_gaussian_", "imgaug/augmenters/blur.py:MotionBlur"]}
{"id": "C118", "title": "Resizing keeps the form of the images and treats each image on its own", "statement": "imresize_single_image() and imresize_many_images() keep dtype, channel axis and number of images, return a list for a list and an array for an array, and give the requested height and width: integers as they are, floats as rounded fractions of the side. The images of a list or array are resized exactly as if each were resized alone. (Found: a list of images of one shape but of different dtypes comes back in one common dtype.)", "quantifier": "all lists and arrays of images, dtypes, channel numbers and sizes", "why_tests_cant": "shapes, sizes and lists are unbounded", "anchors": ["imgaug/imgaug.py:imresize_many_images", "imgaug/imgaug.py:imresize_single_image"]}
{"id": "C119", "title": "Resized pixels come from the image", "statement": "Resizing to the current size returns the same pixels for every dtype. Nearest neighbour interpolation only copies pixels of the same channel, for all supported dtypes including those converted internally (bool, int8, float16), so resized segmentation maps contain no new class ids. Nearest, linear and area interpolation (also the automatic choice) never leave the value range of a channel; resized heatmaps stay in [0, 1] with every interpolation. Every channel is resized as if it were a grayscale image, also above 512 channels. Without an interpolation, area is used if a side grows and linear otherwise.", "quantifier": "all images, sizes, interpolations and channel numbers; all implementations of cv2.resize with the stated contract", "why_tests_cant": "pixel values and sizes are unbounded", "anchors": ["imgaug/imgaug.py:imresize_many_images", "imgaug/augmentables/heatmaps.py:HeatmapsOnImage.resize", "imgaug/augmentables/segmaps.py:SegmentationMapsOnImage.resize"]}
{"id": "C120", "title": "Resizing accepts exactly the documented sizes, interpolations and dtypes", "statement": "A valid size is a positive number or a pair of numbers that are not negative. An image is resized if the size stays the same or the result is empty, and otherwise exactly if it is not empty, the interpolation is valid and the dtype is one of bool, uint8, uint16, int8, int16, float16, float32, float64 (int32 for nearest neighbour only). A single number that is not positive and an unsupported dtype raise ValueError, everything else AssertionError. Without images the argument is returned. A size of zero gives an empty image.", "quantifier": "all sizes, interpolations, dtypes and images", "why_tests_cant": "the combinations of sizes, dtypes and interpolations are unbounded", "anchors": ["imgaug/imgaug.py:imresize_many_images", "imgaug/imgaug.py:imresize_single_image"]}
{"id": "C121", "title": "Drawing keypoints changes exactly their squares", "statement": "Keypoint.draw_on_image() and KeypointsOnImage.draw_on_image() keep shape and dtype. Pixels more than size // 2 rows or columns from the rounded position keep their value; the others get the colour if alpha is above 0.99, the weighted mean (truncated for integers) from 0.01 to 0.99, and nothing below. Drawing several keypoints leaves every pixel between its value and the colour. Colours that do not fit raise AssertionError (2D image) or ValueError. (Found: even sizes draw squares of size + 1; raise_if_out_of_image looks at the visible square and not at the keypoint; transparent drawing rounds all pixels of large integers to float32.)", "quantifier": "all images, keypoints, sizes, colours and alphas", "why_tests_cant": "positions, sizes and images are unbounded", "anchors": ["imgaug/augmentables/kps.py:Keypoint.draw_on_image", "imgaug/augmentables/kps.py:KeypointsOnImage.draw_on_image"]}
{"id": "C122", "title": "Drawing bounding boxes changes exactly their frames", "statement": "BoundingBox.draw_box_on_image() keeps shape and dtype and paints, exactly once, every pixel of the frame of size pixels around the inner pixels of the box; all other pixels keep their value (for values from 0 to 255 or opaque boxes). The sides of a box within the image are drawn within the image. Images without channel axis, colours that do not fit and (on request) boxes out of the image raise. (Found: transparent boxes clip the whole image to 0..255 whatever its dtype.)", "quantifier": "all images, boxes, sizes, colours and alphas", "why_tests_cant": "positions, sizes and images are unbounded", "anchors": ["imgaug/augmentables/bbs.py:BoundingBox.draw_box_on_image", "imgaug/augmentables/bbs.py:BoundingBoxesOnImage.draw_on_image"]}
{"id": "C123", "title": "Overlays of segmentation maps and heatmaps show the right class or value at every pixel", "statement": "SegmentationMapsOnImage.draw_on_image() returns one uint8 RGB image per channel, of the size of the image or of the map; a pixel shows the image where the class of the map at that position is the background, else the blend of the colour of that class with the image. Classes without colour and invalid arguments raise AssertionError. HeatmapsOnImage.draw_on_image() mixes the image with the byte (or colour map value) of the heatmap at that position, if all sides are at least 2. (Found: heatmaps with one column come back in another size, with a colour map one row or column raises.)", "quantifier": "all maps, images, palettes, colour maps and alphas; all implementations of cv2.resize with the stated contract", "why_tests_cant": "maps and images are unbounded", "anchors": ["imgaug/augmentables/segmaps.py:SegmentationMapsOnImage.draw_on_image", "imgaug/augmentables/heatmaps.py:HeatmapsOnImage.draw_on_image", "imgaug/augmentables/heatmaps.py:HeatmapsOnImage.draw"]}
{"id": "C124", "title": "Colour space conversions convert every pixel, directly or via RGB", "statement": "change_colorspace_() returns an image of the same size whose pixels are those of the image in the other space: one conversion by OpenCV if one of the spaces is RGB or BGR, else two via RGB; gray has three equal components. Bytes stay bytes. Images without pixels are returned as they are. Other dtypes raise ValueError; other channel numbers, unknown spaces and GRAY as source raise AssertionError. The passed array is overwritten exactly if it is contiguous, owns its memory and the target is neither the source nor GRAY from RGB/BGR. change_colorspaces_() does that for every image with its own spaces and refuses lists of other lengths.", "quantifier": "all images, lists of images and pairs of colour spaces; all implementations of the OpenCV conversions", "why_tests_cant": "images, lists and pixel values are unbounded; tests check a few conversions", "anchors": ["imgaug/augmenters/color.py:change_colorspace_", "imgaug/augmenters/color.py:change_colorspaces_"]}
{"id": "C125", "title": "ChangeColorspace and Grayscale blend the converted image with the original", "statement": "Every pixel is the rounded mean of the converted and the original colour with the weight alpha; alphas up to 0.001 and equal spaces leave the image unchanged. Holds for images of an array and for gray from RGB or BGR. (Found: images of a list are overwritten by the conversion, so that the result is the converted image whatever alpha is; gray from other spaces is blended with the RGB image.) The constructor refuses GRAY as source, unknown names and other types.", "quantifier": "all images, spaces and alphas", "why_tests_cant": "depends on the memory layout of the images; existing tests of alpha use one layout", "anchors": ["imgaug/augmenters/color.py:ChangeColorspace", "imgaug/augmenters/color.py:Grayscale"]}
{"id": "C126", "title": "Colour temperatures darken the RGB channels monotonically", "statement": "change_color_temperatures_() converts every image to RGB, multiplies every channel by a factor from 0 to 1 with rounding, and converts it back. With growing temperature the factor of red never grows, that of blue never falls, that of green grows up to 6600 K and falls from 6500 K; factors are interpolated linearly between multiples of 100 K and constant outside 1000..40000 K. Wrong lengths and a first temperature outside that range raise AssertionError. (Found: the other temperatures are not checked; change_color_temperature() overwrites the passed image.)", "quantifier": "all images, lists, spaces and temperatures", "why_tests_cant": "temperatures are real numbers; tests sample a few", "anchors": ["imgaug/augmenters/color.py:change_color_temperatures_", "imgaug/augmenters/color.py:change_color_temperature", "imgaug/augmenters/color.py:ChangeColorTemperature"]}
{"id": "C127", "title": "Children in another colour space only see and change what they should", "statement": "WithColorspace gives the children the images in the other space and converts back what they return; exceptions of the children are passed on. WithBrightnessChannels gives them only the channel holding the brightness of the drawn space and keeps the other two components. (Found: WithColorspace accepts GRAY, for which every call raises.)", "quantifier": "all images, spaces and child augmenters", "why_tests_cant": "children are arbitrary functions", "anchors": ["imgaug/augmenters/color.py:WithColorspace", "imgaug/augmenters/color.py:WithBrightnessChannels"]}
{"id": "C128", "title": "WithHueAndSaturation treats hue as an angle and saturation as a clipped value", "statement": "The children get the hue scaled from 0..179 to 0..254 and the saturation. The hue of the result is the angle returned by the children modulo a full turn, always 0..179, the saturation is clipped to 0..255 and the value channel is kept. (Found: without children the hue of every pixel that is not a multiple of 12 decreases by 1.)", "quantifier": "all images, spaces, child augmenters and returned hues of any size", "why_tests_cant": "hues are arbitrary integers, children arbitrary functions", "anchors": ["imgaug/augmenters/color.py:WithHueAndSaturation"]}
{"id": "C129", "title": "Colour quantization keeps the shape, bounds the number of colours and is deterministic", "statement": "quantize_kmeans() keeps shape and dtype; every pixel becomes the (rounded down) center of its own cluster, so there are at most nb_clusters colours; images with fewer pixels are copied; the result does not depend on the states of random number generators; only uint8 and 2..256 clusters are accepted. The quantization augmenters keep the shape, quantize images of sides up to max_size only, keep the alpha channel of images that are not resized, and use the nearest allowed integer of the drawn number of colours. (Found: max_size raises for images whose shorter side would shrink below one pixel, and changes the alpha channel of resized images.)", "quantifier": "all images, clusterings, numbers of colours and sizes", "why_tests_cant": "images and results of k-means are unbounded", "anchors": ["imgaug/augmenters/color.py:quantize_kmeans", "imgaug/augmenters/color.py:_AbstractColorQuantization", "imgaug/augmenters/color.py:KMeansColorQuantization"]}
{"id": "C130", "title": "Lengths, boxes, subdivision and concatenation of line strings agree with the curve they describe", "statement": "The length of a line string is the sum of the distances of neighbouring points, at least the distance of its ends and the same for the reversed line string. concatenate() keeps all points in order and adds the length of the connecting edge. subdivide(n) places n equidistant points on every edge, keeps all original points, the length and the set of points on the line; subdividing by m and then by n is subdividing by (m+1)(n+1)-1. to_bounding_box() is the unique smallest box around the line, width and height are its sides; without points it is None and the sides are 0.", "quantifier": "all line strings with any number of points and all numbers of points per edge", "why_tests_cant": "numbers of points and coordinates are unbounded; tests check a few short lines", "anchors": ["imgaug/augmentables/lines.py:LineString.length", "imgaug/augmentables/lines.py:LineString.subdivide", "imgaug/augmentables/lines.py:LineString.concatenate", "imgaug/augmentables/lines.py:LineString.to_bounding_box", "imgaug/augmentables/lines.py:LineString.width", "imgaug/augmentables/lines.py:LineString.height"]}
{"id": "C131", "title": "Distances and comparison of line strings are those of the curves", "statement": "compute_pointwise_distances() gives for every point the distance to the closest point of the other keypoint, pair or line string; other tuples raise AssertionError, other types ValueError, empty line strings give the default. coords_almost_equals() is true exactly if every point of either subdivided line string is closer than max_distance to the other line string; it is symmetric and true for line strings along the same curve, however it is divided or directed. almost_equals() also compares the labels. (Found: compute_distance() and contains() only look at the corner points of the line string: points in the middle of long edges are not contained, and the distance is not symmetric.)", "quantifier": "all line strings, other objects, distances and numbers of points per edge", "why_tests_cant": "two curves with unbounded numbers of points; the existing tests use a handful of lines", "anchors": ["imgaug/augmentables/lines.py:LineString.compute_pointwise_distances", "imgaug/augmentables/lines.py:LineString.compute_distance", "imgaug/augmentables/lines.py:LineString.contains", "imgaug/augmentables/lines.py:LineString.coords_almost_equals", "imgaug/augmentables/lines.py:LineString.almost_equals"]}
{"id": "C132", "title": "Area, box, subdivision and comparison of polygons do not depend on how the outline is listed", "statement": "The area is never negative, the same for every first point, direction and position, scales with the product of the scales of the axes, and is width times height for rectangles, half of it for right triangles, 0 for fewer than three points. subdivide() keeps the outline and the area. exterior_almost_equals() is true for polygons of the same outline (other first point, direction, subdivision) and in general if all points of the subdivided outlines are close to the other outline. The box is the smallest around the outline. (Found: width, height and to_bounding_box() raise for polygons without points; the constructor drops a last point close to the first, with a tolerance growing with the coordinates.)", "quantifier": "all polygons, translations, scales and numbers of points per edge", "why_tests_cant": "numbers of points are unbounded", "anchors": ["imgaug/augmentables/polys.py:Polygon.area", "imgaug/augmentables/polys.py:Polygon.subdivide", "imgaug/augmentables/polys.py:Polygon.exterior_almost_equals", "imgaug/augmentables/polys.py:Polygon.to_bounding_box", "imgaug/augmentables/polys.py:Polygon.width", "imgaug/augmentables/polys.py:Polygon.height"]}
{"id": "C133", "title": "Distance maps hold the distances to the keypoints and lead back to them", "statement": "to_distance_maps() gives one map per keypoint of the size of the image, holding at every pixel the euclidean distance d to the keypoint, or 1/(d+1) if inverted. from_distance_maps() takes from every map the position of the smallest (inverted: largest) value, the first in row order; if it is not good enough for the threshold, the keypoint is dropped or replaced as asked; empty maps raise ValueError. Maps of keypoints lead back to the closest pixel of the image, inverted or not, and to the keypoint itself if it lies on a pixel.", "quantifier": "all numbers of keypoints, coordinates, image sizes, maps and thresholds", "why_tests_cant": "maps have any size and any real values; ties between pixels need care", "anchors": ["imgaug/augmentables/kps.py:KeypointsOnImage.to_distance_maps", "imgaug/augmentables/kps.py:KeypointsOnImage.from_distance_maps"]}
{"id": "C134", "title": "Canny mixes images with the colours of edges and leaves alpha channels alone", "statement": "Canny() gives every image of the batch its own sampled alpha, thresholds, kernel size and colours. Every component is the mix of the image and of the colour of edges or other pixels as OpenCV finds them, in gray for images of one channel; alpha channels keep their values. With alpha 0 or kernel size at most 2 the image is returned unchanged. OpenCV is only called with non-empty uint8 images of one or three channels, thresholds in order and kernel sizes 3, 5 or 7. Other dtypes raise ValueError, other channel numbers and kernel sizes AssertionError.", "quantifier": "all batches of images, sampled values and behaviours of the edge detector", "why_tests_cant": "whether an edge detector is called with allowed arguments for all samples cannot be tested sample by sample", "anchors": ["imgaug/augmenters/edges.py:Canny._augment_batch_", "imgaug/augmenters/edges.py:Canny._draw_samples", "imgaug/augmenters/edges.py:RandomColorsBinaryImageColorizer.colorize"]}
{"id": "C135", "title": "Snowy landscapes only brighten dark pixels, clouds mix with the image within their opacity", "statement": "FastSnowyLandscape converts images to HLS, multiplies the lightness of pixels below the threshold, limited to 255, keeps hue, saturation and the other pixels, and converts back; multipliers of at least 1 never darken. CloudLayer computes opacities in [0, 1], growing with the density; a uint8 component is the mix of image and cloud rounded down: the image itself where the opacity is 0, never darker where the cloud is brighter, never brighter where it is darker. Float images get the exact mix, other dtypes raise ValueError.", "quantifier": "all images, thresholds, multipliers, opacities and intensities", "why_tests_cant": "real valued masks and all pixel values", "anchors": ["imgaug/augmenters/weather.py:FastSnowyLandscape._augment_batch_", "imgaug/augmenters/weather.py:CloudLayer.draw_on_image", "imgaug/augmenters/weather.py:CloudLayer._generate_alpha_mask"]}
{"id": "C136", "title": "Snow only brightens and rain stays between the image and the colour of its drops", "statement": "SnowflakesLayer never darkens a pixel, keeps it where the noise is black, makes it white where the noise is white and is monotone in noise and image. RainLayer mixes the image with one colour between 110 and 240, keeps pixels without drops and paints thick drops fully. Shapes are kept and components stay in 0..255. The noise is salt on an image of at least one and at most as many pixels per side as the image, darkened by the gate, resized, blurred, and motion blurred with a kernel of at least 3 pixels if the speed reaches 2 pixels. Other channel numbers than 1 and 3 raise AssertionError.", "quantifier": "all images, sizes, speeds, noise, gates and blurs", "why_tests_cant": "sizes of noise images depend on image sizes and sampled flake sizes, including images with few or no pixels", "anchors": ["imgaug/augmenters/weather.py:SnowflakesLayer.draw_on_image", "imgaug/augmenters/weather.py:SnowflakesLayer._blend", "imgaug/augmenters/weather.py:RainLayer._blend", "imgaug/augmenters/weather.py:SnowflakesLayer._motion_blur"]}
{"id": "C137", "title": "Dtype gates refuse disallowed dtypes, and the library's gates decide about every dtype", "statement": "A gate takes names of allowed and disallowed dtypes separated by any number of spaces. An unknown name raises KeyError, a dtype in both lists AssertionError. A batch with a disallowed dtype raises ValueError; otherwise it is accepted with a warning about exactly the dtypes that are in neither list. Order and number of images do not matter. The gates used in the library either accept a batch silently (all dtypes allowed) or refuse it.", "quantifier": "all strings, lists of dtypes and gates of the library", "why_tests_cant": "there are unboundedly many strings and batches; 13 dtypes times all gates are never tested together", "anchors": ["imgaug/dtypes.py:gate_dtypes_strs", "imgaug/dtypes.py:allow_only_uint8"]}
{"id": "C138", "title": "Promoting arrays to a common dtype keeps all values", "statement": "get_minimal_dtype() finds a dtype for every non-empty list of dtypes. It holds every value of every dtype of the list, unless it is float64 and one of them is a 64 bit integer. promote_array_dtypes_() returns arrays of this dtype with unchanged components. For two dtypes no smaller dtype would do; for three the result may be too large and depends on their order. increase_itemsize_factor 2, 4 and 8 multiply the size of the dtype and keep its kind; other factors and booleans raise AssertionError, missing dtypes TypeError; values are kept.", "quantifier": "all lists of arrays, dtypes, factors and components", "why_tests_cant": "lists have any length and components any value of the dtype", "anchors": ["imgaug/dtypes.py:get_minimal_dtype", "imgaug/dtypes.py:promote_array_dtypes_", "imgaug/dtypes.py:increase_array_resolutions_", "imgaug/dtypes.py:increase_itemsize_of_dtype"]}
{"id": "C139", "title": "Contrast augmenters keep dtype and shape, and linear contrast stretches around the middle of the value range", "statement": "Contrast augmenters give every image its own parameters, and every channel its own if drawn per channel; dtype and shape are kept; a refused dtype fails the batch; images without channels raise ValueError if parameters are drawn per channel. LinearContrast accepts nine dtypes and maps v to m + alpha (v - m), m being the middle of the range of unsigned integers rounded down, else 0: rounded to the nearest integer and limited to the dtype (uint8: rounded down), floats limited and rounded to their precision. alpha 1 changes nothing, alpha 0 gives m everywhere, and for alpha >= 0 brighter components stay brighter.", "quantifier": "all batches, dtypes, alphas and component values", "why_tests_cant": "values of wide dtypes cannot be enumerated; overflow at the limits depends on alpha", "anchors": ["imgaug/augmenters/contrast.py:_ContrastFuncWrapper", "imgaug/augmenters/contrast.py:adjust_contrast_linear", "imgaug/augmenters/contrast.py:LinearContrast"]}
{"id": "C140", "title": "Histogram equalization changes only intensities of colour images", "statement": "AllChannelsCLAHE equalizes every channel with its own or the first drawn clip limit and tile sizes (at least the minimum; tiles of one pixel change nothing), returns images without pixels as they are and refuses dtypes other than uint8 and uint16. HistogramEqualization and CLAHE convert images of three and four channels to HSV, HLS or Lab, change only their intensity, convert back and keep alpha channels; images with other numbers of channels are changed channel by channel. Every image gets back its own result, in any mix of channel numbers. Unknown colour spaces raise AssertionError.", "quantifier": "all batches of images, colour conversions and equalization functions", "why_tests_cant": "results are assigned to images by index; mixes of channel numbers are endless", "anchors": ["imgaug/augmenters/contrast.py:AllChannelsCLAHE", "imgaug/augmenters/contrast.py:CLAHE", "imgaug/augmenters/contrast.py:HistogramEqualization", "imgaug/augmenters/contrast.py:AllChannelsHistogramEqualization"]}
{"id": "C141", "title": "Corruptions keep shape and dtype and leave numpy's global state alone", "statement": "Corruption functions accept uint8 images of at least 32x32 pixels without channel axis or with 1 or 3 channels; others raise ValueError (dtype) or AssertionError. They return a uint8 image of the shape of the input; grey images are corrupted as colour images with three equal channels. With a seed, the result does not depend on numpy's global random state and the state is left as it was, also if the function fails. In a batch every image is corrupted with its own severity and seed, as if it were alone.", "quantifier": "all images, severities, seeds, states of the global generator and wrapped functions", "why_tests_cant": "global state and failing functions give endless histories", "anchors": ["imgaug/augmenters/imgcorruptlike.py:_call_imgcorrupt_func", "imgaug/augmenters/imgcorruptlike.py:_ImgcorruptAugmenterBase"]}
{"id": "C142", "title": "Glass blur stays within the image and only uses its pixels", "statement": "The pixel exchange of apply_glass_blur() never leaves the image, whatever shifts are drawn. All resulting pixels are pixels of the blurred image, borders are unchanged, and exchanges only rearrange pixels. Severities 1 to 5 select the documented strengths; others raise. The result has the shape of the input and fits into uint8.", "quantifier": "all images, severities and random shifts", "why_tests_cant": "shifts are random and images have any size; an index error needs one unlucky shift at a border", "anchors": ["imgaug/augmenters/imgcorruptlike.py:_apply_glass_blur_imgaug", "imgaug/augmenters/imgcorruptlike.py:_apply_glass_blur_imgaug_loop"]}
{"id": "C143", "title": "RandAugment's parameters stay in the ranges of its augmenters at every level", "statement": "For every integer level or stochastic parameter of levels at least 0, samples of any size can be drawn from the parameters of RandAugment's augmenters. Angles, shears and translations are proportional to the level up to their sign, enhancement factors differ from 1 by 3 percent per level and stay in [0.1, 1.9], posterization keeps 2 to 8 bits, solarization thresholds are integers from 0 to 256, cut-out areas are at most 5/8 of the image size, crops between 0 and level/224. At level 0 all of them leave images unchanged.", "quantifier": "all levels (numbers, ranges and other stochastic parameters), sample sizes and random generators", "why_tests_cant": "levels may be any distribution; overflow of the conversion to integers happens for rare values only", "anchors": ["imgaug/augmenters/collections.py:RandAugment"]}
{"id": "C144", "title": "Debug images show every image completely, once per column", "statement": "draw_debug_image() succeeds for all non-empty images. Every image is shown once in each column, completely and in its own size, in its row and in the middle of its column. Fitted images and their padding fill the cell. Components are shown as bytes: uint8 unchanged, other dtypes in the same order with the ends of the range black and white. Images can be fitted into all cells that are not smaller.", "quantifier": "all lists of images, sizes, dtypes and component values", "why_tests_cant": "sizes are arbitrary; off-by-one padding depends on parities of differences", "anchors": ["imgaug/augmenters/debug.py:draw_debug_image", "imgaug/augmenters/debug.py:_resizepad_to_size", "imgaug/augmenters/debug.py:_DebugGrid"]}
{"id": "C145", "title": "SaveDebugImageEveryNBatches saves every N-th batch under its own name", "statement": "After any history of batches, also with failed drawings in between, the folder contains one image for every batch whose number (from 0) is a multiple of the interval and that could be drawn: in a file batch_<number>.png with at least six digits. No two batches share a file. The latest saved image is also in the file for the latest image (documented as latest.png). Other files are untouched. Batches are returned unchanged; only drawing may raise. Interval 0 raises for every batch.", "quantifier": "all histories of batches, intervals, earlier contents of the folder and outcomes of drawing", "why_tests_cant": "counters in schedule and destinations have to stay in step over unbounded histories with errors", "anchors": ["imgaug/augmenters/debug.py:SaveDebugImageEveryNBatches", "imgaug/augmenters/debug.py:_EveryNBatchesSchedule", "imgaug/augmenters/debug.py:_FolderImageDestination"]}
{"id": "C146", "title": "Choice over parameters uses the samples of the chosen parameters, each once", "statement": "Samples of any number can be drawn from a Choice over numbers and stochastic parameters. Every component is the chosen number or a sample of the chosen parameter. A parameter is asked once for as many samples as it was chosen, and they are used in order, each of them once.", "quantifier": "all lists of numbers and parameters, choices and random generators", "why_tests_cant": "which parameter is chosen how often is random; mixing up samples changes no single value range", "anchors": ["imgaug/parameters.py:Choice"]}
{"id": "C147", "title": "Cartoon draws the edges of the segmented image in black", "statement": "Only uint8 images with three channels are accepted. They are blurred with an odd kernel size next to the given one and segmented with radii proportional to the segmentation size. Edges are found in the segmented image, with a threshold that falls as the edge prevalence grows; edges in dense blobs and then isolated edges are dropped. The result is black at edges and the segmented image elsewhere, with its saturation multiplied and clipped. In a batch each image gets its own parameters.", "quantifier": "all images, parameters and batches", "why_tests_cant": "tests look at a few images; thresholds, kernel parity and counts at borders depend on all parameters", "anchors": ["imgaug/augmenters/artistic.py:stylize_cartoon", "imgaug/augmenters/artistic.py:Cartoon"]}
