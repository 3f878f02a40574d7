{
 "claims": [
  {
   "property": "C01",
   "status": "partial",
   "theorems": [
    "array2d_is_a_map",
    "array2d_copy_is_a_map",
    "array2d_from_values",
    "array2d_side_65536_refuted",
    "array2d_zero_65536_refuted"
   ],
   "note": "False as stated; the refuted theorems say where, the others prove the claim elsewhere. For requested sides up to 32768 (any block exponent up to 15). Refuted for side 65536: the element index overflows int and the clear length wraps to zero."
  },
  {
   "property": "C02",
   "status": "partial",
   "theorems": [
    "array2d_side_least_pow2",
    "array2d_side_huge_refuted"
   ],
   "note": "False as stated; the refuted theorems say where, the others prove the claim elsewhere. For sides up to 2^31; every larger uint32 argument collapses to side 1."
  },
  {
   "property": "C03",
   "status": "proved",
   "theorems": [
    "bmp_round_trip"
   ],
   "note": "For dimensions within the writer's int arithmetic; file system success assumed."
  },
  {
   "property": "C04",
   "status": "partial",
   "theorems": [
    "bmp_read_safe",
    "bmp_read_zero_height_refuted",
    "bmp_read_negative_width_refuted"
   ],
   "note": "False as stated; the refuted theorems say where, the others prove the claim elsewhere. Holds for width >= 0 and height >= 1 (sizes within int); refuted for height 0 (division by zero) and negative widths, which the header checks accept."
  },
  {
   "property": "C05",
   "status": "partial",
   "theorems": [
    "bmp_conformant_even_width",
    "bmp_read_conformant_even_width",
    "bmp_odd_width_refuted"
   ],
   "note": "False as stated; the refuted theorems say where, the others prove the claim elsewhere. True for even widths, refuted for every odd width (row padding computed as (3w)%4 instead of the complement; the size field then differs from the file length)."
  },
  {
   "property": "C06",
   "status": "partial",
   "theorems": [
    "tga_round_trip",
    "tga_big_side_refuted"
   ],
   "note": "False as stated; the refuted theorems say where, the others prove the claim elsewhere. Round trip proved for sides below 65536 and 3wh < 2^31. Sides of 65536 or more are truncated in the header although the write reports success: proved as a refutation for all such images."
  },
  {
   "property": "C07",
   "status": "partial",
   "theorems": [
    "tga_read_safe",
    "tga_read_determined",
    "tga_read_invalid",
    "tga_read_overrun_refuted"
   ],
   "note": "False as stated; the refuted theorems say where, the others prove the claim elsewhere. Memory safety and termination for every uncompressed file and every run-length file at least 127 wide. For each width 1..126 a file that overruns the buffer is exhibited."
  },
  {
   "property": "C08",
   "status": "partial",
   "theorems": [
    "tga_rle_decode",
    "tga_rle_truncated",
    "tga_raw_decode",
    "tga_raw_packet_refuted"
   ],
   "note": "False as stated; the refuted theorems say where, the others prove the claim elsewhere. Holds for runs and one-pixel raw packets, any depth, order, id and trailing data; raw packets of two or more pixels are mis-decoded (refuted)."
  },
  {
   "property": "C09",
   "status": "proved",
   "theorems": [
    "ppm_round_trip"
   ],
   "note": ""
  },
  {
   "property": "C10",
   "status": "proved",
   "theorems": [
    "bgra_rgb_bgra",
    "rgb_bgra_rgb",
    "rgb_to_bgra_defined",
    "px_channels_independent"
   ],
   "note": ""
  },
  {
   "property": "C11",
   "status": "partial",
   "theorems": [
    "file_resolved",
    "file_append_resolved",
    "file_dotdot_refuted",
    "file_root_refuted",
    "file_dot_refuted"
   ],
   "note": "False as stated; the refuted theorems say where, the others prove the claim elsewhere. Holds for every path in which each dot-dot leaves the root or a name of two or more characters and which is not resolved to the root without a final separator, is not a lone dot or dot-dot and is not relative to the root; each excluded case is refuted."
  },
  {
   "property": "C12",
   "status": "partial",
   "theorems": [
    "file_names",
    "file_root_names",
    "file_ancestors",
    "file_parent_root",
    "file_parent_refuted",
    "file_parent_extension_refuted"
   ],
   "note": "False as stated; the refuted theorems say where, the others prove the claim elsewhere. Names and extensions of constructed files, and paths of all ancestors, are right; the name of a first-level ancestor and the extensions of parents are refuted."
  },
  {
   "property": "C13",
   "status": "partial",
   "theorems": [
    "kdnode_leaf_lossless",
    "kdnode_interior_lossless",
    "kdnode_child_range_refuted"
   ],
   "note": "False as stated; the refuted theorems say where, the others prove the claim elsewhere. The union's float member is modelled by its 32-bit pattern."
  },
  {
   "property": "C14",
   "status": "partial",
   "theorems": [
    "kd_leaves_cover",
    "kd_assets_kept_partial",
    "kd_flat_asset_lost_refuted",
    "kd_touching_refuted"
   ],
   "note": "Every leaf lists the assets with a point strictly inside it; every asset is listed when boxes are thick or the sort is stable. A flat asset is lost when the sort puts its closing boundary first, and a leaf whose region is only touched may not list the asset."
  },
  {
   "property": "C15",
   "status": "partial",
   "theorems": [
    "kd_intersect_closest_partial",
    "kd_triangles_closest",
    "kd_face_plane_refuted"
   ],
   "note": "For rays that do not run inside the plane of a box face; such rays may miss an asset through 0 * infinity."
  },
  {
   "property": "C16",
   "status": "partial",
   "theorems": [
    "kd_add_within_capacity",
    "kd_add_over_capacity_refuted"
   ],
   "note": "False as stated; the refuted theorems say where, the others prove the claim elsewhere. Holds for up to 4096 additions; the 4097th addition writes past the buffer, the limit is only logged."
  },
  {
   "property": "C17",
   "status": "proved",
   "theorems": [
    "bvh_build_permutes"
   ],
   "note": "For every sort that orders by code and every cluster size function that is at least one."
  },
  {
   "property": "C18",
   "status": "proved",
   "theorems": [
    "bvh_array_is_tree"
   ],
   "note": "Boxes, children and leaves; every element of the array is written."
  },
  {
   "property": "C19",
   "status": "partial",
   "theorems": [
    "bvh_intersect_closest_partial",
    "bvh_intersect_closest_small",
    "bvh_answer_geometric"
   ],
   "note": "For trees of height at most 32, the size of the stack (always so with up to 33 triangles)."
  },
  {
   "property": "C20",
   "status": "partial",
   "theorems": [
    "bvh_stack_overflow_refuted",
    "bvh_intersect_closest_partial",
    "bvh_intersect_closest_small"
   ],
   "note": "False as stated; the refuted theorems say where, the others prove the claim elsewhere. A fan of 700 triangles in one box gives a chain of depth 37 and the 33rd push is out of the array; trees of height up to 32 (all meshes up to 33 triangles) are safe."
  },
  {
   "property": "C21",
   "status": "partial",
   "theorems": [
    "bvh_material_refuted",
    "bvh_material_kept_partial"
   ],
   "note": "False as stated; the refuted theorems say where, the others prove the claim elsewhere. The table of materials keeps the order of the file while the faces are reordered."
  },
  {
   "property": "C22",
   "status": "proved",
   "theorems": [
    "morton_interleaves",
    "morton_injective",
    "morton_octree",
    "morton_monotone"
   ],
   "note": "Integer grid coordinates; the multiplication of the float by 0x1FFFFF is outside the model."
  },
  {
   "property": "C23",
   "status": "proved",
   "theorems": [
    "tiles_partition",
    "tiles_rejected_width"
   ],
   "note": ""
  },
  {
   "property": "C24",
   "status": "proved",
   "theorems": [
    "render_tiles_never_lost",
    "render_exactly_once",
    "render_no_deadlock",
    "render_terminates"
   ],
   "note": ""
  },
  {
   "property": "C25",
   "status": "partial",
   "theorems": [
    "render_film_exact",
    "render_film_no_overcount",
    "render_film_lost_update_refuted",
    "render_film_border_refuted"
   ],
   "note": "False as stated; the refuted theorems say where, the others prove the claim elsewhere. The claim holds with one worker and for pixels reached by one tile only; it is refuted for several workers and pixels near tile borders."
  },
  {
   "property": "C26",
   "status": "partial",
   "theorems": [
    "film_update_inside",
    "film_update_covers",
    "film_update_box_refuted",
    "film_update_box_lost"
   ],
   "note": "False as stated; the refuted theorems say where, the others prove the claim elsewhere. The own-pixel coverage holds for filter range 2 or more and is refuted for the box filter."
  },
  {
   "property": "C27",
   "status": "proved",
   "theorems": [
    "film_save_words",
    "film_save_average"
   ],
   "note": ""
  },
  {
   "property": "C28",
   "status": "partial",
   "theorems": [
    "tile_order_bijective",
    "random_sampler_order",
    "stratified_sampler_order",
    "stratified_unfilled_refuted"
   ],
   "note": "False as stated; the refuted theorems say where, the others prove the claim elsewhere. The stratified sampler leaves samples unfilled when spp is not a perfect square; refuted separately."
  },
  {
   "property": "C29",
   "status": "proved",
   "theorems": [
    "well_states_never_merge",
    "well_seeds_never_merge",
    "well_never_zero",
    "well_reversible",
    "well_result_range"
   ],
   "note": "The float conversion of the result is modelled exactly (round to nearest even on 24 bits)."
  },
  {
   "property": "C30",
   "status": "partial",
   "theorems": [
    "scene_consistent",
    "scene_repeated_asset_refuted",
    "scene_id_wrap_refuted",
    "scene_too_many_assets_refuted"
   ],
   "note": "False as stated; the refuted theorems say where, the others prove the claim elsewhere. For every sequence of at most 4096 operations; an asset inherited twice is traced twice, identifiers repeat after 2^32 assets, and more than 4096 assets overflow the tree buffer."
  },
  {
   "property": "C31",
   "status": "proved",
   "theorems": [
    "mtl_library_is_a_map",
    "tex_library_is_a_map"
   ],
   "note": "For objects handed over once each (the documented precondition)."
  },
  {
   "property": "C32",
   "status": "proved",
   "theorems": [
    "mip_levels",
    "mip_within"
   ],
   "note": ""
  },
  {
   "property": "C33",
   "status": "proved",
   "theorems": [
    "obj_buffer_independent"
   ],
   "note": "Every text without the reserved byte 7 and every two buffer sizes: same outcome, same termination."
  },
  {
   "property": "C34",
   "status": "partial",
   "theorems": [
    "obj_terminates",
    "obj_terminates_refuted",
    "obj_unfinished_refuted"
   ],
   "note": "False as stated; the refuted theorems say where, the others prove the claim elsewhere. Holds for files that end with a newline (and have no byte 7); a last line without a newline is read forever."
  },
  {
   "property": "C35",
   "status": "proved",
   "theorems": [
    "obj_load_correct",
    "face_triangles_fan",
    "relative_index"
   ],
   "note": "Whole documents: every well formed text is read as its specification says. Corners of the form v/vt are excluded (C58)."
  },
  {
   "property": "C36",
   "status": "partial",
   "theorems": [
    "obj_compaction",
    "obj_materials_256_refuted",
    "obj_materials_257_refuted"
   ],
   "note": "False as stated; the refuted theorems say where, the others prove the claim elsewhere. All materials and faces up to 255 materials; with 256 or more the result is wrong."
  },
  {
   "property": "C37",
   "status": "partial",
   "theorems": [
    "mesh_adds_in_order",
    "mesh_size_zero_refuted"
   ],
   "note": "False as stated; the refuted theorems say where, the others prove the claim elsewhere. Any number of triangles; a mesh created with room for none writes out of bounds at the first triangle."
  },
  {
   "property": "C38",
   "status": "partial",
   "theorems": [
    "mesh_sample_face",
    "mesh_sample_face_refuted",
    "mesh_sample_single_refuted",
    "mesh_sample_diverges_refuted"
   ],
   "note": "False as stated; the refuted theorems say where, the others prove the claim elsewhere. Exact arithmetic. The search ends and passes the right position inside the interval, but the face used is one too low except for the first and last."
  },
  {
   "property": "C39",
   "status": "partial",
   "theorems": [
    "resolution_checked",
    "resolution_safe",
    "resolution_height_refuted",
    "spp_checked",
    "spp_nearest_square",
    "spp_square_kept",
    "spp_strata_exact",
    "spp_overflow_refuted",
    "spp_random_kept"
   ],
   "note": "False as stated; the refuted theorems say where, the others prove the claim elsewhere. The height is not made a multiple of the tile size and the highest sample counts overflow: both refuted. The rest of the claim is proved for all inputs in the stated ranges."
  },
  {
   "property": "C40",
   "status": "proved",
   "theorems": [
    "inverse_correct",
    "inverse_fails"
   ],
   "note": "Exact arithmetic; failure is a determinant within 1e-5 of zero."
  },
  {
   "property": "C41",
   "status": "proved",
   "theorems": [
    "compose_point",
    "compose_vec",
    "compose_ray",
    "transform_ray_parameter",
    "config_affine"
   ],
   "note": ""
  },
  {
   "property": "C42",
   "status": "partial",
   "theorems": [
    "tri_hit_sound",
    "tri_hit_complete",
    "tri_coplanar_refuted"
   ],
   "note": "False as stated; the refuted theorems say where, the others prove the claim elsewhere. Sound and complete for rays that cross the plane; rays in the plane are never reported."
  },
  {
   "property": "C43",
   "status": "proved",
   "theorems": [
    "sphere_exact",
    "box_exact"
   ],
   "note": "Both tests; lines that nearly graze the sphere are C102, rays in the plane of a face of the box C111."
  },
  {
   "property": "C44",
   "status": "partial",
   "theorems": [
    "transformed_box_contains",
    "sphere_box_contains",
    "engulf_points_smallest",
    "engulf_boxes_smallest",
    "engulf_order_independent",
    "inside_contains",
    "slab_never_misses",
    "slab1_never_misses_partial",
    "slab1_negative_zero_refuted",
    "tri_box_contains"
   ],
   "note": "False as stated; the refuted theorems say where, the others prove the claim elsewhere. The overload without ray properties misses boxes when a direction component is the negative zero."
  },
  {
   "property": "C45",
   "status": "partial",
   "theorems": [
    "conductor_fraction",
    "conductor_inside_refuted",
    "dielectric_fraction",
    "dielectric_conserves",
    "total_reflection_refuted",
    "dielectric_agree"
   ],
   "note": "From inside, a conductor reflects more than arrives; beyond the critical angle the reflected value is not divided by the cosine, so less than everything is reflected."
  },
  {
   "property": "C46",
   "status": "proved",
   "theorems": [
    "mirror_direction",
    "refraction_direction"
   ],
   "note": ""
  },
  {
   "property": "C47",
   "status": "partial",
   "theorems": [
    "multi_sample_layer",
    "multi_empty_refuted",
    "multi_value_partial",
    "multi_texture_refuted",
    "multi_mirror_texture_refuted",
    "multi_pdf_consistent"
   ],
   "note": "value() uses the texture of each layer and sample_value() the one of the chosen index, so values agree only when all layers have the same texture; an empty material divides by zero."
  },
  {
   "property": "C48",
   "status": "partial",
   "theorems": [
    "occlusion_history_partial",
    "occlusion_twice_refuted",
    "occlusion_face_plane_refuted"
   ],
   "note": "Holds after any history for unit directions off the face planes; the cached distance is the ray parameter while the first answer compares Euclidean distances, so asking twice may change the answer."
  },
  {
   "property": "C49",
   "status": "proved",
   "theorems": [
    "mask_partition",
    "dual_one_layer",
    "dual_inverted"
   ],
   "note": ""
  },
  {
   "property": "C50",
   "status": "proved",
   "theorems": [
    "format_seconds_denotes",
    "format_seconds_fits",
    "format_seconds_special"
   ],
   "note": ""
  },
  {
   "property": "C51",
   "status": "partial",
   "theorems": [
    "swap32_reverses_bytes",
    "swap32_involutive",
    "swap16_reverses_bytes",
    "big32_is_swap",
    "big16_is_swap_refuted"
   ],
   "note": "False as stated; the refuted theorems say where, the others prove the claim elsewhere. The 16-bit big-endian macro is refuted: it drops one byte."
  },
  {
   "property": "C52",
   "status": "proved",
   "theorems": [
    "camera_frame"
   ],
   "note": "Lengths up to the 1e-5 that normalize tolerates."
  },
  {
   "property": "C53",
   "status": "partial",
   "theorems": [
    "ppm_binary_decode",
    "ppm_ascii_decode",
    "ppm_16bit_refuted",
    "ppm_sample_overflow_refuted",
    "ppm_clamp_refuted"
   ],
   "note": "False as stated; the refuted theorems say where, the others prove the claim elsewhere. Holds for text files and for one byte per sample with samples not above the maximum; refuted for two bytes per sample and for samples above the maximum."
  },
  {
   "property": "C54",
   "status": "partial",
   "theorems": [
    "mtl_library_leak_refuted",
    "tex_library_is_a_map"
   ],
   "note": "False as stated; the refuted theorems say where, the others prove the claim elsewhere. A material added under a name in use is never freed; whatever the texture library holds at some time is freed exactly once by the end."
  },
  {
   "property": "C55",
   "status": "partial",
   "theorems": [
    "obj_every_object_refuted",
    "obj_load_correct"
   ],
   "note": "False as stated; the refuted theorems say where, the others prove the claim elsewhere. All objects before the first one without faces are loaded; the others are lost."
  },
  {
   "property": "C56",
   "status": "partial",
   "theorems": [
    "obj_material_persists_refuted",
    "obj_load_correct"
   ],
   "note": "False as stated; the refuted theorems say where, the others prove the claim elsewhere. Within an object the material in use is right; every new object starts with the default one."
  },
  {
   "property": "C57",
   "status": "partial",
   "theorems": [
    "obj_second_file_refuted"
   ],
   "note": "False as stated; the refuted theorems say where, the others prove the claim elsewhere. The vertices of the previous file stay."
  },
  {
   "property": "C58",
   "status": "partial",
   "theorems": [
    "obj_texture_only_refuted",
    "obj_texture_only_unset_refuted"
   ],
   "note": "False as stated; the refuted theorems say where, the others prove the claim elsewhere. Such a corner takes the normal of an earlier corner of the same length, or reads bytes never written."
  },
  {
   "property": "C59",
   "status": "partial",
   "theorems": [
    "obj_short_face_refuted",
    "obj_relative_index_refuted"
   ],
   "note": "False as stated; the refuted theorems say where, the others prove the claim elsewhere. A face with one or two corners without normals reads past its vertices; a relative index before the first vertex throws an exception that nothing catches."
  },
  {
   "property": "C60",
   "status": "partial",
   "theorems": [
    "slab_exact_partial",
    "slab_exact_refuted"
   ],
   "note": "False as stated; the refuted theorems say where, the others prove the claim elsewhere. Exact when no component of the direction is zero; rays in the plane of a face are accepted whatever the other axes."
  },
  {
   "property": "C61",
   "status": "partial",
   "theorems": [
    "bvh_build_total_partial",
    "bvh_flat_conversion_refuted"
   ],
   "note": "False as stated; the refuted theorems say where, the others prove the claim elsewhere. Defined when the centroids differ on every axis, undefined when they agree on one."
  },
  {
   "property": "C62",
   "status": "partial",
   "theorems": [
    "kd_build_overflow_refuted",
    "kd_build_capacity"
   ],
   "note": "Built exactly when the leaves have at most 4096 references in total; 2049 overlapping assets and one inside overflow for every sort."
  },
  {
   "property": "C63",
   "status": "proved",
   "theorems": [
    "kd_intersect_safe"
   ],
   "note": ""
  },
  {
   "property": "C64",
   "status": "proved",
   "theorems": [
    "kd_leaves_cover"
   ],
   "note": ""
  },
  {
   "property": "C65",
   "status": "proved",
   "theorems": [
    "kd_triangles_closest"
   ],
   "note": "kd_intersect_closest_partial is the same statement for arbitrary assets."
  },
  {
   "property": "C66",
   "status": "partial",
   "theorems": [
    "occlusion_bounces_refuted",
    "occlusion_safe"
   ],
   "note": "lasthit has five entries and is indexed by the number of bounces: five bounces read past it."
  },
  {
   "property": "C67",
   "status": "proved",
   "theorems": [
    "occlusion_safe"
   ],
   "note": ""
  },
  {
   "property": "C68",
   "status": "proved",
   "theorems": [
    "normalize_length",
    "shading_orthonormal",
    "shading_inverse"
   ],
   "note": ""
  },
  {
   "property": "C69",
   "status": "partial",
   "theorems": [
    "shading_slanted_refuted",
    "shading_orthonormal",
    "shading_inverse"
   ],
   "note": "False for every dpdu that is not orthogonal to the normal."
  },
  {
   "property": "C70",
   "status": "proved",
   "theorems": [
    "specular_reversible"
   ],
   "note": ""
  },
  {
   "property": "C71",
   "status": "partial",
   "theorems": [
    "sixth_layer_refuted",
    "layers_kept"
   ],
   "note": "Holds up to five layers; the sixth is written past the array."
  },
  {
   "property": "C72",
   "status": "proved",
   "theorems": [
    "single_consistent",
    "lambertian_consistent"
   ],
   "note": ""
  },
  {
   "property": "C73",
   "status": "proved",
   "theorems": [
    "default_sampling",
    "default_density"
   ],
   "note": ""
  },
  {
   "property": "C74",
   "status": "partial",
   "theorems": [
    "blinn_density_refuted",
    "beckmann_density_refuted",
    "half_vectors"
   ],
   "note": "Blinn reports (n+2)/(2 pi) cos^n where the density is (n+1)/(2 pi) cos^n; Beckmann multiplies the exponential in twice."
  },
  {
   "property": "C75",
   "status": "proved",
   "theorems": [
    "ggx_sampling"
   ],
   "note": ""
  },
  {
   "property": "C76",
   "status": "partial",
   "theorems": [
    "oren_reciprocal",
    "oren_isotropic_refuted"
   ],
   "note": "Reciprocal; not isotropic because the sign of the sine of the azimuths is lost."
  },
  {
   "property": "C77",
   "status": "proved",
   "theorems": [
    "rough_sample",
    "rough_reciprocal",
    "rough_nonnegative",
    "half_vectors"
   ],
   "note": "The two densities agree when the sum of the directions is not within the tolerance of Vec3::normalize, which leaves such vectors unnormalised."
  },
  {
   "property": "C78",
   "status": "partial",
   "theorems": [
    "rough_exit_refuted",
    "rough_transmission"
   ],
   "note": "pdf() is zero for every direction leaving the denser medium."
  },
  {
   "property": "C79",
   "status": "proved",
   "theorems": [
    "rough_transmission"
   ],
   "note": ""
  },
  {
   "property": "C80",
   "status": "proved",
   "theorems": [
    "conductor_fraction",
    "dielectric_fraction",
    "dielectric_conserves"
   ],
   "note": ""
  },
  {
   "property": "C81",
   "status": "proved",
   "theorems": [
    "multi_sample_layer",
    "multi_pdf_consistent"
   ],
   "note": ""
  },
  {
   "property": "C82",
   "status": "proved",
   "theorems": [
    "unfiltered_texel"
   ],
   "note": ""
  },
  {
   "property": "C83",
   "status": "partial",
   "theorems": [
    "unfiltered_nearest_refuted"
   ],
   "note": "False: half a texel is subtracted before rounding down."
  },
  {
   "property": "C84",
   "status": "proved",
   "theorems": [
    "bilinear_value"
   ],
   "note": ""
  },
  {
   "property": "C85",
   "status": "partial",
   "theorems": [
    "bilinear_seam_refuted"
   ],
   "note": "False for sides above two."
  },
  {
   "property": "C86",
   "status": "proved",
   "theorems": [
    "trilinear_safe"
   ],
   "note": ""
  },
  {
   "property": "C87",
   "status": "partial",
   "theorems": [
    "trilinear_whole_refuted"
   ],
   "note": "False: reads one level past the last."
  },
  {
   "property": "C88",
   "status": "partial",
   "theorems": [
    "trilinear_constant_refuted"
   ],
   "note": "False: the two halves are truncated separately."
  },
  {
   "property": "C89",
   "status": "proved",
   "theorems": [
    "repeat_in_range",
    "image_lookup_safe"
   ],
   "note": ""
  },
  {
   "property": "C90",
   "status": "partial",
   "theorems": [
    "image_negative_refuted"
   ],
   "note": "False: negative float converted to uint16_t."
  },
  {
   "property": "C91",
   "status": "partial",
   "theorems": [
    "repeat_border_refuted"
   ],
   "note": "False: one is not repeated, the other whole numbers are."
  },
  {
   "property": "C92",
   "status": "partial",
   "theorems": [
    "derivative_scale_refuted"
   ],
   "note": "False: du/dy is scaled by sy and dv/dx by sx."
  },
  {
   "property": "C93",
   "status": "proved",
   "theorems": [
    "file_texture"
   ],
   "note": ""
  },
  {
   "property": "C94",
   "status": "partial",
   "theorems": [
    "file_sides_refuted"
   ],
   "note": "False for sides 0 and 65536."
  },
  {
   "property": "C95",
   "status": "partial",
   "theorems": [
    "texture_filter_kept",
    "texture_filter_refuted"
   ],
   "note": "True of the first texture of a file only: the map is cached by path."
  },
  {
   "property": "C96",
   "status": "proved",
   "theorems": [
    "mul_is_product",
    "mul_assoc",
    "mul_identity"
   ],
   "note": ""
  },
  {
   "property": "C97",
   "status": "partial",
   "theorems": [
    "small_scale_refuted"
   ],
   "note": "False: a uniform scale of 0.02 or less fails and leaves the inverse uninitialised."
  },
  {
   "property": "C98",
   "status": "proved",
   "theorems": [
    "config_order",
    "rotations_keep_dot",
    "config_scale"
   ],
   "note": ""
  },
  {
   "property": "C99",
   "status": "proved",
   "theorems": [
    "asset_hit_world"
   ],
   "note": ""
  },
  {
   "property": "C100",
   "status": "partial",
   "theorems": [
    "mul_onto_first_refuted"
   ],
   "note": "False."
  },
  {
   "property": "C101",
   "status": "proved",
   "theorems": [
    "transform_normal_perpendicular"
   ],
   "note": ""
  },
  {
   "property": "C102",
   "status": "partial",
   "theorems": [
    "sphere_graze_refuted",
    "large_sphere_refuted"
   ],
   "note": "False: a discriminant down to -1e-4 counts as a hit, so a sphere of radius s is hit up to s*sqrt(1+s^2/40000)."
  },
  {
   "property": "C103",
   "status": "partial",
   "theorems": [
    "sphere_mask_refuted"
   ],
   "note": "False."
  },
  {
   "property": "C104",
   "status": "partial",
   "theorems": [
    "sphere_pole_refuted",
    "sphere_exact"
   ],
   "note": "False on the axis; true off it (sphere_exact)."
  },
  {
   "property": "C105",
   "status": "partial",
   "theorems": [
    "sphere_surface_uniform",
    "sphere_surface_refuted"
   ],
   "note": "Uniform scales proved; false for the others."
  },
  {
   "property": "C106",
   "status": "proved",
   "theorems": [
    "transformed_box_contains",
    "transformed_box_smallest",
    "sphere_box_contains"
   ],
   "note": ""
  },
  {
   "property": "C107",
   "status": "proved",
   "theorems": [
    "sphere_sample_on",
    "sphere_sample_uniform"
   ],
   "note": ""
  },
  {
   "property": "C108",
   "status": "proved",
   "theorems": [
    "box_sample_face",
    "box_surface_ok",
    "box_sample_uniform"
   ],
   "note": ""
  },
  {
   "property": "C109",
   "status": "proved",
   "theorems": [
    "box_normal_entering"
   ],
   "note": ""
  },
  {
   "property": "C110",
   "status": "partial",
   "theorems": [
    "box_normal_leaving_refuted"
   ],
   "note": "False when entry and exit faces are not opposite."
  },
  {
   "property": "C111",
   "status": "partial",
   "theorems": [
    "box_plane_refuted",
    "box_exact"
   ],
   "note": "False in the plane of a face; box_exact shows it elsewhere."
  },
  {
   "property": "C112",
   "status": "partial",
   "theorems": [
    "box_mask_refuted"
   ],
   "note": "False."
  },
  {
   "property": "C113",
   "status": "proved",
   "theorems": [
    "perspective_ray",
    "perspective_centre",
    "perspective_fov"
   ],
   "note": ""
  },
  {
   "property": "C114",
   "status": "proved",
   "theorems": [
    "perspective_differentials"
   ],
   "note": ""
  },
  {
   "property": "C115",
   "status": "partial",
   "theorems": [
    "perspective_wide_refuted"
   ],
   "note": "False from tan(fov/2) = 32 on; perspective_ray shows it for tan(fov/2)^2 < 1000."
  },
  {
   "property": "C116",
   "status": "partial",
   "theorems": [
    "default_fov_refuted"
   ],
   "note": "False: the number is used as radians."
  },
  {
   "property": "C117",
   "status": "proved",
   "theorems": [
    "orthographic_ray"
   ],
   "note": ""
  },
  {
   "property": "C118",
   "status": "partial",
   "theorems": [
    "orthographic_differentials_refuted"
   ],
   "note": "False."
  },
  {
   "property": "C119",
   "status": "proved",
   "theorems": [
    "panorama_covers"
   ],
   "note": ""
  },
  {
   "property": "C120",
   "status": "partial",
   "theorems": [
    "panorama_mirrored_refuted"
   ],
   "note": "False."
  },
  {
   "property": "C121",
   "status": "proved",
   "theorems": [
    "light_sample_unscaled"
   ],
   "note": ""
  },
  {
   "property": "C122",
   "status": "partial",
   "theorems": [
    "light_sample_scaled_refuted"
   ],
   "note": "False for every scale other than one."
  },
  {
   "property": "C123",
   "status": "partial",
   "theorems": [
    "light_pdf_unscaled",
    "light_pdf_scaled_refuted"
   ],
   "note": "True without scale, false for every other scale."
  },
  {
   "property": "C124",
   "status": "proved",
   "theorems": [
    "light_rays_unscaled"
   ],
   "note": ""
  },
  {
   "property": "C125",
   "status": "proved",
   "theorems": [
    "path_is_finite"
   ],
   "note": ""
  },
  {
   "property": "C126",
   "status": "proved",
   "theorems": [
    "chosen_light_exists",
    "light_chosen_uniformly"
   ],
   "note": ""
  },
  {
   "property": "C127",
   "status": "proved",
   "theorems": [
    "mis_is_unbiased"
   ],
   "note": ""
  },
  {
   "property": "C128",
   "status": "partial",
   "theorems": [
    "visible_light_refuted"
   ],
   "note": "False: twice the emission."
  },
  {
   "property": "C129",
   "status": "partial",
   "theorems": [
    "many_lights_refuted"
   ],
   "note": "False: the mean is the sum divided by the number of lights."
  },
  {
   "property": "C130",
   "status": "partial",
   "theorems": [
    "roulette_refuted"
   ],
   "note": "False: at most a quarter of the light is kept."
  },
  {
   "property": "C131",
   "status": "partial",
   "theorems": [
    "indirect_emission_refuted"
   ],
   "note": "False: counted twice."
  },
  {
   "property": "C132",
   "status": "proved",
   "theorems": [
    "radiance_not_negative"
   ],
   "note": ""
  },
  {
   "property": "C133",
   "status": "proved",
   "theorems": [
    "array2d_is_a_map",
    "array2d_copy_is_a_map",
    "array2d_from_values"
   ],
   "note": "C01 within the range where it is true."
  },
  {
   "property": "C134",
   "status": "proved",
   "theorems": [
    "array2d_side_least_pow2"
   ],
   "note": "C02 within its range."
  },
  {
   "property": "C135",
   "status": "proved",
   "theorems": [
    "bmp_read_safe"
   ],
   "note": "C04 within its range."
  },
  {
   "property": "C136",
   "status": "proved",
   "theorems": [
    "bmp_conformant_even_width",
    "bmp_read_conformant_even_width"
   ],
   "note": "C05 within its range."
  },
  {
   "property": "C137",
   "status": "proved",
   "theorems": [
    "tga_round_trip"
   ],
   "note": "C06 within its range."
  },
  {
   "property": "C138",
   "status": "proved",
   "theorems": [
    "tga_read_safe",
    "tga_read_determined",
    "tga_read_invalid"
   ],
   "note": "C07 within its range."
  },
  {
   "property": "C139",
   "status": "proved",
   "theorems": [
    "tga_rle_decode",
    "tga_rle_truncated",
    "tga_raw_decode"
   ],
   "note": "C08 within its range."
  },
  {
   "property": "C140",
   "status": "proved",
   "theorems": [
    "file_resolved",
    "file_append_resolved"
   ],
   "note": "C11 within its range."
  },
  {
   "property": "C141",
   "status": "proved",
   "theorems": [
    "file_names",
    "file_root_names",
    "file_ancestors",
    "file_parent_root"
   ],
   "note": "C12 within its range; the name of an ancestor is right when it has at least two components."
  },
  {
   "property": "C142",
   "status": "proved",
   "theorems": [
    "kdnode_leaf_lossless",
    "kdnode_interior_lossless"
   ],
   "note": "C13 within its range."
  },
  {
   "property": "C143",
   "status": "proved",
   "theorems": [
    "kd_add_within_capacity"
   ],
   "note": "C16 within its range."
  },
  {
   "property": "C144",
   "status": "proved",
   "theorems": [
    "render_film_exact",
    "render_film_no_overcount"
   ],
   "note": "C25 within its range."
  },
  {
   "property": "C145",
   "status": "proved",
   "theorems": [
    "film_update_inside",
    "film_update_covers"
   ],
   "note": "C26 within its range."
  },
  {
   "property": "C146",
   "status": "proved",
   "theorems": [
    "random_sampler_order",
    "tile_order_bijective"
   ],
   "note": "C28 for the random sampler."
  },
  {
   "property": "C147",
   "status": "proved",
   "theorems": [
    "stratified_sampler_order",
    "tile_order_bijective"
   ],
   "note": "C28 for the stratified sampler."
  },
  {
   "property": "C148",
   "status": "proved",
   "theorems": [
    "scene_consistent"
   ],
   "note": "C30 within its range."
  },
  {
   "property": "C149",
   "status": "proved",
   "theorems": [
    "obj_terminates"
   ],
   "note": "C34 within its range."
  },
  {
   "property": "C150",
   "status": "proved",
   "theorems": [
    "obj_compaction"
   ],
   "note": "C36 within its range."
  },
  {
   "property": "C151",
   "status": "proved",
   "theorems": [
    "mesh_adds_in_order"
   ],
   "note": "C37 within its range."
  },
  {
   "property": "C152",
   "status": "proved",
   "theorems": [
    "resolution_checked",
    "resolution_safe",
    "spp_checked",
    "spp_nearest_square",
    "spp_square_kept",
    "spp_strata_exact",
    "spp_random_kept"
   ],
   "note": "C39 within its range."
  },
  {
   "property": "C153",
   "status": "proved",
   "theorems": [
    "tri_hit_sound",
    "tri_hit_complete"
   ],
   "note": "C42 within its range."
  },
  {
   "property": "C154",
   "status": "proved",
   "theorems": [
    "engulf_points_smallest",
    "engulf_boxes_smallest",
    "engulf_order_independent",
    "slab_never_misses",
    "transformed_box_contains",
    "sphere_box_contains",
    "tri_box_contains",
    "inside_contains"
   ],
   "note": "C44 for the overload used by the accelerators."
  },
  {
   "property": "C155",
   "status": "proved",
   "theorems": [
    "ppm_binary_decode",
    "ppm_ascii_decode"
   ],
   "note": "C53 within its range."
  },
  {
   "property": "C156",
   "status": "proved",
   "theorems": [
    "bvh_intersect_closest_small",
    "bvh_answer_geometric"
   ],
   "note": "C19 within the stack."
  },
  {
   "property": "C157",
   "status": "proved",
   "theorems": [
    "layers_kept"
   ],
   "note": "C71 within its range."
  },
  {
   "property": "C158",
   "status": "proved",
   "theorems": [
    "swap32_reverses_bytes",
    "swap32_involutive",
    "swap16_reverses_bytes",
    "big32_is_swap"
   ],
   "note": "C51 without the 16 bit macro."
  },
  {
   "property": "C159",
   "status": "proved",
   "theorems": [
    "tex_library_is_a_map"
   ],
   "note": "C54 for textures."
  },
  {
   "property": "C160",
   "status": "proved",
   "theorems": [
    "tent_weights"
   ],
   "note": "The four pixels a sample lies between get 4 in total."
  },
  {
   "property": "C161",
   "status": "proved",
   "theorems": [
    "gauss_weights"
   ],
   "note": ""
  },
  {
   "property": "C162",
   "status": "partial",
   "theorems": [
    "gauss_centre_refuted",
    "mitchell_range_refuted",
    "tent_weights",
    "lanczos_weights"
   ],
   "note": "False of the gaussian filter and of Mitchell with b > 0; true of tent and Lanczos."
  },
  {
   "property": "C163",
   "status": "proved",
   "theorems": [
    "mitchell_weights"
   ],
   "note": ""
  },
  {
   "property": "C164",
   "status": "proved",
   "theorems": [
    "lanczos_weights"
   ],
   "note": ""
  },
  {
   "property": "C165",
   "status": "partial",
   "theorems": [
    "mitchell_range_refuted",
    "lanczos_range_refuted",
    "tent_weights",
    "gauss_weights"
   ],
   "note": "False of Mitchell with c > 0 and of Lanczos with tau > 1; true of tent and gaussian."
  },
  {
   "property": "C166",
   "status": "partial",
   "theorems": [
    "film_update_symmetric_refuted"
   ],
   "note": "False for every sample with pixels in the last unit of the range: the left one gets it, the right one does not."
  },
  {
   "property": "C167",
   "status": "proved",
   "theorems": [
    "differentials_reach"
   ],
   "note": ""
  },
  {
   "property": "C168",
   "status": "proved",
   "theorems": [
    "differentials_found"
   ],
   "note": ""
  },
  {
   "property": "C169",
   "status": "partial",
   "theorems": [
    "differentials_length_refuted",
    "differentials_reach"
   ],
   "note": "The tangents are normalised first, so the derivatives come out times the tangents' lengths."
  },
  {
   "property": "C170",
   "status": "proved",
   "theorems": [
    "height_tilt"
   ],
   "note": ""
  },
  {
   "property": "C171",
   "status": "proved",
   "theorems": [
    "height_flat"
   ],
   "note": ""
  },
  {
   "property": "C172",
   "status": "proved",
   "theorems": [
    "normal_map_frame"
   ],
   "note": ""
  },
  {
   "property": "C173",
   "status": "partial",
   "theorems": [
    "normal_map_mirrored_refuted",
    "normal_map_upright"
   ],
   "note": "False wherever u x v is against the normal; true where it is along it."
  },
  {
   "property": "C174",
   "status": "proved",
   "theorems": [
    "normal_map_upright"
   ],
   "note": ""
  },
  {
   "property": "C175",
   "status": "proved",
   "theorems": [
    "single_flags"
   ],
   "note": ""
  },
  {
   "property": "C176",
   "status": "proved",
   "theorems": [
    "declarations_collected"
   ],
   "note": "Statements stand for the text; the scanner and the grammar are not modelled."
  },
  {
   "property": "C177",
   "status": "proved",
   "theorems": [
    "settings_of_main"
   ],
   "note": ""
  },
  {
   "property": "C178",
   "status": "partial",
   "theorems": [
    "children_settings_refuted",
    "settings_of_main"
   ],
   "note": "False: the renderer is built before the children are read."
  },
  {
   "property": "C179",
   "status": "proved",
   "theorems": [
    "child_paths"
   ],
   "note": ""
  },
  {
   "property": "C180",
   "status": "partial",
   "theorems": [
    "child_paths_refuted",
    "child_paths"
   ],
   "note": "False for every relative child after the first: File::append changes current_dir."
  },
  {
   "property": "C181",
   "status": "proved",
   "theorems": [
    "deferred_paths"
   ],
   "note": ""
  },
  {
   "property": "C182",
   "status": "partial",
   "theorems": [
    "deferred_paths_refuted",
    "deferred_paths"
   ],
   "note": "False as soon as one child is given by a relative path."
  },
  {
   "property": "C183",
   "status": "proved",
   "theorems": [
    "parse_defined"
   ],
   "note": ""
  },
  {
   "property": "C184",
   "status": "proved",
   "theorems": [
    "texture_statement"
   ],
   "note": ""
  },
  {
   "property": "C185",
   "status": "proved",
   "theorems": [
    "texture_plain_name"
   ],
   "note": ""
  },
  {
   "property": "C186",
   "status": "partial",
   "theorems": [
    "texture_path_refuted",
    "texture_name_refuted",
    "texture_plain_name"
   ],
   "note": "False for paths with directories: the library is searched by file name. True for plain names."
  },
  {
   "property": "C187",
   "status": "proved",
   "theorems": [
    "mask_disabled"
   ],
   "note": ""
  },
  {
   "property": "C188",
   "status": "partial",
   "theorems": [
    "mask_missing_refuted",
    "mask_disabled"
   ],
   "note": "False for inverted masks."
  },
  {
   "property": "C189",
   "status": "proved",
   "theorems": [
    "material_keys"
   ],
   "note": "An uniform colour takes precedence over a texture name, whatever their order: both are kept."
  },
  {
   "property": "C190",
   "status": "proved",
   "theorems": [
    "material_layers",
    "documented_dist_unique"
   ],
   "note": ""
  },
  {
   "property": "C191",
   "status": "proved",
   "theorems": [
    "material_valid"
   ],
   "note": ""
  },
  {
   "property": "C192",
   "status": "partial",
   "theorems": [
    "material_isotropic_refuted",
    "material_layers"
   ],
   "note": "False above 1; true in the documented range."
  },
  {
   "property": "C193",
   "status": "proved",
   "theorems": [
    "materials_built"
   ],
   "note": ""
  },
  {
   "property": "C194",
   "status": "proved",
   "theorems": [
    "dual_components"
   ],
   "note": ""
  },
  {
   "property": "C195",
   "status": "partial",
   "theorems": [
    "dual_forward_refuted",
    "dual_components"
   ],
   "note": "False: dual materials are resolved in order."
  },
  {
   "property": "C196",
   "status": "proved",
   "theorems": [
    "meshes_owned_once"
   ],
   "note": ""
  },
  {
   "property": "C197",
   "status": "proved",
   "theorems": [
    "objects_alive"
   ],
   "note": ""
  },
  {
   "property": "C198",
   "status": "proved",
   "theorems": [
    "meshes_kept"
   ],
   "note": ""
  },
  {
   "property": "C199",
   "status": "proved",
   "theorems": [
    "objects_placed"
   ],
   "note": ""
  },
  {
   "property": "C200",
   "status": "partial",
   "theorems": [
    "arrays_leaked_refuted",
    "arrays_balanced"
   ],
   "note": "False: those of duplicate meshes and of spheres are not freed; the exact balance is proved."
  },
  {
   "property": "C201",
   "status": "proved",
   "theorems": [
    "error_underlines_token"
   ],
   "note": ""
  },
  {
   "property": "C202",
   "status": "partial",
   "theorems": [
    "error_long_token_refuted"
   ],
   "note": "False as stated; the refuted theorems say where, the others prove the claim elsewhere. Refuted: the index of the first tilde wraps below zero."
  },
  {
   "property": "C203",
   "status": "partial",
   "theorems": [
    "error_last_line_refuted"
   ],
   "note": "False as stated; the refuted theorems say where, the others prove the claim elsewhere. Refuted: buf is not initialised and fread does not terminate it."
  },
  {
   "property": "C204",
   "status": "proved",
   "theorems": [
    "error_not_shown"
   ],
   "note": ""
  },
  {
   "property": "C205",
   "status": "proved",
   "theorems": [
    "error_main_file"
   ],
   "note": ""
  },
  {
   "property": "C206",
   "status": "partial",
   "theorems": [
    "error_child_line_refuted"
   ],
   "note": "False as stated; the refuted theorems say where, the others prove the claim elsewhere. Refuted: loc is never reset between files."
  },
  {
   "property": "C207",
   "status": "partial",
   "theorems": [
    "error_after_long_text_refuted"
   ],
   "note": "False as stated; the refuted theorems say where, the others prove the claim elsewhere. Refuted: only newlines outside tokens are counted."
  },
  {
   "property": "C208",
   "status": "partial",
   "theorems": [
    "error_child_column_refuted"
   ],
   "note": "False as stated; the refuted theorems say where, the others prove the claim elsewhere. Refuted: the column of the main file's last line stays."
  },
  {
   "property": "C209",
   "status": "proved",
   "theorems": [
    "ewa_level_within"
   ],
   "note": ""
  },
  {
   "property": "C210",
   "status": "partial",
   "theorems": [
    "ewa_rows_refuted",
    "ewa_level_within"
   ],
   "note": "False: a product in place of a sum makes the vertical coefficient 1 for footprints along the axes."
  },
  {
   "property": "C211",
   "status": "partial",
   "theorems": [
    "ewa_seam_refuted",
    "ewa_level_within"
   ],
   "note": "False: the distance is taken after wrapping, so wrapped texels are outside of the ellipse."
  },
  {
   "property": "C212",
   "status": "partial",
   "theorems": [
    "ewa_diagonal_level_refuted",
    "ewa_diagonal_refuted",
    "ewa_filter_safe"
   ],
   "note": "False: the determinant is negative, no texel is inside, 0/0 is converted to a byte."
  },
  {
   "property": "C213",
   "status": "partial",
   "theorems": [
    "ewa_wide_refuted",
    "ewa_filter_safe"
   ],
   "note": "False: the wrapped index is negative."
  },
  {
   "property": "C214",
   "status": "partial",
   "theorems": [
    "ewa_last_level_refuted",
    "ewa_filter_safe"
   ],
   "note": "False: the level after the last one is read."
  },
  {
   "property": "C215",
   "status": "proved",
   "theorems": [
    "ewa_filter_safe"
   ],
   "note": ""
  },
  {
   "property": "C216",
   "status": "partial",
   "theorems": [
    "ewa_streak_refuted"
   ],
   "note": "False: bilinear at full resolution is used."
  },
  {
   "property": "C217",
   "status": "proved",
   "theorems": [
    "blackbody_normalised"
   ],
   "note": ""
  },
  {
   "property": "C218",
   "status": "partial",
   "theorems": [
    "planck_refuted",
    "planck_warm"
   ],
   "note": "False at every temperature: +1 in place of -1 in the denominator."
  },
  {
   "property": "C219",
   "status": "proved",
   "theorems": [
    "planck_warm"
   ],
   "note": ""
  },
  {
   "property": "C220",
   "status": "proved",
   "theorems": [
    "hotter_is_bluer"
   ],
   "note": ""
  },
  {
   "property": "C221",
   "status": "proved",
   "theorems": [
    "temperature_same_colour"
   ],
   "note": ""
  },
  {
   "property": "C222",
   "status": "proved",
   "theorems": [
    "colour_is_linear",
    "luminance_is_y"
   ],
   "note": ""
  },
  {
   "property": "C223",
   "status": "proved",
   "theorems": [
    "srgb_round_trip"
   ],
   "note": "Over the reals with the constants of the source; rounding of floats is left out."
  },
  {
   "property": "C224",
   "status": "proved",
   "theorems": [
    "srgb_byte_monotone",
    "srgb_encode_dip"
   ],
   "note": "The function before truncation to bytes is not monotone."
  },
  {
   "property": "C225",
   "status": "partial",
   "theorems": [
    "white_wall_gain_refuted",
    "spectral_surface_safe"
   ],
   "note": "False: the third component grows by 1.08883 at each reflection."
  },
  {
   "property": "C226",
   "status": "partial",
   "theorems": [
    "white_wall_tint_refuted"
   ],
   "note": "False: red is behind by a fifth of full intensity."
  },
  {
   "property": "C227",
   "status": "proved",
   "theorems": [
    "spectral_surface_safe"
   ],
   "note": ""
  },
  {
   "property": "C228",
   "status": "proved",
   "theorems": [
    "rgb_mixture"
   ],
   "note": ""
  },
  {
   "property": "C229",
   "status": "partial",
   "theorems": [
    "samples_colour_refuted"
   ],
   "note": "False: short wavelengths are averaged into X, long ones into Z; gold is cyan (gold_is_cyan)."
  },
  {
   "property": "C230",
   "status": "proved",
   "theorems": [
    "same_index",
    "air_index"
   ],
   "note": ""
  },
  {
   "property": "C231",
   "status": "partial",
   "theorems": [
    "dispersion_refuted"
   ],
   "note": "False: only the mean index is kept."
  },
  {
   "property": "C232",
   "status": "proved",
   "theorems": [
    "png_round_trip",
    "tiff_round_trip"
   ],
   "note": "The libraries are abstract stores of rasters."
  },
  {
   "property": "C233",
   "status": "proved",
   "theorems": [
    "png_decoded",
    "jpg_decoded",
    "tiff_decoded"
   ],
   "note": "The libraries are abstract stores of rasters."
  },
  {
   "property": "C234",
   "status": "partial",
   "theorems": [
    "grey_jpeg_refuted"
   ],
   "note": "False for every greyscale jpeg file: three samples are read for each pixel."
  },
  {
   "property": "C235",
   "status": "partial",
   "theorems": [
    "cmyk_jpeg_refuted"
   ],
   "note": "False: the red of the second pixel is the black of the first (cmyk_jpeg_ex)."
  },
  {
   "property": "C236",
   "status": "proved",
   "theorems": [
    "extensions_agree"
   ],
   "note": ""
  },
  {
   "property": "C237",
   "status": "partial",
   "theorems": [
    "tiff_without_jpeg_refuted"
   ],
   "note": "False: img_dimensions asks for JPEG_FOUND, and the texture uses sides that were not set."
  },
  {
   "property": "C238",
   "status": "partial",
   "theorems": [
    "grey_tiff_refuted"
   ],
   "note": "False: tiff_read refuses the file, its answer is ignored and the texture is uninitialised memory."
  },
  {
   "property": "C239",
   "status": "proved",
   "theorems": [
    "texture_has_file_pixels"
   ],
   "note": ""
  },
  {
   "property": "C240",
   "status": "proved",
   "theorems": [
    "layout_scanned"
   ],
   "note": "layout and written are in ScanSpec.v; flex's longest match with ties to the first rule is modelled rule by rule. The text has no NUL. Strings must not end in a backslash (C244)."
  },
  {
   "property": "C241",
   "status": "proved",
   "theorems": [
    "numbers_read"
   ],
   "note": "The value is an exact rational: the rounding of atof and the conversion to float are not modelled."
  },
  {
   "property": "C242",
   "status": "partial",
   "theorems": [
    "integer_overflow_refuted"
   ],
   "note": "False: for every integer literal outside int, after any well-formed prefix, atoi has undefined behaviour (the comment in the scanner says that lex ensures no errors)."
  },
  {
   "property": "C243",
   "status": "proved",
   "theorems": [
    "scan_defined"
   ],
   "note": "scan returns, and UB only comes from an integer literal outside int."
  },
  {
   "property": "C244",
   "status": "partial",
   "theorems": [
    "backslash_refuted"
   ],
   "note": "False: after a backslash the closing quote is taken as part of the string, which goes on to the next quote of the file; without one the file is refused. layout_scanned proves the rest: strings that do not end in a backslash end at their quote."
  },
  {
   "property": "C245",
   "status": "partial",
   "theorems": [
    "readme_float_refuted"
   ],
   "note": "False: E10 is refused as an unknown character wherever it stands."
  },
  {
   "property": "C246",
   "status": "proved",
   "theorems": [
    "documents_parsed",
    "documents_unambiguous"
   ],
   "note": "document is in GramSpec.v. The LALR automaton that bison generates is not modelled: recursive descent with one token of lookahead stands for it."
  },
  {
   "property": "C247",
   "status": "proved",
   "theorems": [
    "config_read",
    "config_read_only"
   ],
   "note": "Scanner and parser together; the whole text is scanned before it is parsed, so of two errors the model may report the later one."
  },
  {
   "property": "C248",
   "status": "partial",
   "theorems": [
    "readme_integrator_refuted"
   ],
   "note": "False: `pt` is scanned as platinum, so every such file is refused; the keyword is `path`. readme_example runs the file of README.md both ways."
  },
  {
   "property": "C249",
   "status": "partial",
   "theorems": [
    "name_first_refuted"
   ],
   "note": "False: a world or light object whose first key is not `name` is refused, whatever follows; even a comma before the name. documents_parsed proves the free order of the others."
  },
  {
   "property": "C250",
   "status": "proved",
   "theorems": [
    "tri_tangents"
   ],
   "note": "Exact rational arithmetic; tri_tangents_ex also shows that the coordinates parser_obj makes up for faces without vt are unfolded."
  },
  {
   "property": "C251",
   "status": "partial",
   "theorems": [
    "tri_folded_refuted"
   ],
   "note": "False: with texture coordinates on one line no component of dpdu or dpdv is finite (triangle.cpp:68 divides by zero). tri_tangents is the claim for the others."
  },
  {
   "property": "C252",
   "status": "partial",
   "theorems": [
    "tri_mask_stale_refuted"
   ],
   "note": "False: triangle.cpp:103 copies du from the record the caller passes, which camera rays fill only after the hit; two records that differ in it give different answers for some mask."
  },
  {
   "property": "C253",
   "status": "partial",
   "theorems": [
    "tri_mask_dv_refuted"
   ],
   "note": "False: triangle.cpp:104 stores du in dv, so a mask that accepts only the true dv rejects every hit."
  },
  {
   "property": "C254",
   "status": "proved",
   "theorems": [
    "face_area_world",
    "face_area_local"
   ],
   "note": "Real numbers; the area is Heron's formula on the world corners."
  },
  {
   "property": "C255",
   "status": "proved",
   "theorems": [
    "faces_area_world"
   ],
   "note": "Real numbers, exact sums."
  },
  {
   "property": "C256",
   "status": "proved",
   "theorems": [
    "face_sample_in",
    "face_sample_onto"
   ],
   "note": "Real numbers; r0 below zero is treated as zero, as in the code."
  },
  {
   "property": "C257",
   "status": "proved",
   "theorems": [
    "face_sample_uniform"
   ],
   "note": "Real numbers; area_element is the length of the cross product of the partial derivatives."
  },
  {
   "property": "C258",
   "status": "proved",
   "theorems": [
    "face_sample_normal"
   ],
   "note": "Real numbers; the tolerance is that of normalize()."
  },
  {
   "property": "C259",
   "status": "proved",
   "theorems": [
    "bar_honest"
   ],
   "note": "Exact arithmetic; the listener sees the size of the queue between two steps (in C++ its unlocked read is a data race). bar_ex: one of three tiles taken."
  },
  {
   "property": "C260",
   "status": "partial",
   "theorems": [
    "bar_start_refuted"
   ],
   "note": "False: until the first tile is taken jobs_no-remaining is zero and an infinity or NaN is converted to time_t; the listener starts before the workers (bar_start_ex)."
  },
  {
   "property": "C261",
   "status": "proved",
   "theorems": [
    "bar_forward"
   ],
   "note": "Exact arithmetic."
  },
  {
   "property": "C262",
   "status": "proved",
   "theorems": [
    "rebuild_same_small"
   ],
   "note": "The kd-tree object over time, KdAgainModel; first_build ties its first build to the other kd-tree theorems."
  },
  {
   "property": "C263",
   "status": "partial",
   "theorems": [
    "rebuild_added_refuted"
   ],
   "note": "False: nodes_index is not reset, so rays start at the root of the first build; with at most three assets in it, rays of the second see at most as many assets as before, and with three in total exactly the old ones."
  },
  {
   "property": "C264",
   "status": "partial",
   "theorems": [
    "rebuild_same_refuted"
   ],
   "note": "False: the second build lists duplicated assets again and moves the ranges the first nodes refer to; the scene `shelf` loses a box. rebuild_same_small is the claim for scenes of one leaf."
  },
  {
   "property": "C265",
   "status": "proved",
   "theorems": [
    "sphere_uv_names"
   ],
   "note": "compute_uvs over the reals, SphUvModel; the map of the texture is `globe` in SphUvSpec."
  },
  {
   "property": "C266",
   "status": "proved",
   "theorems": [
    "sphere_uv_every"
   ],
   "note": "Together with sphere_uv_names a bijection between the open texture and the sphere without its poles."
  },
  {
   "property": "C267",
   "status": "proved",
   "theorems": [
    "sphere_tangents"
   ],
   "note": "Derivatives in the sense of the standard library."
  },
  {
   "property": "C268",
   "status": "proved",
   "theorems": [
    "sphere_hit_frame"
   ],
   "note": "For hits whose normal is on the sphere; grazing misses that count as hits (sphere_graze_refuted) are excluded."
  },
  {
   "property": "C269",
   "status": "proved",
   "theorems": [
    "box_measures_grow"
   ],
   "note": ""
  },
  {
   "property": "C270",
   "status": "proved",
   "theorems": [
    "box_center_mirror",
    "box_longest_axis"
   ],
   "note": ""
  },
  {
   "property": "C271",
   "status": "proved",
   "theorems": [
    "box_order_consistent"
   ],
   "note": ""
  },
  {
   "property": "C272",
   "status": "partial",
   "theorems": [
    "box_equal_refuted"
   ],
   "note": "False: == compares surfaces, so a box equals its copy next to it; the default (empty) box has infinite surface and is larger than every finite box. box_order_consistent is what holds."
  },
  {
   "property": "C273",
   "status": "proved",
   "theorems": [
    "vec_in_place"
   ],
   "note": "Assignments to memory cells, AliasModel."
  },
  {
   "property": "C274",
   "status": "proved",
   "theorems": [
    "into_other",
    "mat_in_place"
   ],
   "note": ""
  },
  {
   "property": "C275",
   "status": "partial",
   "theorems": [
    "cross_alias_refuted"
   ],
   "note": "False: the components written first are read again. into_other is the claim for separate objects."
  },
  {
   "property": "C276",
   "status": "partial",
   "theorems": [
    "transpose_alias_refuted"
   ],
   "note": "False: the lower triangle is copied over the upper one; right only for symmetric matrices."
  },
  {
   "property": "C277",
   "status": "proved",
   "theorems": [
    "transpose_into_other"
   ],
   "note": ""
  },
  {
   "property": "C278",
   "status": "proved",
   "theorems": [
    "vec_eq_tolerance"
   ],
   "note": ""
  },
  {
   "property": "C279",
   "status": "partial",
   "theorems": [
    "vec_eq_refuted"
   ],
   "note": "False: not transitive, all vectors with components up to 2^-24 are equal, and vectors with infinities or NaN are neither == nor != themselves."
  },
  {
   "property": "C280",
   "status": "proved",
   "theorems": [
    "ggx_masking_range"
   ],
   "note": ""
  },
  {
   "property": "C281",
   "status": "partial",
   "theorems": [
    "ggx_masking_refuted"
   ],
   "note": "False: the sine is computed from the fourth power of the cosine, the term is too small in every direction other than the normal."
  },
  {
   "property": "C282",
   "status": "proved",
   "theorems": [
    "approximate_masking"
   ],
   "note": ""
  },
  {
   "property": "C283",
   "status": "partial",
   "theorems": [
    "approximate_masking_refuted"
   ],
   "note": "False for every exponent and roughness: the rational approximation exceeds one just below its cut at 1.6."
  },
  {
   "property": "C284",
   "status": "proved",
   "theorems": [
    "aniso_normals"
   ],
   "note": ""
  },
  {
   "property": "C285",
   "status": "partial",
   "theorems": [
    "aniso_normals_refuted"
   ],
   "note": "False unless pi ax ay = 1: at the normal the density is 1."
  },
  {
   "property": "C286",
   "status": "proved",
   "theorems": [
    "aniso_masking",
    "aniso_reciprocal"
   ],
   "note": ""
  },
  {
   "property": "C287",
   "status": "partial",
   "theorems": [
    "aniso_masking_refuted"
   ],
   "note": "False: the auxiliary function is 1 instead of 0 along the normal, the term is 1/3 there."
  },
  {
   "property": "C288",
   "status": "proved",
   "theorems": [
    "aniso_sampling"
   ],
   "note": ""
  },
  {
   "property": "C289",
   "status": "proved",
   "theorems": [
    "folder_created"
   ],
   "note": ""
  },
  {
   "property": "C290",
   "status": "proved",
   "theorems": [
    "folders_created"
   ],
   "note": ""
  },
  {
   "property": "C291",
   "status": "proved",
   "theorems": [
    "kind_fresh"
   ],
   "note": ""
  },
  {
   "property": "C292",
   "status": "partial",
   "theorems": [
    "kind_stale_refuted"
   ],
   "note": "False: the result of stat is that of the time the object was made; true of new objects (C291)."
  },
  {
   "property": "C293",
   "status": "partial",
   "theorems": [
    "parent_kind_refuted"
   ],
   "note": "False: the parent keeps the result of stat of the file."
  },
  {
   "property": "C294",
   "status": "proved",
   "theorems": [
    "listing_exact"
   ],
   "note": ""
  },
  {
   "property": "C295",
   "status": "partial",
   "theorems": [
    "listing_backslash_refuted"
   ],
   "note": "False: a backslash in a name is taken for a separator."
  },
  {
   "property": "C296",
   "status": "proved",
   "theorems": [
    "film_output_chosen"
   ],
   "note": ""
  },
  {
   "property": "C297",
   "status": "partial",
   "theorems": [
    "film_accepts_unwritable_refuted"
   ],
   "note": "False: whether the parent is a folder and whether an existing output can be written to is not checked."
  },
  {
   "property": "C298",
   "status": "partial",
   "theorems": [
    "film_trailing_separator_refuted"
   ],
   "note": "False of paths that end with a separator and name nothing."
  },
  {
   "property": "C299",
   "status": "proved",
   "theorems": [
    "rough_reflection_density"
   ],
   "note": ""
  },
  {
   "property": "C300",
   "status": "partial",
   "theorems": [
    "rough_transmission_density_refuted"
   ],
   "note": "False: the Jacobian has the index and cosine of the wrong side; the ratio to the true density is given."
  },
  {
   "property": "C301",
   "status": "proved",
   "theorems": [
    "rough_transmission_value",
    "rough_transmission_reciprocal"
   ],
   "note": ""
  },
  {
   "property": "C302",
   "status": "proved",
   "theorems": [
    "rough_transmission_nonnegative"
   ],
   "note": ""
  },
  {
   "property": "C303",
   "status": "partial",
   "theorems": [
    "impossible_refraction_refuted"
   ],
   "note": "False: whether the directions are on different sides of the microfacet is not checked."
  },
  {
   "property": "C304",
   "status": "proved",
   "theorems": [
    "height_steps"
   ],
   "note": ""
  },
  {
   "property": "C305",
   "status": "proved",
   "theorems": [
    "mask_as_written"
   ],
   "note": ""
  },
  {
   "property": "C306",
   "status": "proved",
   "theorems": [
    "dual_as_written"
   ],
   "note": ""
  },
  {
   "property": "C307",
   "status": "proved",
   "theorems": [
    "sellmeier_index"
   ],
   "note": ""
  },
  {
   "property": "C308",
   "status": "proved",
   "theorems": [
    "float_random_positions"
   ],
   "note": ""
  },
  {
   "property": "C309",
   "status": "partial",
   "theorems": [
    "float_next_pixel_refuted"
   ],
   "note": "False: for every pixel from 2 on the random number 1-2^-24 puts the sample on the next pixel."
  },
  {
   "property": "C310",
   "status": "proved",
   "theorems": [
    "float_stratified_positions"
   ],
   "note": ""
  },
  {
   "property": "C311",
   "status": "proved",
   "theorems": [
    "float_strata"
   ],
   "note": ""
  },
  {
   "property": "C312",
   "status": "proved",
   "theorems": [
    "float_film_reach"
   ],
   "note": ""
  },
  {
   "property": "C313",
   "status": "proved",
   "theorems": [
    "float_byte"
   ],
   "note": ""
  },
  {
   "property": "C314",
   "status": "partial",
   "theorems": [
    "float_undefined_sample_refuted"
   ],
   "note": "False: one NaN channel makes the pixel white whatever its other samples are."
  },
  {
   "property": "C315",
   "status": "proved",
   "theorems": [
    "float_weight_counts"
   ],
   "note": ""
  },
  {
   "property": "C316",
   "status": "proved",
   "theorems": [
    "float_light"
   ],
   "note": ""
  },
  {
   "property": "C317",
   "status": "proved",
   "theorems": [
    "float_densities_sorted"
   ],
   "note": ""
  },
  {
   "property": "C318",
   "status": "proved",
   "theorems": [
    "float_face_found"
   ],
   "note": ""
  },
  {
   "property": "C319",
   "status": "partial",
   "theorems": [
    "float_face_hangs_refuted"
   ],
   "note": "False: the area of a small last face is lost in the sum and the random number 1 makes the search run forever."
  },
  {
   "property": "C320",
   "status": "proved",
   "theorems": [
    "float_normalize"
   ],
   "note": ""
  },
  {
   "property": "C321",
   "status": "proved",
   "theorems": [
    "float_normalize_twice"
   ],
   "note": ""
  },
  {
   "property": "C322",
   "status": "partial",
   "theorems": [
    "float_normalize_short_refuted"
   ],
   "note": "False: the squared length underflows to 0 and the result is infinite or NaN."
  },
  {
   "property": "C323",
   "status": "partial",
   "theorems": [
    "float_normalize_long_refuted"
   ],
   "note": "False: the squared length overflows and the result is the zero vector."
  },
  {
   "property": "C324",
   "status": "proved",
   "theorems": [
    "float_random_number"
   ],
   "note": ""
  },
  {
   "property": "C325",
   "status": "proved",
   "theorems": [
    "float_box_nested"
   ],
   "note": "Excluded: rays that run in the plane of a face, where the code computes 0 times infinity."
  },
  {
   "property": "C326",
   "status": "proved",
   "theorems": [
    "float_box_inside"
   ],
   "note": ""
  },
  {
   "property": "C327",
   "status": "proved",
   "theorems": [
    "float_kd_complete"
   ],
   "note": ""
  },
  {
   "property": "C328",
   "status": "proved",
   "theorems": [
    "float_kd_scene"
   ],
   "note": "The sums of the cost function are a parameter; comparisons of the construction are exact in single precision."
  },
  {
   "property": "C329",
   "status": "proved",
   "theorems": [
    "float_bvh_complete"
   ],
   "note": ""
  },
  {
   "property": "C330",
   "status": "proved",
   "theorems": [
    "float_box_margin"
   ],
   "note": ""
  },
  {
   "property": "C331",
   "status": "partial",
   "theorems": [
    "float_box_miss_refuted"
   ],
   "note": "False: without a margin the rounded distances of two faces can change their order."
  },
  {
   "property": "C332",
   "status": "partial",
   "theorems": [
    "float_crack_refuted"
   ],
   "note": "False: the two triangles round the barycentric coordinates of the edge differently."
  },
  {
   "property": "C333",
   "status": "proved",
   "theorems": [
    "float_kd_margin"
   ],
   "note": ""
  },
  {
   "property": "C334",
   "status": "partial",
   "theorems": [
    "float_sphere_far_refuted"
   ],
   "note": "False: from 2^14 radii on the squared radius is lost, the hit is the centre of the sphere and its normal is NaN."
  },
  {
   "property": "C335",
   "status": "proved",
   "theorems": [
    "float_occlusion"
   ],
   "note": ""
  },
  {
   "property": "C336",
   "status": "partial",
   "theorems": [
    "float_occlusion_far_refuted"
   ],
   "note": "False: from 32768 on the tolerance is lost in the sum, and a neighbouring number hides."
  },
  {
   "property": "C337",
   "status": "proved",
   "theorems": [
    "float_box_transform"
   ],
   "note": ""
  },
  {
   "property": "C338",
   "status": "proved",
   "theorems": [
    "float_mesh_box"
   ],
   "note": ""
  },
  {
   "property": "C339",
   "status": "proved",
   "theorems": [
    "float_sphere_box"
   ],
   "note": ""
  },
  {
   "property": "C340",
   "status": "proved",
   "theorems": [
    "float_box_image"
   ],
   "note": ""
  },
  {
   "property": "C341",
   "status": "partial",
   "theorems": [
    "float_box_far_refuted"
   ],
   "note": "False: from 2^26 on the radius is lost in the sum and the box of a unit sphere is flat; the error is bounded by C340."
  },
  {
   "property": "C342",
   "status": "proved",
   "theorems": [
    "float_film_mean"
   ],
   "note": ""
  },
  {
   "property": "C343",
   "status": "proved",
   "theorems": [
    "float_film_order"
   ],
   "note": ""
  },
  {
   "property": "C344",
   "status": "partial",
   "theorems": [
    "float_film_order_refuted"
   ],
   "note": "False: 1, 2^-24, 2^-24 and 2^-24, 2^-24, 1 give different means; the difference is bounded by C343."
  },
  {
   "property": "C345",
   "status": "proved",
   "theorems": [
    "masking_of_two"
   ],
   "note": ""
  },
  {
   "property": "C346",
   "status": "proved",
   "theorems": [
    "float_equation2_finds"
   ],
   "note": ""
  },
  {
   "property": "C347",
   "status": "proved",
   "theorems": [
    "float_equation2_roots"
   ],
   "note": ""
  },
  {
   "property": "C348",
   "status": "proved",
   "theorems": [
    "float_sphere_on"
   ],
   "note": ""
  },
  {
   "property": "C349",
   "status": "proved",
   "theorems": [
    "float_sphere_miss"
   ],
   "note": ""
  },
  {
   "property": "C350",
   "status": "proved",
   "theorems": [
    "float_sphere_hit"
   ],
   "note": ""
  },
  {
   "property": "C351",
   "status": "proved",
   "theorems": [
    "float_sphere_first"
   ],
   "note": ""
  },
  {
   "property": "C352",
   "status": "proved",
   "theorems": [
    "float_ray_image"
   ],
   "note": ""
  },
  {
   "property": "C353",
   "status": "proved",
   "theorems": [
    "float_ray_moved"
   ],
   "note": ""
  },
  {
   "property": "C354",
   "status": "proved",
   "theorems": [
    "float_triangle_on"
   ],
   "note": ""
  },
  {
   "property": "C355",
   "status": "proved",
   "theorems": [
    "float_triangle_hit"
   ],
   "note": ""
  },
  {
   "property": "C356",
   "status": "proved",
   "theorems": [
    "float_triangle_miss"
   ],
   "note": ""
  },
  {
   "property": "C357",
   "status": "partial",
   "theorems": [
    "float_triangle_number_refuted"
   ],
   "note": "False: a triangle with edges of 2^-70 whose first vertex is the origin of the ray is hit at distance NaN, because the reciprocal of the volume is infinite and infinity times zero passes every comparison. float_triangle_on proves it for volumes of at least 2^-60."
  },
  {
   "property": "C358",
   "status": "proved",
   "theorems": [
    "float_sphere_leaving"
   ],
   "note": ""
  },
  {
   "property": "C359",
   "status": "partial",
   "theorems": [
    "float_sphere_leaving_refuted"
   ],
   "note": "False for large spheres: on a sphere of radius 64 a ray that leaves nearly along the surface hits it again at 0.02. float_sphere_leaving proves it when the start is at most 9e-5 |d|^2 below the surface, which for rounding alone allows radii up to about 10."
  },
  {
   "property": "C360",
   "status": "proved",
   "theorems": [
    "float_triangle_leaving"
   ],
   "note": ""
  },
  {
   "property": "C361",
   "status": "partial",
   "theorems": [
    "float_triangle_leaving_refuted"
   ],
   "note": "False from coordinates of 2^18 on, where the hit point is rounded by more than the offset. float_triangle_leaving proves it for K^2 L up to 800."
  },
  {
   "property": "C362",
   "status": "proved",
   "theorems": [
    "float_dielectric_fraction"
   ],
   "note": ""
  },
  {
   "property": "C363",
   "status": "proved",
   "theorems": [
    "float_dielectric_near"
   ],
   "note": ""
  },
  {
   "property": "C364",
   "status": "partial",
   "theorems": [
    "float_dielectric_matched_refuted"
   ],
   "note": "False at grazing angles: for cosines up to 2^-13 everything is reflected, because the square of the sine rounds to one. float_dielectric_near bounds the error elsewhere."
  },
  {
   "property": "C365",
   "status": "proved",
   "theorems": [
    "float_conductor_fraction"
   ],
   "note": ""
  },
  {
   "property": "C366",
   "status": "partial",
   "theorems": [
    "float_conductor_negative_refuted"
   ],
   "note": "False without absorption, by less than 2^-21. float_conductor_fraction proves it for absorptions of at least a 500th of the index, which all metals have."
  },
  {
   "property": "C367",
   "status": "proved",
   "theorems": [
    "float_unfiltered"
   ],
   "note": ""
  },
  {
   "property": "C368",
   "status": "proved",
   "theorems": [
    "float_bilinear"
   ],
   "note": "Array2D::get is a function that is defined inside the texture; its memory layout is C01 and following."
  },
  {
   "property": "C369",
   "status": "proved",
   "theorems": [
    "float_bilinear_constant"
   ],
   "note": ""
  },
  {
   "property": "C370",
   "status": "partial",
   "theorems": [
    "float_bilinear_constant_refuted"
   ],
   "note": "False within the first half texel: for every side there is a coordinate at which a white texture gives 254. float_bilinear_constant proves it from half a texel on."
  },
  {
   "property": "C371",
   "status": "proved",
   "theorems": [
    "float_repeat"
   ],
   "note": ""
  },
  {
   "property": "C372",
   "status": "proved",
   "theorems": [
    "float_refract_defined"
   ],
   "note": ""
  },
  {
   "property": "C373",
   "status": "proved",
   "theorems": [
    "float_refract_near"
   ],
   "note": ""
  },
  {
   "property": "C374",
   "status": "proved",
   "theorems": [
    "float_mirror_bounded"
   ],
   "note": ""
  },
  {
   "property": "C375",
   "status": "partial",
   "theorems": [
    "float_mirror_grazing_refuted"
   ],
   "note": "False for a cosine of exactly 0: the value of every metal, and of glass thinner than its surroundings, is infinite, and the power of the path is no number. float_mirror_bounded proves it from 2^-60 on."
  },
  {
   "property": "C376",
   "status": "proved",
   "theorems": [
    "float_layer"
   ],
   "note": ""
  },
  {
   "property": "C377",
   "status": "proved",
   "theorems": [
    "float_tent"
   ],
   "note": ""
  },
  {
   "property": "C378",
   "status": "proved",
   "theorems": [
    "float_mitchell"
   ],
   "note": ""
  },
  {
   "property": "C379",
   "status": "proved",
   "theorems": [
    "float_mis_weights"
   ],
   "note": ""
  },
  {
   "property": "C380",
   "status": "partial",
   "theorems": [
    "float_mis_overflow_refuted"
   ],
   "note": "False: the square of a density of 2^64 or more is infinite, the weight is infinity over infinity and the contribution to the pixel no number. The test for an infinite density in sample_visible_surface does not see it. Densities below 2^-75 give 0 over 0. float_mis_weights proves it in between."
  },
  {
   "property": "C381",
   "status": "proved",
   "theorems": [
    "float_mis_terms"
   ],
   "note": ""
  },
  {
   "property": "C382",
   "status": "proved",
   "theorems": [
    "float_ggx_masking"
   ],
   "note": ""
  },
  {
   "property": "C383",
   "status": "proved",
   "theorems": [
    "float_ggx_defined"
   ],
   "note": ""
  },
  {
   "property": "C384",
   "status": "partial",
   "theorems": [
    "float_ggx_defined_refuted"
   ],
   "note": "False for directions closer to the surface than 2^-75 but not in it (the squared cosine vanishes: infinity times 0), and along the normal for roughness 0 (0 over 0). float_ggx_defined proves it elsewhere."
  },
  {
   "property": "C385",
   "status": "proved",
   "theorems": [
    "float_refract_value"
   ],
   "note": ""
  },
  {
   "property": "C386",
   "status": "proved",
   "theorems": [
    "float_oren_reciprocal"
   ],
   "note": ""
  },
  {
   "property": "C387",
   "status": "proved",
   "theorems": [
    "float_oren_range"
   ],
   "note": ""
  },
  {
   "property": "C388",
   "status": "partial",
   "theorems": [
    "float_oren_range_refuted"
   ],
   "note": "False if both directions lie in the surface: the tangent is 1 over 0, and the value is infinite or NaN, for every roughness. float_oren_range proves it when one direction is 2^-60 away."
  },
  {
   "property": "C389",
   "status": "proved",
   "theorems": [
    "float_light_density"
   ],
   "note": ""
  },
  {
   "property": "C390",
   "status": "proved",
   "theorems": [
    "float_light_along"
   ],
   "note": ""
  },
  {
   "property": "C391",
   "status": "proved",
   "theorems": [
    "float_shading_round_trip"
   ],
   "note": ""
  },
  {
   "property": "C392",
   "status": "proved",
   "theorems": [
    "float_vec_equal"
   ],
   "note": ""
  },
  {
   "property": "C393",
   "status": "proved",
   "theorems": [
    "float_vec_not_finite"
   ],
   "note": ""
  },
  {
   "property": "C394",
   "status": "proved",
   "theorems": [
    "float_mat_equal"
   ],
   "note": ""
  },
  {
   "property": "C395",
   "status": "proved",
   "theorems": [
    "float_is_normalized"
   ],
   "note": ""
  },
  {
   "property": "C396",
   "status": "proved",
   "theorems": [
    "float_face_sample"
   ],
   "note": ""
  },
  {
   "property": "C397",
   "status": "proved",
   "theorems": [
    "float_face_weights"
   ],
   "note": ""
  },
  {
   "property": "C398",
   "status": "partial",
   "theorems": [
    "float_face_weights_refuted"
   ],
   "note": "false: for r0 up to 2^-52 the first weight is 1 and the third is minus the second; C397 is what holds"
  },
  {
   "property": "C399",
   "status": "proved",
   "theorems": [
    "float_diffuse_dir"
   ],
   "note": ""
  },
  {
   "property": "C400",
   "status": "proved",
   "theorems": [
    "float_lambert_power"
   ],
   "note": "the frame is the one of the shading normal; roulette is left out"
  },
  {
   "property": "C401",
   "status": "proved",
   "theorems": [
    "float_diffuse_pdf"
   ],
   "note": ""
  },
  {
   "property": "C402",
   "status": "partial",
   "theorems": [
    "float_diffuse_pdf_refuted"
   ],
   "note": "false for cosines from 2^-140 to 2^-76, where the product of the cosines vanishes; C401 is what holds"
  },
  {
   "property": "C403",
   "status": "proved",
   "theorems": [
    "float_beckmann_masking"
   ],
   "note": ""
  },
  {
   "property": "C404",
   "status": "partial",
   "theorems": [
    "float_beckmann_negative_zero_refuted"
   ],
   "note": "false for the roughness -0, which clamp returns unchanged; C403 is what holds"
  },
  {
   "property": "C405",
   "status": "proved",
   "theorems": [
    "float_blinn_masking"
   ],
   "note": ""
  },
  {
   "property": "C406",
   "status": "proved",
   "theorems": [
    "float_rough_reciprocal"
   ],
   "note": "the Fresnel factor is evaluated at dot(wi, wh) and not at a symmetric argument, which is why it is held constant"
  },
  {
   "property": "C407",
   "status": "proved",
   "theorems": [
    "float_rough_defined"
   ],
   "note": "the Fresnel factor of dielectrics meets the hypothesis by C362"
  },
  {
   "property": "C408",
   "status": "partial",
   "theorems": [
    "float_rough_grazing_refuted"
   ],
   "note": "false for cosines up to 2^-77 on either side, where the product of the cosines vanishes; C407 is what holds"
  },
  {
   "property": "C409",
   "status": "proved",
   "theorems": [
    "float_box_of_points"
   ],
   "note": "all lists by induction; values compared through inside"
  },
  {
   "property": "C410",
   "status": "partial",
   "theorems": [
    "float_box_nan_refuted"
   ],
   "note": "false: such a point makes the box forget, on that axis, all points before it"
  },
  {
   "property": "C411",
   "status": "proved",
   "theorems": [
    "float_box_surface"
   ],
   "note": "coordinates up to 2^60"
  },
  {
   "property": "C412",
   "status": "proved",
   "theorems": [
    "float_longest_axis"
   ],
   "note": "coordinates up to 2^60"
  },
  {
   "property": "C413",
   "status": "proved",
   "theorems": [
    "float_box_center"
   ],
   "note": "coordinates up to 2^126"
  },
  {
   "property": "C414",
   "status": "partial",
   "theorems": [
    "float_box_center_refuted"
   ],
   "note": "false: the sum overflows when both bounds are at least 2^127; true up to 2^126, see C413"
  },
  {
   "property": "C415",
   "status": "proved",
   "theorems": [
    "float_screen_place"
   ],
   "note": "product with the identity screen2camera left out; camera2world not included"
  },
  {
   "property": "C416",
   "status": "proved",
   "theorems": [
    "float_screen_order"
   ],
   "note": "screen coordinates, before camera2world"
  },
  {
   "property": "C417",
   "status": "proved",
   "theorems": [
    "float_inverse_lerp"
   ],
   "note": "numbers up to 2^126"
  },
  {
   "property": "C418",
   "status": "proved",
   "theorems": [
    "float_lerp"
   ],
   "note": "bounds up to 2^120"
  },
  {
   "property": "C419",
   "status": "partial",
   "theorems": [
    "float_lerp_refuted"
   ],
   "note": "false by one unit in the last place: a result above equal bounds and a pair of values in the wrong order; see C418 for the error"
  },
  {
   "property": "C420",
   "status": "proved",
   "theorems": [
    "float_mesh_sample01"
   ],
   "note": "same assumption as C318: the last face adds to the sum"
  },
  {
   "property": "C421",
   "status": "proved",
   "theorems": [
    "float_distance_symmetric"
   ],
   "note": "coordinates up to 2^40"
  },
  {
   "property": "C422",
   "status": "proved",
   "theorems": [
    "float_distance_near"
   ],
   "note": "coordinates up to 2^40, distance at least 2^-45"
  },
  {
   "property": "C423",
   "status": "partial",
   "theorems": [
    "float_distance_zero_refuted"
   ],
   "note": "false: the squares of differences up to 2^-76 vanish"
  },
  {
   "property": "C424",
   "status": "proved",
   "theorems": [
    "float_cross_antisymmetric"
   ],
   "note": "coordinates up to 2^40; values, the sign of 0 aside"
  },
  {
   "property": "C425",
   "status": "proved",
   "theorems": [
    "float_camera_frame"
   ],
   "note": "up vector at least 27 degrees off the view; tolerances 3e-5 and 1e-5"
  },
  {
   "property": "C426",
   "status": "proved",
   "theorems": [
    "float_camera_origin"
   ],
   "note": "position up to 2^127; finite frame"
  },
  {
   "property": "C427",
   "status": "proved",
   "theorems": [
    "float_camera_direction"
   ],
   "note": "as C425; tolerance 1.1e-4; the raster-to-camera point is arbitrary"
  },
  {
   "property": "C428",
   "status": "partial",
   "theorems": [
    "float_camera_parallel_refuted"
   ],
   "note": "false: with the up vector along the view the axes are NaN"
  },
  {
   "property": "C429",
   "status": "proved",
   "theorems": [
    "float_mirror_direction"
   ],
   "note": ""
  },
  {
   "property": "C430",
   "status": "proved",
   "theorems": [
    "float_byte_colour"
   ],
   "note": ""
  },
  {
   "property": "C431",
   "status": "proved",
   "theorems": [
    "float_pixel_round_trip"
   ],
   "note": "the conversion of the film alone, without the conversion to and from XYZ"
  },
  {
   "property": "C432",
   "status": "proved",
   "theorems": [
    "float_ortho_direction"
   ],
   "note": "as C425"
  },
  {
   "property": "C433",
   "status": "proved",
   "theorems": [
    "float_pano_direction"
   ],
   "note": "as C425; assumes of the library that the squares of sine and cosine add up to 1 within 1e-6; the angles themselves are not modelled"
  },
  {
   "property": "C434",
   "status": "proved",
   "theorems": [
    "float_rough_direction"
   ],
   "note": "tolerance 2e-4 in each coordinate"
  },
  {
   "property": "C435",
   "status": "proved",
   "theorems": [
    "float_rough_refraction"
   ],
   "note": "between a squared sine of 0.99 and 1.00004 only that the result is finite; tolerance 4.1e-4 in each coordinate"
  },
  {
   "property": "C436",
   "status": "proved",
   "theorems": [
    "float_normalize2"
   ],
   "note": "tolerances as stated"
  },
  {
   "property": "C437",
   "status": "proved",
   "theorems": [
    "float_unit2_sound"
   ],
   "note": ""
  },
  {
   "property": "C438",
   "status": "partial",
   "theorems": [
    "float_unit2_refuted"
   ],
   "note": "False: the tolerance is one unit in the last place; (1,11) fails after normalisation. What normalisation does guarantee is C436."
  },
  {
   "property": "C439",
   "status": "proved",
   "theorems": [
    "float_clamp",
    "float_clamp_vec"
   ],
   "note": "numbers and, coordinate by coordinate, vectors"
  },
  {
   "property": "C440",
   "status": "proved",
   "theorems": [
    "float_colour_byte"
   ],
   "note": "no text of a scene file reads as NaN; for NaN the conversion is undefined (float_clamp_nan_refuted)"
  },
  {
   "property": "C441",
   "status": "proved",
   "theorems": [
    "float_saturate"
   ],
   "note": ""
  },
  {
   "property": "C442",
   "status": "partial",
   "theorems": [
    "float_clamp_nan_refuted"
   ],
   "note": "False: NaN passes unchanged. For numbers see C439."
  },
  {
   "property": "C443",
   "status": "proved",
   "theorems": [
    "float_face_normal"
   ],
   "note": "in object space; coordinates up to 256"
  },
  {
   "property": "C444",
   "status": "proved",
   "theorems": [
    "float_filter_offset"
   ],
   "note": "one axis"
  },
  {
   "property": "C445",
   "status": "proved",
   "theorems": [
    "float_texture_coordinate"
   ],
   "note": "one axis"
  },
  {
   "property": "C446",
   "status": "proved",
   "theorems": [
    "box_expanded"
   ],
   "note": "exact arithmetic with infinities"
  },
  {
   "property": "C447",
   "status": "proved",
   "theorems": [
    "faces_area_local"
   ],
   "note": "in the reals"
  }
 ]
}