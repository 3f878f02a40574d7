# Formal model of spectre-light: design

The code under study is the path tracer in `/repo` (pinned commit, read as text
only; never built or run here).  The model is written in Rocq (Coq 8.16.1) under
`rocq/theories`.  This file says what is modelled and what is not, gives the
theorems of each property of `properties.jsonl`, lists the defects the proofs
found, and states the trusted base.

## Conventions

* One directory level, `theories/*.v`.  For each area: `XModel.v` (definitions
  only, every definition cites file and lines of `/repo/src`), `XSpec.v` (a small
  specification that does not use the model's helpers), `XProofs.v` (lemmas) and
  `XProps.v` (the theorems, each followed by `Print Assumptions` and an `Example`
  that meets its hypotheses in a non-trivial case).
* Machine integers: `N`/`Z` with explicit `mod 2^32`, `mod 2^16`, `mod 256` where
  the C code wraps.  Signed arithmetic goes through a checked operation whose
  overflow is the outcome `UB`.
* Undefined behaviour (accesses out of bounds, divisions by zero, signed overflow,
  reads of memory never written, conversions of a float that does not fit,
  exceptions that nothing catches) is the outcome `UB` of `res` (`Common.v`).
  Safety theorems say that it is not reached.
* Loops are structural recursions or fuelled recursions; running out of fuel is
  the outcome `OutOfFuel` and the statements exclude it, or say that every amount
  of fuel runs out (divergence).
* Concurrency is a transition system: each access to shared memory is one step,
  steps interleave arbitrarily, memory is sequentially consistent.
* Floating point.  There are four treatments, and each file says which it uses:
  1. bit exact: words of 32 bits or integers rounded to 24 bits (RNG output,
     configuration checks, ppm samples, kd-tree node packing);
  2. exact rationals extended with the infinities, NaN and the sign of zero
     (`xq` in `GeomModel.v`): boxes, triangles, both accelerators, film, textures;
     comparisons and products behave as IEEE 754 prescribes, rounding, overflow
     and underflow are left out;
  3. the reals `R`: everything with square roots, trigonometry or integrals
     (matrices, cameras, spheres, materials, lights, integrators);
  4. binary32 operation by operation with Flocq's `BinarySingleNaN` (`FltModel`,
     `FRayModel`, `FMatModel`, `FFresModel`, `FTexModel`, `FSpecModel`,
     `FFilterModel`, `FMisModel`, `FGgxModel`, `FOrenModel`, `FLightModel`, `FShadeModel`, `FVecEqModel`, `FFaceModel`, `FDiffModel`, `FMicroModel`, `FGrowModel`, `FCamModel`, `FLerpModel`, `FDistModel`, `FLookModel`, `FByteModel`, `FVec2Model`, `FClampModel`, `FReflModel` and those listed in the last row
     of the table): every operation of the source is one
     operation rounded to nearest, in the order of the source, with overflow,
     underflow, infinities and NaN.  These files say how far treatments 2 and 3 are
     from what the machine computes, and where the code gives no number.
* A statement that the code violates is refuted: the theorem `..._refuted` gives
  a family of counterexamples, or one, in the model, and the strongest true
  variant is proved next to it (and listed as a property of its own where a user
  would rely on it).
* `seeded/LOG.jsonl` records edits of the model that imitate realistic bugs and
  which theorems then fail.

## What is modelled, what is not

| source (`/repo/src`) | modelled | not modelled |
|---|---|---|
| `utility/array2D.hpp` | whole class (`Array2DModel`) | allocation failure |
| `utility/imageio/bmp.c`, `tga.c`, `ppm.c`, `imageio.{h,c}` | writers and readers byte for byte, pixel conversions, dispatch by extension and by the libraries found (`CodecModel`) | errors of the file system |
| `utility/imageio/png.c`, `jpg.c`, `tiff.c` | the loops of the wrappers over rasters; loading of texture files (`CodecModel`) | the libraries themselves, which store and return rasters; damaged files |
| `utility/file.cpp` | path resolution, `File` objects, parents, names (`PathModel`); `exists`, `is_folder`, `readable`, `mkdirs`, `ls` over a tree of files (`FsModel`) | Windows branch |
| `utility/utility.{hpp,cpp}`, `endianness.h` | `format_seconds`, byte swaps, clamps, `equation2` | terminal helpers |
| `utility/wellrng.cpp` | whole generator, exact float output (`WellModel`) | seeding from the clock |
| `utility/scene.cpp`, `primitives/shape.cpp`, `asset.cpp` | identifiers, inheritance, maps (`SceneModel`) | `std::unordered_map` is an association list |
| `utility/occlusion_tester.cpp` | whole (`OcclModel`) | |
| `utility/console.cpp`, listener of `renderer.cpp` | the progress bar (`BarModel`) | messages and their formatting |
| `accelerators/kdtree.cpp` | buffers, packing, construction, traversal (`KdAddModel`, `BitsModel`, `KdModel`) | the cost of a split is an arbitrary function, `std::sort` any sort |
| `accelerators/bvh.cpp` | Morton codes, partition, clustering, flattening, traversal (`BvhModel`) | float scaling to the grid; the cluster size `f(x)` is a parameter |
| `geometry/AABB.cpp` | whole (`AabbModel`) | |
| `geometry/matrix4.cpp`, transforms of `config_driver.cpp` | inversion, products, rotations, scales, look-at, transforms of points, vectors, normals, rays, boxes (`MatModel`, `CamModel`) | printing |
| `geometry/vec*.cpp`, `point*.cpp`, `ray.cpp` | the operations used by the rest (`RVecModel`, `GeomModel`); the operators in place, aliasing (`AliasModel`), equality with a tolerance (`VecEqModel`) | printing |
| `primitives/triangle.cpp`, `box.cpp`, `sphere.cpp`, `mesh.cpp`, `asset.cpp` | hits, bounds, surfaces, sampling (`TriModel`, `BoxModel`, `PrimModel`, `MeshModel`) | texture coordinates of boxes |
| `cameras/*` | the three cameras and their differentials (`CamModel`), the film (`FilmModel`, `RenderModel`) | |
| `samplers/*` | tile order, sample placement (`TilesModel`), the weights of all filters over the reals (`FilterModel`) | rounding of Gauss and Lanczos (`expf`, `sinf`); tent and Mitchell are in the row on single precision |
| `primitives/hit_point.cpp`, `materials/bump.cpp`, `textures/texture_normal.cpp`, `texture_height.cpp` | derivatives, height and normal maps over the reals (`HitModel`) | the lookups are those of `ImgModel`; rounding |
| `renderer.cpp` | tiling, worker loop, locks (`TilesModel`, `RenderModel`) | thread creation failure |
| `materials/*` | Fresnel, mirrors, refraction, Lambertian, Oren-Nayar, microfacets (Blinn, Beckmann, GGX, anisotropic GGX), layered, single, dual (`SpecularModel`, `BsdfModel`, `MicroModel`, `AnisoModel`, `MaskModel`) | the tables of `metals.hpp` |
| `materials/material_library.cpp`, `textures/texture_library.cpp` | whole (`LibModel`) | the global singleton |
| `textures/image_map.cpp`, `texture_image.cpp`, `mask_boolean.cpp` | mip levels, unfiltered, bilinear, trilinear, elliptical filter with root and logarithm as parameters (`EwaModel`), repetition, cache (`ImgModel`, `MaskModel`) | |
| `lights/area_light.cpp` | whole (`LightModel`) | |
| `integrators/*` | ray tracer and path tracer (`IntegModel`) | one wavelength; the sums are exact |
| `parsers/parser_obj.cpp` | whole, with the loop of `config_driver.cpp` that calls it (`ObjModel`) | `atof`/`stof` are parameters |
| `parsers/config_driver.cpp`, actions of `config_parser.y` | reading of files and children, settings, objects, textures, masks (`DriverModel`), materials, dual materials, placement and ownership of objects (`BuildModel`), checks of resolution and sample count, transforms, reports of syntax errors with the positions kept by the scanner (`ErrModel`) | the text of a file is in the row below |
| `parsers/config_lexer.l`, grammar of `config_parser.y` | every rule of the scanner with longest match (`ScanModel`), every nonterminal (`GramModel`) | the automata generated by flex and bison; rounding of `atof`; tokens are made before they are parsed |
| `utility/spectrum.cpp`, `color.cpp`, `cauchy` and `sellmeier` of `refraction.cpp` | both builds: temperatures, samples, colours, operators, XYZ, sRGB over the reals (`ColorModel`) | rounding; the tables of spectra of colours are parameters; `to_AdobeRGB` (unused) |
| single precision | random numbers, sample positions, film, choice of lights, cumulative areas, normalisation (`FltModel`); rays, boxes, spheres, triangles, `equation2`, walks of both trees, self intersection, occlusion (`FRayModel`); matrices on points, vectors, boxes and rays (`FMatModel`); Fresnel (`FFresModel`), texture look ups (`FTexModel`), mirrors and refraction (`FSpecModel`), tent and Mitchell weights (`FFilterModel`), weights of light and material samples (`FMisModel`), isotropic GGX (`FGgxModel`), Oren-Nayar (`FOrenModel`), density of light samples (`FLightModel`), shading frame (`FShadeModel`), comparisons (`FVecEqModel`), points sampled on triangles (`FFaceModel`), diffuse surfaces (`FDiffModel`), rough reflection and masking (`FMicroModel`), boxes grown from points (`FGrowModel`), raster to screen of the cameras (`FCamModel`), interpolation and the number for a face (`FLerpModel`), distances (`FDistModel`), the frame of a camera and the rays of the perspective one from the camera space on (`FLookModel`), colours of bytes (`FByteModel`), the directions of rough reflections and refractions (`FReflModel`), two dimensional vectors (`FVec2Model`), clamping (`FClampModel`) | functions of libm other than the root; the rest of the cameras; the remaining materials; excess precision and fused operations |

## Properties, theorems and status

`proved`: the statement holds of the model for all inputs in the scope given.  `partial`: the statement as a user would want it is false of the code (theorems `..._refuted` give the counterexamples) or is proved under an extra hypothesis (theorems `..._partial`).

| id | title | status | theorems | files | note |
|----|-------|--------|----------|-------|------|
| C01 | Array2D behaves like a two-dimensional map | partial | `array2d_is_a_map`, `array2d_copy_is_a_map`, `array2d_from_values`, `array2d_side_65536_refuted`, `array2d_zero_65536_refuted` | Array2DProps | For requested sides up to 32768 (any block exponent up to 15). Refuted for side 65536: the element index overflows int and the clear length wraps to zero. |
| C02 | Array2D rounds its side to the smallest adequate power of two | partial | `array2d_side_least_pow2`, `array2d_side_huge_refuted` | Array2DProps | For sides up to 2^31; every larger uint32 argument collapses to side 1. |
| C03 | BMP write/read round trip | proved | `bmp_round_trip` | BmpProps | For dimensions within the writer's int arithmetic; file system success assumed. |
| C04 | BMP reader stays inside the caller's buffer | partial | `bmp_read_safe`, `bmp_read_zero_height_refuted`, `bmp_read_negative_width_refuted` | BmpProps | Holds for width >= 0 and height >= 1 (sizes within int); refuted for height 0 (division by zero) and negative widths, which the header checks accept. |
| C05 | BMP files follow the BMP format | partial | `bmp_conformant_even_width`, `bmp_read_conformant_even_width`, `bmp_odd_width_refuted` | BmpProps | True for even widths, refuted for every odd width (row padding computed as (3w)%4 instead of the complement; the size field then differs from the file length). |
| C06 | TGA write/read round trip | partial | `tga_round_trip`, `tga_big_side_refuted` | TgaProps | Round trip proved for sides below 65536 and 3wh < 2^31. Sides of 65536 or more are truncated in the header although the write reports success: proved as a refutation for all such images. |
| C07 | TGA reader stays inside the caller's buffer | partial | `tga_read_safe`, `tga_read_determined`, `tga_read_invalid`, `tga_read_overrun_refuted` | TgaProps | Memory safety and termination for every uncompressed file and every run-length file at least 127 wide. For each width 1..126 a file that overruns the buffer is exhibited. |
| C08 | TGA run-length decoding follows the TGA format | partial | `tga_rle_decode`, `tga_rle_truncated`, `tga_raw_decode`, `tga_raw_packet_refuted` | TgaProps | Holds for runs and one-pixel raw packets, any depth, order, id and trailing data; raw packets of two or more pixels are mis-decoded (refuted). |
| C09 | PPM write/read round trip | proved | `ppm_round_trip` | PpmProps |  |
| C10 | RGB/BGRA buffer conversion is lossless | proved | `bgra_rgb_bgra`, `rgb_bgra_rgb`, `rgb_to_bgra_defined`, `px_channels_independent` | PixelProps |  |
| C11 | File paths are normalised correctly | partial | `file_resolved`, `file_append_resolved`, `file_dotdot_refuted`, `file_root_refuted`, `file_dot_refuted` | PathProps | Holds for every path in which each dot-dot leaves the root or a name of two or more characters and which is not resolved to the root without a final separator, is not a lone dot or dot-dot and is not relative to the root; each excluded case is refuted. |
| C12 | File parent, name and extension are consistent | partial | `file_names`, `file_root_names`, `file_ancestors`, `file_parent_root`, `file_parent_refuted`, `file_parent_extension_refuted` | PathProps | Names and extensions of constructed files, and paths of all ancestors, are right; the name of a first-level ancestor and the extensions of parents are refuted. |
| C13 | kd-tree node encoding is lossless | partial | `kdnode_leaf_lossless`, `kdnode_interior_lossless`, `kdnode_child_range_refuted` | BitsProps | The union's float member is modelled by its 32-bit pattern. |
| C14 | kd-tree construction keeps every asset | partial | `kd_leaves_cover`, `kd_assets_kept_partial`, `kd_flat_asset_lost_refuted`, `kd_touching_refuted` | KdProps | Every leaf lists the assets with a point strictly inside it; every asset is listed when boxes are thick or the sort is stable. A flat asset is lost when the sort puts its closing boundary first, and a leaf whose region is only touched may not list the asset. |
| C15 | kd-tree intersection returns the closest hit | partial | `kd_intersect_closest_partial`, `kd_triangles_closest`, `kd_face_plane_refuted` | KdCases, KdProps | For rays that do not run inside the plane of a box face; such rays may miss an asset through 0 * infinity. |
| C16 | kd-tree asset capacity is enforced | partial | `kd_add_within_capacity`, `kd_add_over_capacity_refuted` | KdAddProps | Holds for up to 4096 additions; the 4097th addition writes past the buffer, the limit is only logged. |
| C17 | BVH construction only permutes the triangles | proved | `bvh_build_permutes` | BvhProps | For every sort that orders by code and every cluster size function that is at least one. |
| C18 | BVH flattening preserves the tree | proved | `bvh_array_is_tree` | BvhProps | Boxes, children and leaves; every element of the array is written. |
| C19 | BVH intersection returns the closest triangle | partial | `bvh_intersect_closest_partial`, `bvh_intersect_closest_small`, `bvh_answer_geometric` | BvhProps | For trees of height at most 32, the size of the stack (always so with up to 33 triangles). |
| C20 | BVH traversal stack never overflows | partial | `bvh_stack_overflow_refuted`, `bvh_intersect_closest_partial`, `bvh_intersect_closest_small` | BvhDeep, BvhProps | A fan of 700 triangles in one box gives a chain of depth 37 and the 33rd push is out of the array; trees of height up to 32 (all meshes up to 33 triangles) are safe. |
| C21 | Each face keeps the material the file gave it | partial | `bvh_material_refuted`, `bvh_material_kept_partial` | BvhMaterial | The table of materials keeps the order of the file while the faces are reordered. |
| C22 | Morton codes interleave the coordinate bits | proved | `morton_interleaves`, `morton_injective`, `morton_octree`, `morton_monotone` | BitsProps | Integer grid coordinates; the multiplication of the float by 0x1FFFFF is outside the model. |
| C23 | Tiles partition the image | proved | `tiles_partition`, `tiles_rejected_width` | TilesProps |  |
| C24 | Every tile is rendered exactly once | proved | `render_tiles_never_lost`, `render_exactly_once`, `render_no_deadlock`, `render_terminates` | RenderProps |  |
| C25 | The film accumulates every contribution exactly once | partial | `render_film_exact`, `render_film_no_overcount`, `render_film_lost_update_refuted`, `render_film_border_refuted` | RenderProps | The claim holds with one worker and for pixels reached by one tile only; it is refuted for several workers and pixels near tile borders. |
| C26 | Film updates stay inside the image | partial | `film_update_inside`, `film_update_covers`, `film_update_box_refuted`, `film_update_box_lost` | FilmProps | The own-pixel coverage holds for filter range 2 or more and is refuted for the box filter. |
| C27 | Saved pixels are clamped and packed correctly | proved | `film_save_words`, `film_save_average` | FilmProps |  |
| C28 | Samplers visit each pixel of their tile exactly once | partial | `tile_order_bijective`, `random_sampler_order`, `stratified_sampler_order`, `stratified_unfilled_refuted` | TilesProps | The stratified sampler leaves samples unfilled when spp is not a perfect square; refuted separately. |
| C29 | The random generator never merges states | proved | `well_states_never_merge`, `well_seeds_never_merge`, `well_never_zero`, `well_reversible`, `well_result_range` | WellProps | The float conversion of the result is modelled exactly (round to nearest even on 24 bits). |
| C30 | Scene bookkeeping is consistent | partial | `scene_consistent`, `scene_repeated_asset_refuted`, `scene_id_wrap_refuted`, `scene_too_many_assets_refuted` | SceneProps | For every sequence of at most 4096 operations; an asset inherited twice is traced twice, identifiers repeat after 2^32 assets, and more than 4096 assets overflow the tree buffer. |
| C31 | Texture and material libraries are maps | proved | `mtl_library_is_a_map`, `tex_library_is_a_map` | LibProps | For objects handed over once each (the documented precondition). |
| C32 | Mip levels halve down to one texel and average correctly | proved | `mip_levels`, `mip_within` | ImgProps |  |
| C33 | OBJ tokenising does not depend on buffer boundaries | proved | `obj_buffer_independent` | ObjProps | Every text without the reserved byte 7 and every two buffer sizes: same outcome, same termination. |
| C34 | OBJ reading always terminates | partial | `obj_terminates`, `obj_terminates_refuted`, `obj_unfinished_refuted` | ObjProps | Holds for files that end with a newline (and have no byte 7); a last line without a newline is read forever. |
| C35 | OBJ polygons are triangulated as fans | proved | `obj_load_correct`, `face_triangles_fan`, `relative_index` | ObjProps | Whole documents: every well formed text is read as its specification says. Corners of the form v/vt are excluded (C58). |
| C36 | Material compaction keeps each face's material | partial | `obj_compaction`, `obj_materials_256_refuted`, `obj_materials_257_refuted` | ObjProps | All materials and faces up to 255 materials; with 256 or more the result is wrong. |
| C37 | Meshes accept triangles up to their cap without overflow | partial | `mesh_adds_in_order`, `mesh_size_zero_refuted` | MeshProps | Any number of triangles; a mesh created with room for none writes out of bounds at the first triangle. |
| C38 | Surface sampling picks the face the density array prescribes | partial | `mesh_sample_face`, `mesh_sample_face_refuted`, `mesh_sample_single_refuted`, `mesh_sample_diverges_refuted` | MeshProps | Exact arithmetic. The search ends and passes the right position inside the interval, but the face used is one too low except for the first and last. |
| C39 | Accepted resolutions and sample counts are valid | partial | `resolution_checked`, `resolution_safe`, `resolution_height_refuted`, `spp_checked`, `spp_nearest_square`, `spp_square_kept`, `spp_strata_exact`, `spp_overflow_refuted`, `spp_random_kept` | ConfigProps | The height is not made a multiple of the tile size and the highest sample counts overflow: both refuted. The rest of the claim is proved for all inputs in the stated ranges. |
| C40 | Matrix inversion is correct | proved | `inverse_correct`, `inverse_fails` | MatProps | Exact arithmetic; failure is a determinant within 1e-5 of zero. |
| C41 | Transform composition acts as composition | proved | `compose_point`, `compose_vec`, `compose_ray`, `transform_ray_parameter`, `config_affine` | MatProps |  |
| C42 | Ray/triangle intersection is exact | partial | `tri_hit_sound`, `tri_hit_complete`, `tri_coplanar_refuted` | TriProps | Sound and complete for rays that cross the plane; rays in the plane are never reported. |
| C43 | Ray/box and ray/sphere intersection are exact | proved | `sphere_exact`, `box_exact` | BoxProps, PrimProps | Both tests; lines that nearly graze the sphere are C102, rays in the plane of a face of the box C111. |
| C44 | Bounding boxes bound | partial | `transformed_box_contains`, `sphere_box_contains`, `engulf_points_smallest`, `engulf_boxes_smallest`, `engulf_order_independent`, `inside_contains`, `slab_never_misses`, `slab1_never_misses_partial`, `slab1_negative_zero_refuted`, `tri_box_contains` | AabbProps, PrimProps, TriProps | The overload without ray properties misses boxes when a direction component is the negative zero. |
| C45 | Fresnel terms conserve energy | partial | `conductor_fraction`, `conductor_inside_refuted`, `dielectric_fraction`, `dielectric_conserves`, `total_reflection_refuted`, `dielectric_agree` | SpecularProps | From inside, a conductor reflects more than arrives; beyond the critical angle the reflected value is not divided by the cosine, so less than everything is reflected. |
| C46 | Specular directions obey the laws of optics | proved | `mirror_direction`, `refraction_direction` | SpecularProps |  |
| C47 | Layered materials sample one of their own layers consistently | partial | `multi_sample_layer`, `multi_empty_refuted`, `multi_value_partial`, `multi_texture_refuted`, `multi_mirror_texture_refuted`, `multi_pdf_consistent` | BsdfProps | value() uses the texture of each layer and sample_value() the one of the chosen index, so values agree only when all layers have the same texture; an empty material divides by zero. |
| C48 | Occlusion caching does not change answers | partial | `occlusion_history_partial`, `occlusion_twice_refuted`, `occlusion_face_plane_refuted` | OcclProps | Holds after any history for unit directions off the face planes; the cached distance is the ray parameter while the first answer compares Euclidean distances, so asking twice may change the answer. |
| C49 | Masks partition hit points | proved | `mask_partition`, `dual_one_layer`, `dual_inverted` | MaskProps |  |
| C50 | Elapsed time formatting is correct and bounded | proved | `format_seconds_denotes`, `format_seconds_fits`, `format_seconds_special` | UtilProps |  |
| C51 | Byte swapping is an involution | partial | `swap32_reverses_bytes`, `swap32_involutive`, `swap16_reverses_bytes`, `big32_is_swap`, `big16_is_swap_refuted` | UtilProps | The 16-bit big-endian macro is refuted: it drops one byte. |
| C52 | The camera frame is orthonormal and oriented | proved | `camera_frame` | CamProps | Lengths up to the 1e-5 that normalize tolerates. |
| C53 | The PPM reader follows the format | partial | `ppm_binary_decode`, `ppm_ascii_decode`, `ppm_16bit_refuted`, `ppm_sample_overflow_refuted`, `ppm_clamp_refuted` | PpmProps | Holds for text files and for one byte per sample with samples not above the maximum; refuted for two bytes per sample and for samples above the maximum. |
| C54 | Libraries free what they inherit, once | partial | `mtl_library_leak_refuted`, `tex_library_is_a_map` | LibProps | A material added under a name in use is never freed; whatever the texture library holds at some time is freed exactly once by the end. |
| C55 | Every object of an obj file is loaded | partial | `obj_every_object_refuted`, `obj_load_correct` | ObjProps | All objects before the first one without faces are loaded; the others are lost. |
| C56 | A material stays in use until the next usemtl | partial | `obj_material_persists_refuted`, `obj_load_correct` | ObjProps | Within an object the material in use is right; every new object starts with the default one. |
| C57 | Starting a new obj file drops the previous one | partial | `obj_second_file_refuted` | ObjProps | The vertices of the previous file stay. |
| C58 | Face corners with a texture coordinate and no normal | partial | `obj_texture_only_refuted`, `obj_texture_only_unset_refuted` | ObjProps | Such a corner takes the normal of an earlier corner of the same length, or reads bytes never written. |
| C59 | Malformed faces are refused | partial | `obj_short_face_refuted`, `obj_relative_index_refuted` | ObjProps | A face with one or two corners without normals reads past its vertices; a relative index before the first vertex throws an exception that nothing catches. |
| C60 | The slab test accepts exactly the rays that meet the box | partial | `slab_exact_partial`, `slab_exact_refuted` | AabbProps | Exact when no component of the direction is zero; rays in the plane of a face are accepted whatever the other axes. |
| C61 | Building the hierarchy performs no undefined conversion | partial | `bvh_build_total_partial`, `bvh_flat_conversion_refuted` | BvhCodes | Defined when the centroids differ on every axis, undefined when they agree on one. |
| C62 | Building the kd-tree of an accepted scene fits the asset buffer | partial | `kd_build_overflow_refuted`, `kd_build_capacity` | KdCases | Built exactly when the leaves have at most 4096 references in total; 2049 overlapping assets and one inside overflow for every sort. |
| C63 | The kd-tree traversal stays inside its arrays | proved | `kd_intersect_safe` | KdProps |  |
| C64 | A leaf of the kd-tree lists what lies strictly inside its region | proved | `kd_leaves_cover` | KdProps |  |
| C65 | The kd-tree over triangles answers like testing every triangle | proved | `kd_triangles_closest` | KdCases | kd_intersect_closest_partial is the same statement for arbitrary assets. |
| C66 | Any ray of a path can be tested for occlusion | partial | `occlusion_bounces_refuted`, `occlusion_safe` | OcclProps | lasthit has five entries and is indexed by the number of bounces: five bounces read past it. |
| C67 | Occlusion tests of rays with fewer than five bounces are memory safe | proved | `occlusion_safe` | OcclProps |  |
| C68 | Shading frame conversions are inverse | proved | `normalize_length`, `shading_orthonormal`, `shading_inverse` | RVecProps |  |
| C69 | The shading frame turns the normal into the vertical | partial | `shading_slanted_refuted`, `shading_orthonormal`, `shading_inverse` | RVecProps | False for every dpdu that is not orthogonal to the normal. |
| C70 | Specular light paths are reversible | proved | `specular_reversible` | SpecularProps |  |
| C71 | Layers added to a material are kept | partial | `sixth_layer_refuted`, `layers_kept` | BsdfProps | Holds up to five layers; the sixth is written past the array. |
| C72 | Single-layer materials report what they sample | proved | `single_consistent`, `lambertian_consistent` | BsdfProps |  |
| C73 | Default sampling is cosine weighted | proved | `default_sampling`, `default_density` | BsdfProps, MicroProps |  |
| C74 | Half vectors have the density that pdf reports | partial | `blinn_density_refuted`, `beckmann_density_refuted`, `half_vectors` | MicroProps | Blinn reports (n+2)/(2 pi) cos^n where the density is (n+1)/(2 pi) cos^n; Beckmann multiplies the exponential in twice. |
| C75 | GGX half vectors have the density that pdf reports | proved | `ggx_sampling` | MicroProps |  |
| C76 | Oren-Nayar is isotropic and reciprocal | partial | `oren_reciprocal`, `oren_isotropic_refuted` | MicroProps | Reciprocal; not isotropic because the sign of the sine of the azimuths is lost. |
| C77 | Rough reflection is reciprocal and consistent | proved | `rough_sample`, `rough_reciprocal`, `rough_nonnegative`, `half_vectors` | MicroProps | The two densities agree when the sum of the directions is not within the tolerance of Vec3::normalize, which leaves such vectors unnormalised. |
| C78 | Rough transmission with Blinn reports the density it samples | partial | `rough_exit_refuted`, `rough_transmission` | MicroProps | pdf() is zero for every direction leaving the denser medium. |
| C79 | Rough transmission reports the density it samples | proved | `rough_transmission` | MicroProps |  |
| C80 | Fresnel terms seen from outside are fractions | proved | `conductor_fraction`, `dielectric_fraction`, `dielectric_conserves` | SpecularProps |  |
| C81 | A layered material samples an eligible layer with the density it reports | proved | `multi_sample_layer`, `multi_pdf_consistent` | BsdfProps |  |
| C82 | Unfiltered lookup reads the texture | proved | `unfiltered_texel` | ImgProps |  |
| C83 | Unfiltered lookup returns the texel that covers the coordinate | partial | `unfiltered_nearest_refuted` | ImgProps | False: half a texel is subtracted before rounding down. |
| C84 | Bilinear lookup interpolates | proved | `bilinear_value` | ImgProps |  |
| C85 | Bilinear lookup has no seam | partial | `bilinear_seam_refuted` | ImgProps | False for sides above two. |
| C86 | Trilinear lookup is safe and bounded | proved | `trilinear_safe` | ImgProps |  |
| C87 | Trilinear lookup covers a footprint of the whole texture | partial | `trilinear_whole_refuted` | ImgProps | False: reads one level past the last. |
| C88 | Filtering a constant texture returns the constant | partial | `trilinear_constant_refuted` | ImgProps | False: the two halves are truncated separately. |
| C89 | Texture coordinates are repeated | proved | `repeat_in_range`, `image_lookup_safe` | ImgProps |  |
| C90 | Negative texture coordinates are repeated | partial | `image_negative_refuted` | ImgProps | False: negative float converted to uint16_t. |
| C91 | All whole coordinates are the same place | partial | `repeat_border_refuted` | ImgProps | False: one is not repeated, the other whole numbers are. |
| C92 | Scaling a texture scales its derivatives | partial | `derivative_scale_refuted` | ImgProps | False: du/dy is scaled by sy and dv/dx by sx. |
| C93 | Square power of two files become textures | proved | `file_texture` | ImgProps |  |
| C94 | Files with unusable sides are rejected | partial | `file_sides_refuted` | ImgProps | False for sides 0 and 65536. |
| C95 | A texture uses the filter it was given | partial | `texture_filter_kept`, `texture_filter_refuted` | ImgProps | True of the first texture of a file only: the map is cached by path. |
| C96 | Matrix product is the product | proved | `mul_is_product`, `mul_assoc`, `mul_identity` | MatProps |  |
| C97 | Invertible transforms can be inverted | partial | `small_scale_refuted` | MatProps | False: a uniform scale of 0.02 or less fails and leaves the inverse uninitialised. |
| C98 | Scene transforms scale, turn and move | proved | `config_order`, `rotations_keep_dot`, `config_scale` | MatProps |  |
| C99 | Assets report hits in world space | proved | `asset_hit_world` | MatProps |  |
| C100 | mul accepts its input as output | partial | `mul_onto_first_refuted` | MatProps | False. |
| C101 | Transformed normals stay normal | proved | `transform_normal_perpendicular` | MatProps |  |
| C102 | Spheres are hit only by rays that meet them | partial | `sphere_graze_refuted`, `large_sphere_refuted` | PrimProps | False: a discriminant down to -1e-4 counts as a hit, so a sphere of radius s is hit up to s*sqrt(1+s^2/40000). |
| C103 | A masked sphere respects the distance of the best hit | partial | `sphere_mask_refuted` | PrimProps | False. |
| C104 | Sphere hits lie on the ray and on the sphere | partial | `sphere_pole_refuted`, `sphere_exact` | PrimProps | False on the axis; true off it (sphere_exact). |
| C105 | The surface of a scaled sphere | partial | `sphere_surface_uniform`, `sphere_surface_refuted` | PrimProps | Uniform scales proved; false for the others. |
| C106 | Boxes of transformed shapes | proved | `transformed_box_contains`, `transformed_box_smallest`, `sphere_box_contains` | PrimProps |  |
| C107 | Sphere sampling is uniform | proved | `sphere_sample_on`, `sphere_sample_uniform` | PrimProps |  |
| C108 | Box sampling is uniform in world space | proved | `box_sample_face`, `box_surface_ok`, `box_sample_uniform` | PrimProps |  |
| C109 | The normal of a box entered from outside | proved | `box_normal_entering` | BoxProps |  |
| C110 | The normal of a box hit from inside | partial | `box_normal_leaving_refuted` | BoxProps | False when entry and exit faces are not opposite. |
| C111 | Boxes are hit only by rays that meet them | partial | `box_plane_refuted`, `box_exact` | BoxProps | False in the plane of a face; box_exact shows it elsewhere. |
| C112 | The mask of a box looks at the hit | partial | `box_mask_refuted` | BoxProps | False. |
| C113 | Perspective rays | proved | `perspective_ray`, `perspective_centre`, `perspective_fov` | CamProps |  |
| C114 | Perspective differentials | proved | `perspective_differentials` | CamProps |  |
| C115 | Every field of view below a half turn works | partial | `perspective_wide_refuted` | CamProps | False from tan(fov/2) = 32 on; perspective_ray shows it for tan(fov/2)^2 < 1000. |
| C116 | The field of view of the configuration is in degrees | partial | `default_fov_refuted` | CamProps | False: the number is used as radians. |
| C117 | Orthographic rays | proved | `orthographic_ray` | CamProps |  |
| C118 | Orthographic differentials | partial | `orthographic_differentials_refuted` | CamProps | False. |
| C119 | The panorama covers every direction | proved | `panorama_covers` | CamProps |  |
| C120 | All cameras show the same handedness | partial | `panorama_mirrored_refuted` | CamProps | False. |
| C121 | A sample of an unscaled light is a point of it, with its distance and density | proved | `light_sample_unscaled` | LightProps |  |
| C122 | A sample of a scaled light has its world distance and density | partial | `light_sample_scaled_refuted` | LightProps | False for every scale other than one. |
| C123 | pdf of a direction is the density of the sample with that direction | partial | `light_pdf_unscaled`, `light_pdf_scaled_refuted` | LightProps | True without scale, false for every other scale. |
| C124 | Rays leaving an unscaled light start on it and leave on its outer side | proved | `light_rays_unscaled` | LightProps |  |
| C125 | A path always ends | proved | `path_is_finite` | IntegProps |  |
| C126 | Light selection is in range and uniform | proved | `chosen_light_exists`, `light_chosen_uniformly` | IntegProps |  |
| C127 | Multiple importance sampling of one light is unbiased | proved | `mis_is_unbiased` | IntegProps |  |
| C128 | A light seen by the camera has its own brightness | partial | `visible_light_refuted` | IntegProps | False: twice the emission. |
| C129 | Several lights add up | partial | `many_lights_refuted` | IntegProps | False: the mean is the sum divided by the number of lights. |
| C130 | Russian roulette does not change the mean | partial | `roulette_refuted` | IntegProps | False: at most a quarter of the light is kept. |
| C131 | Emission is not counted twice along a path | partial | `indirect_emission_refuted` | IntegProps | False: counted twice. |
| C132 | Radiance is never negative | proved | `radiance_not_negative` | IntegProps |  |
| C133 | Arrays up to 32768 a side behave like maps | proved | `array2d_is_a_map`, `array2d_copy_is_a_map`, `array2d_from_values` | Array2DProps | C01 within the range where it is true. |
| C134 | Array sides up to 2^31 are rounded to the least power of two | proved | `array2d_side_least_pow2` | Array2DProps | C02 within its range. |
| C135 | Reading a bmp with positive sides is safe and complete | proved | `bmp_read_safe` | BmpProps | C04 within its range. |
| C136 | Bmp files of even width follow the format | proved | `bmp_conformant_even_width`, `bmp_read_conformant_even_width` | BmpProps | C05 within its range. |
| C137 | Tga images below 65536 pixels a side survive a round trip | proved | `tga_round_trip` | TgaProps | C06 within its range. |
| C138 | Reading an uncompressed or wide tga is safe | proved | `tga_read_safe`, `tga_read_determined`, `tga_read_invalid` | TgaProps | C07 within its range. |
| C139 | Uncompressed tga files and runs are decoded as the format says | proved | `tga_rle_decode`, `tga_rle_truncated`, `tga_raw_decode` | TgaProps | C08 within its range. |
| C140 | Paths whose parents are long enough are resolved | proved | `file_resolved`, `file_append_resolved` | PathProps | C11 within its range. |
| C141 | Names of files and paths of ancestors are right | proved | `file_names`, `file_root_names`, `file_ancestors`, `file_parent_root` | PathProps | C12 within its range; the name of an ancestor is right when it has at least two components. |
| C142 | Kd-tree nodes keep children below 2^29 | proved | `kdnode_leaf_lossless`, `kdnode_interior_lossless` | BitsProps | C13 within its range. |
| C143 | Up to 4096 assets are kept in order | proved | `kd_add_within_capacity` | KdAddProps | C16 within its range. |
| C144 | The film is exact for one worker and for pixels of one tile | proved | `render_film_exact`, `render_film_no_overcount` | RenderProps | C25 within its range. |
| C145 | Film updates stay inside and reach the own pixel with wide filters | proved | `film_update_inside`, `film_update_covers` | FilmProps | C26 within its range. |
| C146 | The random sampler visits every pixel of its tile in order | proved | `random_sampler_order`, `tile_order_bijective` | TilesProps | C28 for the random sampler. |
| C147 | The stratified sampler fills every stratum for square counts | proved | `stratified_sampler_order`, `tile_order_bijective` | TilesProps | C28 for the stratified sampler. |
| C148 | Scenes of at most 4096 operations are consistent | proved | `scene_consistent` | SceneProps | C30 within its range. |
| C149 | Obj files that end with a newline are read to their end | proved | `obj_terminates` | ObjProps | C34 within its range. |
| C150 | Up to 255 materials stay with their faces | proved | `obj_compaction` | ObjProps | C36 within its range. |
| C151 | Meshes made with room for a triangle accept any number | proved | `mesh_adds_in_order` | MeshProps | C37 within its range. |
| C152 | Accepted sizes and sample counts keep their promise | proved | `resolution_checked`, `resolution_safe`, `spp_checked`, `spp_nearest_square`, `spp_square_kept`, `spp_strata_exact`, `spp_random_kept` | ConfigProps | C39 within its range. |
| C153 | Rays that cross the plane of a triangle hit it exactly | proved | `tri_hit_sound`, `tri_hit_complete` | TriProps | C42 within its range. |
| C154 | Boxes contain what they engulf and are never missed | proved | `engulf_points_smallest`, `engulf_boxes_smallest`, `engulf_order_independent`, `slab_never_misses`, `transformed_box_contains`, `sphere_box_contains`, `tri_box_contains`, `inside_contains` | AabbProps, PrimProps, TriProps | C44 for the overload used by the accelerators. |
| C155 | Text and one-byte ppm files are decoded | proved | `ppm_binary_decode`, `ppm_ascii_decode` | PpmProps | C53 within its range. |
| C156 | Small meshes are intersected exactly through the hierarchy | proved | `bvh_intersect_closest_small`, `bvh_answer_geometric` | BvhProps | C19 within the stack. |
| C157 | Materials of up to five layers keep their layers | proved | `layers_kept` | BsdfProps | C71 within its range. |
| C158 | Lossless byte swaps | proved | `swap32_reverses_bytes`, `swap32_involutive`, `swap16_reverses_bytes`, `big32_is_swap` | UtilProps | C51 without the 16 bit macro. |
| C159 | The texture library frees exactly what it was given | proved | `tex_library_is_a_map` | LibProps | C54 for textures. |
| C160 | The tent filter shares out every sample | proved | `tent_weights` | FilterProps | The four pixels a sample lies between get 4 in total. |
| C161 | The gaussian filter fades out | proved | `gauss_weights` | FilterProps |  |
| C162 | Full weight at the centre | partial | `gauss_centre_refuted`, `mitchell_range_refuted`, `tent_weights`, `lanczos_weights` | FilterProps | False of the gaussian filter and of Mitchell with b > 0; true of tent and Lanczos. |
| C163 | The Mitchell filter shares out every sample | proved | `mitchell_weights` | FilterProps |  |
| C164 | The Lanczos filter is bounded | proved | `lanczos_weights` | FilterProps |  |
| C165 | No negative weights | partial | `mitchell_range_refuted`, `lanczos_range_refuted`, `tent_weights`, `gauss_weights` | FilterProps | False of Mitchell with c > 0 and of Lanczos with tau > 1; true of tent and gaussian. |
| C166 | A sample reaches both sides equally | partial | `film_update_symmetric_refuted` | FilmProps | False for every sample with pixels in the last unit of the range: the left one gets it, the right one does not. |
| C167 | Derivatives lead to the neighbouring hits | proved | `differentials_reach` | HitProps |  |
| C168 | Derivatives are always found on a proper frame | proved | `differentials_found` | HitProps |  |
| C169 | Derivatives are in texture coordinates | partial | `differentials_length_refuted`, `differentials_reach` | HitProps | The tangents are normalised first, so the derivatives come out times the tangents' lengths. |
| C170 | Height maps tilt away from the rise | proved | `height_tilt` | HitProps |  |
| C171 | A level height map changes nothing | proved | `height_flat` | HitProps |  |
| C172 | Normal maps give proper frames | proved | `normal_map_frame` | HitProps |  |
| C173 | The frame of a normal map stands on its normal | partial | `normal_map_mirrored_refuted`, `normal_map_upright` | HitProps | False wherever u x v is against the normal; true where it is along it. |
| C174 | Normal maps read red, green and blue as u, -v and n | proved | `normal_map_upright` | HitProps |  |
| C175 | A single layer answers as the layer itself in the shading frame | proved | `single_flags` | BsdfProps |  |
| C176 | Everything declared in the configuration files is collected once and by its own keys | proved | `declarations_collected` | DriverProps | Statements stand for the text; the scanner and the grammar are not modelled. |
| C177 | The renderer gets the last settings of the main file | proved | `settings_of_main` | DriverProps |  |
| C178 | A child file can overwrite the settings of its parent | partial | `children_settings_refuted`, `settings_of_main` | DriverProps | False: the renderer is built before the children are read. |
| C179 | An absolute child and the first relative one are read from the right place | proved | `child_paths` | DriverProps |  |
| C180 | Every relative child is read from the directory of the input file | partial | `child_paths_refuted`, `child_paths` | DriverProps | False for every relative child after the first: File::append changes current_dir. |
| C181 | Without relative children obj files and textures are found from the input file | proved | `deferred_paths` | DriverProps |  |
| C182 | Obj files and textures are found from the input file | partial | `deferred_paths_refuted`, `deferred_paths` | DriverProps | False as soon as one child is given by a relative path. |
| C183 | Reading proper configurations is defined | proved | `parse_defined` | DriverProps |  |
| C184 | A texture object loads its own image under its own name | proved | `texture_statement` | DriverProps |  |
| C185 | A plain texture name is searched in the library, then on the disk | proved | `texture_plain_name` | DriverProps |  |
| C186 | A texture path is searched in the library, then on the disk | partial | `texture_path_refuted`, `texture_name_refuted`, `texture_plain_name` | DriverProps | False for paths with directories: the library is searched by file name. True for plain names. |
| C187 | An object without a mask, or with a missing one that is not inverted, is visible | proved | `mask_disabled` | DriverProps |  |
| C188 | A missing mask is disabled | partial | `mask_missing_refuted`, `mask_disabled` | DriverProps | False for inverted masks. |
| C189 | A material is described by its own keys | proved | `material_keys` | BuildProps | An uniform colour takes precedence over a texture name, whatever their order: both are kept. |
| C190 | Every type of material has the documented layers | proved | `material_layers`, `documented_dist_unique` | BuildProps |  |
| C191 | No roughness gives a degenerate layer | proved | `material_valid` | BuildProps |  |
| C192 | Equal roughness and anisotropy mean an isotropic surface | partial | `material_isotropic_refuted`, `material_layers` | BuildProps | False above 1; true in the documented range. |
| C193 | The library has the first material of each name with its own textures | proved | `materials_built` | BuildProps |  |
| C194 | A dual material holds the materials it names | proved | `dual_components` | BuildProps |  |
| C195 | A dual material can name any material of the configuration | partial | `dual_forward_refuted`, `dual_components` | BuildProps | False: dual materials are resolved in order. |
| C196 | Every mesh is deleted or kept exactly once | proved | `meshes_owned_once` | BuildProps |  |
| C197 | No object uses a deleted mesh | proved | `objects_alive` | BuildProps |  |
| C198 | The scene keeps exactly the meshes that are used | proved | `meshes_kept` | BuildProps |  |
| C199 | Every object with a known shape is placed with its material | proved | `objects_placed` | BuildProps |  |
| C200 | The arrays of materials are freed | partial | `arrays_leaked_refuted`, `arrays_balanced` | BuildProps | False: those of duplicate meshes and of spheres are not freed; the exact balance is proved. |
| C201 | Syntax errors underline the wrong token | proved | `error_underlines_token` | ErrProps |  |
| C202 | Syntax errors at long tokens are reported safely | partial | `error_long_token_refuted` | ErrProps | Refuted: the index of the first tilde wraps below zero. |
| C203 | Syntax errors on the last line are reported safely | partial | `error_last_line_refuted` | ErrProps | Refuted: buf is not initialised and fread does not terminate it. |
| C204 | Tokens that cannot be underlined | proved | `error_not_shown` | ErrProps |  |
| C205 | Syntax errors of the main file name the right line | proved | `error_main_file` | ErrProps |  |
| C206 | Syntax errors of children name the right line | partial | `error_child_line_refuted` | ErrProps | Refuted: loc is never reset between files. |
| C207 | Line numbers after texts of more lines | partial | `error_after_long_text_refuted` | ErrProps | Refuted: only newlines outside tokens are counted. |
| C208 | Syntax errors on the first line of a child | partial | `error_child_column_refuted` | ErrProps | Refuted: the column of the main file's last line stays. |
| C209 | The elliptical filter stays in the map and in range | proved | `ewa_level_within` | EwaProps |  |
| C210 | The elliptical filter covers the height of the footprint | partial | `ewa_rows_refuted`, `ewa_level_within` | EwaProps | False: a product in place of a sum makes the vertical coefficient 1 for footprints along the axes. |
| C211 | The elliptical filter wraps around the border | partial | `ewa_seam_refuted`, `ewa_level_within` | EwaProps | False: the distance is taken after wrapping, so wrapped texels are outside of the ellipse. |
| C212 | The elliptical filter is defined on diagonal footprints | partial | `ewa_diagonal_level_refuted`, `ewa_diagonal_refuted`, `ewa_filter_safe` | EwaProps | False: the determinant is negative, no texel is inside, 0/0 is converted to a byte. |
| C213 | The elliptical filter is defined on wide footprints | partial | `ewa_wide_refuted`, `ewa_filter_safe` | EwaProps | False: the wrapped index is negative. |
| C214 | The elliptical filter uses existing levels | partial | `ewa_last_level_refuted`, `ewa_filter_safe` | EwaProps | False: the level after the last one is read. |
| C215 | The elliptical filter is safe on moderate footprints | proved | `ewa_filter_safe` | EwaProps |  |
| C216 | The elliptical filter blurs streaks | partial | `ewa_streak_refuted` | EwaProps | False: bilinear at full resolution is used. |
| C217 | Temperatures are normalised | proved | `blackbody_normalised` | ColorProps |  |
| C218 | Temperatures follow Planck's law | partial | `planck_refuted`, `planck_warm` | ColorProps | False at every temperature: +1 in place of -1 in the denominator. |
| C219 | Warm temperatures are close to Planck's law | proved | `planck_warm` | ColorProps |  |
| C220 | Hotter lights are bluer | proved | `hotter_is_bluer` | ColorProps |  |
| C221 | Both programs show the same colour for a temperature | proved | `temperature_same_colour` | ColorProps |  |
| C222 | Colours add up | proved | `colour_is_linear`, `luminance_is_y` | ColorProps |  |
| C223 | Colours come back from the picture | proved | `srgb_round_trip` | ColorProps | Over the reals with the constants of the source; rounding of floats is left out. |
| C224 | Brighter pixels have larger bytes | proved | `srgb_byte_monotone`, `srgb_encode_dip` | ColorProps | The function before truncation to bytes is not monotone. |
| C225 | White surfaces do not add light | partial | `white_wall_gain_refuted`, `spectral_surface_safe` | ColorProps | False: the third component grows by 1.08883 at each reflection. |
| C226 | White light on white walls is grey | partial | `white_wall_tint_refuted` | ColorProps | False: red is behind by a fifth of full intensity. |
| C227 | Surfaces of spectre-full do not add light | proved | `spectral_surface_safe` | ColorProps |  |
| C228 | The spectrum of a colour does not depend on the order of its channels | proved | `rgb_mixture` | ColorProps |  |
| C229 | Spectra given by samples keep their colour | partial | `samples_colour_refuted` | ColorProps | False: short wavelengths are averaged into X, long ones into Z; gold is cyan (gold_is_cyan). |
| C230 | Both programs refract alike | proved | `same_index`, `air_index` | ColorProps |  |
| C231 | Spectre-full disperses light | partial | `dispersion_refuted` | ColorProps | False: only the mean index is kept. |
| C232 | Png and tiff files survive a round trip | proved | `png_round_trip`, `tiff_round_trip` | CodecProps | The libraries are abstract stores of rasters. |
| C233 | Jpeg, png and tiff files are decoded | proved | `png_decoded`, `jpg_decoded`, `tiff_decoded` | CodecProps | The libraries are abstract stores of rasters. |
| C234 | Greyscale jpeg files can be read | partial | `grey_jpeg_refuted` | CodecProps | False for every greyscale jpeg file: three samples are read for each pixel. |
| C235 | CMYK jpeg files keep their pixels apart | partial | `cmyk_jpeg_refuted` | CodecProps | False: the red of the second pixel is the black of the first (cmyk_jpeg_ex). |
| C236 | Extensions mean one format | proved | `extensions_agree` | CodecProps |  |
| C237 | Tiff textures do not need libjpeg | partial | `tiff_without_jpeg_refuted` | CodecProps | False: img_dimensions asks for JPEG_FOUND, and the texture uses sides that were not set. |
| C238 | Accepted greyscale tiff textures are loaded | partial | `grey_tiff_refuted` | CodecProps | False: tiff_read refuses the file, its answer is ignored and the texture is uninitialised memory. |
| C239 | Textures have the pixels of their files | proved | `texture_has_file_pixels` | CodecProps |  |
| C240 | The layout of a configuration does not matter | proved | `layout_scanned` | ScanProps | layout and written are in ScanSpec.v; flex's longest match with ties to the first rule is modelled rule by rule. The text has no NUL. Strings must not end in a backslash (C244). |
| C241 | Numbers of a configuration have their decimal value | proved | `numbers_read` | ScanProps | The value is an exact rational: the rounding of atof and the conversion to float are not modelled. |
| C242 | Integers beyond int are diagnosed | partial | `integer_overflow_refuted` | ScanProps | False: for every integer literal outside int, after any well-formed prefix, atoi has undefined behaviour (the comment in the scanner says that lex ensures no errors). |
| C243 | Reading a configuration text is defined | proved | `scan_defined` | ScanProps | scan returns, and UB only comes from an integer literal outside int. |
| C244 | A quoted string ends at its quote | partial | `backslash_refuted` | ScanProps | False: after a backslash the closing quote is taken as part of the string, which goes on to the next quote of the file; without one the file is refused. layout_scanned proves the rest: strings that do not end in a backslash end at their quote. |
| C245 | The documented float literals are accepted | partial | `readme_float_refuted` | ScanProps | False: E10 is refused as an unknown character wherever it stands. |
| C246 | The parser accepts exactly the documented configurations | proved | `documents_parsed`, `documents_unambiguous` | GramProps | document is in GramSpec.v. The LALR automaton that bison generates is not modelled: recursive descent with one token of lookahead stands for it. |
| C247 | A configuration text is read as what it says | proved | `config_read`, `config_read_only` | GramProps | Scanner and parser together; the whole text is scanned before it is parsed, so of two errors the model may report the later one. |
| C248 | The example of README.md is accepted | partial | `readme_integrator_refuted` | GramProps | False: `pt` is scanned as platinum, so every such file is refused; the keyword is `path`. readme_example runs the file of README.md both ways. |
| C249 | The keys of an object may come in any order | partial | `name_first_refuted` | GramProps | False: a world or light object whose first key is not `name` is refused, whatever follows; even a comma before the name. documents_parsed proves the free order of the others. |
| C250 | A texture tangent follows the triangle | proved | `tri_tangents` | TanProps | Exact rational arithmetic; tri_tangents_ex also shows that the coordinates parser_obj makes up for faces without vt are unfolded. |
| C251 | Tangents stay finite on any mapping | partial | `tri_folded_refuted` | TanProps | False: with texture coordinates on one line no component of dpdu or dpdv is finite (triangle.cpp:68 divides by zero). tri_tangents is the claim for the others. |
| C252 | A mask sees the footprint of the ray at hand | partial | `tri_mask_stale_refuted` | TanProps | False: triangle.cpp:103 copies du from the record the caller passes, which camera rays fill only after the hit; two records that differ in it give different answers for some mask. |
| C253 | A mask gets both texture derivatives | partial | `tri_mask_dv_refuted` | TanProps | False: triangle.cpp:104 stores du in dv, so a mask that accepts only the true dv rejects every hit. |
| C254 | Surface of a face in the world | proved | `face_area_world`, `face_area_local` | FaceProps | Real numbers; the area is Heron's formula on the world corners. |
| C255 | Surface and densities of a mesh | proved | `faces_area_world` | FaceProps | Real numbers, exact sums. |
| C256 | Points sampled on a face are exactly its points | proved | `face_sample_in`, `face_sample_onto` | FaceProps | Real numbers; r0 below zero is treated as zero, as in the code. |
| C257 | Points sampled on a face are uniform | proved | `face_sample_uniform` | FaceProps | Real numbers; area_element is the length of the cross product of the partial derivatives. |
| C258 | The normal sampled on a face | proved | `face_sample_normal` | FaceProps | Real numbers; the tolerance is that of normalize(). |
| C259 | The progress bar tells the truth | proved | `bar_honest` | BarProps | Exact arithmetic; the listener sees the size of the queue between two steps (in C++ its unlocked read is a data race). bar_ex: one of three tiles taken. |
| C260 | The progress bar is defined from the start | partial | `bar_start_refuted` | BarProps | False: until the first tile is taken jobs_no-remaining is zero and an infinity or NaN is converted to time_t; the listener starts before the workers (bar_start_ex). |
| C261 | The progress bar does not move back | proved | `bar_forward` | BarProps | Exact arithmetic. |
| C262 | Rendering a small scene again | proved | `rebuild_same_small` | KdAgainProps | The kd-tree object over time, KdAgainModel; first_build ties its first build to the other kd-tree theorems. |
| C263 | Assets added between two renderings appear | partial | `rebuild_added_refuted` | KdAgainProps | False: nodes_index is not reset, so rays start at the root of the first build; with at most three assets in it, rays of the second see at most as many assets as before, and with three in total exactly the old ones. |
| C264 | Rendering any scene again | partial | `rebuild_same_refuted` | KdAgainProps | False: the second build lists duplicated assets again and moves the ranges the first nodes refer to; the scene `shelf` loses a box. rebuild_same_small is the claim for scenes of one leaf. |
| C265 | Texture coordinates name the point of the sphere | proved | `sphere_uv_names` | SphUvProps | compute_uvs over the reals, SphUvModel; the map of the texture is `globe` in SphUvSpec. |
| C266 | A texture covers a sphere exactly once | proved | `sphere_uv_every` | SphUvProps | Together with sphere_uv_names a bijection between the open texture and the sphere without its poles. |
| C267 | Tangents of a sphere are derivatives | proved | `sphere_tangents` | SphUvProps | Derivatives in the sense of the standard library. |
| C268 | Tangents and normal of a sphere form a frame | proved | `sphere_hit_frame` | SphUvProps | For hits whose normal is on the sphere; grazing misses that count as hits (sphere_graze_refuted) are excluded. |
| C269 | Smaller boxes measure less | proved | `box_measures_grow` | AabbOpProps |  |
| C270 | Centre and longest axis of a box | proved | `box_center_mirror`, `box_longest_axis` | AabbOpProps |  |
| C271 | Comparing boxes is consistent | proved | `box_order_consistent` | AabbOpProps |  |
| C272 | Equal boxes are the same box | partial | `box_equal_refuted` | AabbOpProps | False: == compares surfaces, so a box equals its copy next to it; the default (empty) box has infinite surface and is larger than every finite box. box_order_consistent is what holds. |
| C273 | Working in place is the same as working on copies | proved | `vec_in_place` | AliasProps | Assignments to memory cells, AliasModel. |
| C274 | Writing a result into another object | proved | `into_other`, `mat_in_place` | AliasProps |  |
| C275 | A cross product may be stored in an operand | partial | `cross_alias_refuted` | AliasProps | False: the components written first are read again. into_other is the claim for separate objects. |
| C276 | A matrix may be transposed in place | partial | `transpose_alias_refuted` | AliasProps | False: the lower triangle is copied over the upper one; right only for symmetric matrices. |
| C277 | Transposing into another matrix | proved | `transpose_into_other` | AliasProps |  |
| C278 | Equality of vectors is closeness | proved | `vec_eq_tolerance` | VecEqProps |  |
| C279 | Equality of vectors is an equivalence | partial | `vec_eq_refuted` | VecEqProps | False: not transitive, all vectors with components up to 2^-24 are equal, and vectors with infinities or NaN are neither == nor != themselves. |
| C280 | The masking term of GGX is a share | proved | `ggx_masking_range` | AnisoProps |  |
| C281 | The masking term of GGX is the one of Smith | partial | `ggx_masking_refuted` | AnisoProps | False: the sine is computed from the fourth power of the cosine, the term is too small in every direction other than the normal. |
| C282 | Approximate masking stays within a bound | proved | `approximate_masking` | AnisoProps |  |
| C283 | Nothing is more than fully visible | partial | `approximate_masking_refuted` | AnisoProps | False for every exponent and roughness: the rational approximation exceeds one just below its cut at 1.6. |
| C284 | The anisotropic distribution is GGX | proved | `aniso_normals` | AnisoProps |  |
| C285 | The anisotropic distribution has no exception at the normal | partial | `aniso_normals_refuted` | AnisoProps | False unless pi ax ay = 1: at the normal the density is 1. |
| C286 | Anisotropic masking | proved | `aniso_masking`, `aniso_reciprocal` | AnisoProps |  |
| C287 | Surfaces are fully visible from the normal | partial | `aniso_masking_refuted` | AnisoProps | False: the auxiliary function is 1 instead of 0 along the normal, the term is 1/3 there. |
| C288 | Anisotropic half vectors are drawn with the reported density | proved | `aniso_sampling` | AnisoProps |  |
| C289 | A folder is created exactly when it can be | proved | `folder_created` | FsProps |  |
| C290 | Missing folders are created all the way | proved | `folders_created` | FsProps |  |
| C291 | A new file object knows what its path names | proved | `kind_fresh` | FsProps |  |
| C292 | A file object never contradicts the file system | partial | `kind_stale_refuted` | FsProps | False: the result of stat is that of the time the object was made; true of new objects (C291). |
| C293 | The parent of a file is a folder | partial | `parent_kind_refuted` | FsProps | False: the parent keeps the result of stat of the file. |
| C294 | A folder lists exactly its entries | proved | `listing_exact` | FsProps |  |
| C295 | Backslashes in names are kept | partial | `listing_backslash_refuted` | FsProps | False: a backslash in a name is taken for a separator. |
| C296 | The film writes to the path it was given | proved | `film_output_chosen` | FsProps |  |
| C297 | An accepted output can be written | partial | `film_accepts_unwritable_refuted` | FsProps | False: whether the parent is a folder and whether an existing output can be written to is not checked. |
| C298 | No output without a format | partial | `film_trailing_separator_refuted` | FsProps | False of paths that end with a separator and name nothing. |
| C299 | Rough reflections report the density of their directions | proved | `rough_reflection_density` | TransProps |  |
| C300 | Rough refractions report the density of their directions | partial | `rough_transmission_density_refuted` | TransProps | False: the Jacobian has the index and cosine of the wrong side; the ratio to the true density is given. |
| C301 | Values of rough refractions obey the law for interfaces and reciprocity | proved | `rough_transmission_value`, `rough_transmission_reciprocal` | TransProps |  |
| C302 | Rough refractions are never negative and stay on the other side | proved | `rough_transmission_nonnegative` | TransProps |  |
| C303 | Light is refracted only where a microfacet can refract it | partial | `impossible_refraction_refuted` | TransProps | False: whether the directions are on different sides of the microfacet is not checked. |
| C304 | Height maps are differentiated over steps that are never zero | proved | `height_steps` | HitProps |  |
| C305 | A mask shows the object where the written channel says so | proved | `mask_as_written` | DriverProps |  |
| C306 | Dual materials keep the two names written | proved | `dual_as_written` | GramProps |  |
| C307 | Indices by the Sellmeier equation | proved | `sellmeier_index` | ColorProps |  |
| C308 | Random samples stay on their pixel in single precision | proved | `float_random_positions` | FltProps |  |
| C309 | Random samples belong to their own pixel | partial | `float_next_pixel_refuted` | FltProps | False: for every pixel from 2 on the random number 1-2^-24 puts the sample on the next pixel. |
| C310 | Stratified samples stay in their stratum in single precision | proved | `float_stratified_positions` | FltProps |  |
| C311 | The number of strata is the integer square root | proved | `float_strata` | FltProps |  |
| C312 | A sample reaches the pixels within its filter in single precision | proved | `float_film_reach` | FltProps |  |
| C313 | Every channel is saved as a byte, in order | proved | `float_byte` | FltProps |  |
| C314 | An undefined sample does not spoil its pixel | partial | `float_undefined_sample_refuted` | FltSumProps | False: one NaN channel makes the pixel white whatever its other samples are. |
| C315 | The weights of a box filter count the samples exactly | proved | `float_weight_counts` | FltSumProps |  |
| C316 | The chosen light exists in single precision | proved | `float_light` | FltSumProps |  |
| C317 | Cumulative areas never decrease in single precision | proved | `float_densities_sorted` | FltSumProps |  |
| C318 | A face is found for every random number in single precision | proved | `float_face_found` | FltSumProps |  |
| C319 | Sampling a mesh of proper faces ends | partial | `float_face_hangs_refuted` | FltSumProps | False: the area of a small last face is lost in the sum and the random number 1 makes the search run forever. |
| C320 | Normalised vectors have length one in single precision | proved | `float_normalize` | FltVecProps |  |
| C321 | Normalising twice is normalising once | proved | `float_normalize_twice` | FltVecProps |  |
| C322 | Short vectors are normalised | partial | `float_normalize_short_refuted` | FltVecProps | False: the squared length underflows to 0 and the result is infinite or NaN. |
| C323 | Long vectors are normalised | partial | `float_normalize_long_refuted` | FltVecProps | False: the squared length overflows and the result is the zero vector. |
| C324 | The generator's number is rounded as IEEE says | proved | `float_random_number` | FltWellProps |  |
| C325 | Rounding keeps nested boxes nested | proved | `float_box_nested` | FRayProps | Excluded: rays that run in the plane of a face, where the code computes 0 times infinity. |
| C326 | A ray from inside a box hits it | proved | `float_box_inside` | FRayProps |  |
| C327 | Rounding loses no object in the kd-tree | proved | `float_kd_complete` | FKdProps |  |
| C328 | Built trees lose no object in single precision | proved | `float_kd_scene` | FKdBuildProps | The sums of the cost function are a parameter; comparisons of the construction are exact in single precision. |
| C329 | Rounding loses no triangle in the Bvh | proved | `float_bvh_complete` | FBvhProps |  |
| C330 | A box crossed by a millionth of the distance is hit | proved | `float_box_margin` | FBoxMarginProps |  |
| C331 | A ray through a box is reported | partial | `float_box_miss_refuted` | FBoxMarginProps | False: without a margin the rounded distances of two faces can change their order. |
| C332 | Meshes have no cracks | partial | `float_crack_refuted` | FBoxMarginProps | False: the two triangles round the barycentric coordinates of the edge differently. |
| C333 | The closest object is found up to a millionth | proved | `float_kd_margin` | FBoxMarginProps |  |
| C334 | Far spheres are hit on their surface | partial | `float_sphere_far_refuted` | FSphereProps | False: from 2^14 radii on the squared radius is lost, the hit is the centre of the sphere and its normal is NaN. |
| C335 | Only nearer objects hide, and clearly nearer ones always do | proved | `float_occlusion` | FSphereProps |  |
| C336 | Far lights do not hide themselves | partial | `float_occlusion_far_refuted` | FSphereProps | False: from 32768 on the tolerance is lost in the sum, and a neighbouring number hides. |
| C337 | The world box contains the transformed points | proved | `float_box_transform` | FMatProps |  |
| C338 | The box of an asset contains its transformed vertices | proved | `float_mesh_box` | FMatProps |  |
| C339 | The box of a sphere contains its transformed points | proved | `float_sphere_box` | FMatProps |  |
| C340 | The exact object leaves its box only by rounding | proved | `float_box_image` | FMatBoundProps |  |
| C341 | The exact object is inside its box | partial | `float_box_far_refuted` | FMatBoundProps | False: from 2^26 on the radius is lost in the sum and the box of a unit sphere is flat; the error is bounded by C340. |
| C342 | A pixel is the mean of its samples up to rounding | proved | `float_film_mean` | FFilmProps |  |
| C343 | The schedule changes a pixel only by rounding | proved | `float_film_order` | FFilmProps |  |
| C344 | The schedule does not change a pixel | partial | `float_film_order_refuted` | FFilmProps | False: 1, 2^-24, 2^-24 and 2^-24, 2^-24, 1 give different means; the difference is bounded by C343. |
| C345 | Masking by two directions | proved | `masking_of_two` | AnisoProps |  |
| C346 | Quadratic equations have solutions when they should | proved | `float_equation2_finds` | FQuadRootProps |  |
| C347 | Solutions of quadratic equations solve them | proved | `float_equation2_roots` | FQuadRootProps |  |
| C348 | What is hit of a sphere lies on it | proved | `float_sphere_on` | FSphereHitProps |  |
| C349 | Rays that pass by a sphere miss it | proved | `float_sphere_miss` | FSphereFindProps |  |
| C350 | Rays through a sphere hit it | proved | `float_sphere_hit` | FSphereFindProps |  |
| C351 | A sphere is hit on the side that is met first | proved | `float_sphere_first` | FSphereFindProps |  |
| C352 | Distances mean the same in the space of a shape | proved | `float_ray_image` | FRayImageProps |  |
| C353 | Moving a shape does not turn rays | proved | `float_ray_moved` | FRayImageProps |  |
| C354 | Hits of triangles lie on the triangle | proved | `float_triangle_on` | FTriHitProps |  |
| C355 | Rays through a triangle hit it | proved | `float_triangle_hit` | FTriHitProps |  |
| C356 | Rays past a triangle miss it | proved | `float_triangle_miss` | FTriHitProps |  |
| C357 | The distance to a triangle is a number | partial | `float_triangle_number_refuted` | FTriHitProps | False: a triangle with edges of 2^-70 whose first vertex is the origin of the ray is hit at distance NaN, because the reciprocal of the volume is infinite and infinity times zero passes every comparison. float_triangle_on proves it for volumes of at least 2^-60. |
| C358 | Rays that leave a sphere outwards miss it | proved | `float_sphere_leaving` | FLeaveProps |  |
| C359 | Spheres do not shadow themselves | partial | `float_sphere_leaving_refuted` | FLeaveProps | False for large spheres: on a sphere of radius 64 a ray that leaves nearly along the surface hits it again at 0.02. float_sphere_leaving proves it when the start is at most 9e-5 /d/^2 below the surface, which for rounding alone allows radii up to about 10. |
| C360 | Rays that leave a triangle miss it | proved | `float_triangle_leaving` | FLeaveProps |  |
| C361 | Triangles do not shadow themselves | partial | `float_triangle_leaving_refuted` | FLeaveProps | False from coordinates of 2^18 on, where the hit point is rounded by more than the offset. float_triangle_leaving proves it for K^2 L up to 800. |
| C362 | Dielectrics reflect a fraction in single precision | proved | `float_dielectric_fraction` | FFresProps |  |
| C363 | Dielectrics reflect the right fraction in single precision | proved | `float_dielectric_near` | FFresNearProps |  |
| C364 | Matched media reflect nothing in single precision | partial | `float_dielectric_matched_refuted` | FFresNearProps | False at grazing angles: for cosines up to 2^-13 everything is reflected, because the square of the sine rounds to one. float_dielectric_near bounds the error elsewhere. |
| C365 | Metals reflect the right fraction in single precision | proved | `float_conductor_fraction` | FFresProps |  |
| C366 | Metals never reflect a negative fraction in single precision | partial | `float_conductor_negative_refuted` | FFresProps | False without absorption, by less than 2^-21. float_conductor_fraction proves it for absorptions of at least a 500th of the index, which all metals have. |
| C367 | Unfiltered look ups read the right texel in single precision | proved | `float_unfiltered` | FTexProps |  |
| C368 | Bilinear look ups are right in single precision | proved | `float_bilinear` | FTexProps | Array2D::get is a function that is defined inside the texture; its memory layout is C01 and following. |
| C369 | Textures of one colour keep it from half a texel on | proved | `float_bilinear_constant` | FTexConstProps |  |
| C370 | Textures of one colour keep it | partial | `float_bilinear_constant_refuted` | FTexConstProps | False within the first half texel: for every side there is a coordinate at which a white texture gives 254. float_bilinear_constant proves it from half a texel on. |
| C371 | Repeated coordinates are exact in single precision | proved | `float_repeat` | FTexConstProps |  |
| C372 | Refraction is defined in single precision | proved | `float_refract_defined` | FSpecProps |  |
| C373 | Refraction obeys Snell's law in single precision | proved | `float_refract_near` | FSpecNearProps |  |
| C374 | Smooth mirrors never amplify light in single precision | proved | `float_mirror_bounded` | FMirrorProps |  |
| C375 | Smooth mirrors have a value along the surface | partial | `float_mirror_grazing_refuted` | FMirrorProps | False for a cosine of exactly 0: the value of every metal, and of glass thinner than its surroundings, is infinite, and the power of the path is no number. float_mirror_bounded proves it from 2^-60 on. |
| C376 | Every layer of a material can be chosen in single precision | proved | `float_layer` | FMirrorProps |  |
| C377 | The tent filter keeps its shape in single precision | proved | `float_tent` | FFilterProps |  |
| C378 | The Mitchell filter is accurate in single precision | proved | `float_mitchell` | FMitchellProps |  |
| C379 | The weights of light and material samples are fair in single precision | proved | `float_mis_weights` | FMisProps |  |
| C380 | Every light sample with a positive density has a weight | partial | `float_mis_overflow_refuted` | FMisProps | False: the square of a density of 2^64 or more is infinite, the weight is infinity over infinity and the contribution to the pixel no number. The test for an infinite density in sample_visible_surface does not see it. Densities below 2^-75 give 0 over 0. float_mis_weights proves it in between. |
| C381 | A combined sample never adds more than it would alone | proved | `float_mis_terms` | FMisProps |  |
| C382 | GGX masking is monotone in single precision | proved | `float_ggx_masking` | FGgxProps |  |
| C383 | The GGX density is defined in single precision | proved | `float_ggx_defined` | FGgxProps |  |
| C384 | The GGX density is defined for all directions | partial | `float_ggx_defined_refuted` | FGgxProps | False for directions closer to the surface than 2^-75 but not in it (the squared cosine vanishes: infinity times 0), and along the normal for roughness 0 (0 over 0). float_ggx_defined proves it elsewhere. |
| C385 | Refraction transmits what Fresnel's equations let pass, in single precision | proved | `float_refract_value` | FSpecValueProps |  |
| C386 | Oren-Nayar surfaces are reciprocal bit by bit | proved | `float_oren_reciprocal` | FOrenProps |  |
| C387 | Oren-Nayar surfaces have a finite positive value, and are Lambertian at roughness 0 | proved | `float_oren_range` | FOrenProps |  |
| C388 | Oren-Nayar surfaces have a finite value in every direction | partial | `float_oren_range_refuted` | FOrenProps | False if both directions lie in the surface: the tangent is 1 over 0, and the value is infinite or NaN, for every roughness. float_oren_range proves it when one direction is 2^-60 away. |
| C389 | The density of the directions towards a light is the squared distance over the seen area, in single precision | proved | `float_light_density` | FLightProps |  |
| C390 | A light seen along its surface gives no sample | proved | `float_light_along` | FLightProps |  |
| C391 | Directions survive the trip from the shading frame to the world and back, in single precision | proved | `float_shading_round_trip` | FShadeProps |  |
| C392 | Equality of vectors and points in single precision is exact from 2 on | proved | `float_vec_equal` | FVecEqProps |  |
| C393 | A vector with an infinite component or NaN is equal to nothing but never different from itself | proved | `float_vec_not_finite` | FVecEqProps |  |
| C394 | Matrices are equal if all entries are, up to 1e-5 in single precision | proved | `float_mat_equal` | FVecEqProps |  |
| C395 | A normalised vector counts as normalised, in single precision | proved | `float_is_normalized` | FVecEqProps |  |
| C396 | A point sampled on a triangle is where the exact one is, in single precision | proved | `float_face_sample` | FFaceProps |  |
| C397 | The weights of a sampled point are a partition of 1 up to rounding | proved | `float_face_weights` | FFaceProps |  |
| C398 | The weights of a sampled point are never negative | partial | `float_face_weights_refuted` | FFaceProps | false: for r0 up to 2^-52 the first weight is 1 and the third is minus the second; C397 is what holds |
| C399 | Directions sampled on a diffuse surface, in single precision | proved | `float_diffuse_dir` | FDiffProps |  |
| C400 | A path that leaves a diffuse surface is weakened by the colour of the surface only, in single precision | proved | `float_lambert_power` | FDiffProps | the frame is the one of the shading normal; roulette is left out |
| C401 | The density of a diffuse direction vanishes across the surface and agrees with the sampled one | proved | `float_diffuse_pdf` | FDiffProps |  |
| C402 | The density of a diffuse direction is the one it was sampled with | partial | `float_diffuse_pdf_refuted` | FDiffProps | false for cosines from 2^-140 to 2^-76, where the product of the cosines vanishes; C401 is what holds |
| C403 | Beckmann masking is defined in single precision | proved | `float_beckmann_masking` | FMicroProps |  |
| C404 | Beckmann masking is defined for every roughness the constructor accepts | partial | `float_beckmann_negative_zero_refuted` | FMicroProps | false for the roughness -0, which clamp returns unchanged; C403 is what holds |
| C405 | Blinn masking is defined in single precision | proved | `float_blinn_masking` | FMicroProps |  |
| C406 | Exchanging the directions changes a rough reflection through the Fresnel factor only | proved | `float_rough_reciprocal` | FRoughProps | the Fresnel factor is evaluated at dot(wi, wh) and not at a symmetric argument, which is why it is held constant |
| C407 | Rough reflections with GGX are defined in single precision | proved | `float_rough_defined` | FRoughProps | the Fresnel factor of dielectrics meets the hypothesis by C362 |
| C408 | Rough reflections with GGX are defined for all directions | partial | `float_rough_grazing_refuted` | FRoughProps | false for cosines up to 2^-77 on either side, where the product of the cosines vanishes; C407 is what holds |
| C409 | Boxes grown from points in single precision | proved | `float_box_of_points` | FGrowProps | all lists by induction; values compared through inside |
| C410 | A point that is no number does not disturb a box | partial | `float_box_nan_refuted` | FGrowProps | false: such a point makes the box forget, on that axis, all points before it |
| C411 | Smaller boxes have smaller surfaces in single precision | proved | `float_box_surface` | FBoxSizeProps | coordinates up to 2^60 |
| C412 | The longest axis in single precision | proved | `float_longest_axis` | FBoxSizeProps | coordinates up to 2^60 |
| C413 | The center of a box lies in it in single precision | proved | `float_box_center` | FBoxSizeProps | coordinates up to 2^126 |
| C414 | The center of every finite box lies in it | partial | `float_box_center_refuted` | FBoxSizeProps | false: the sum overflows when both bounds are at least 2^127; true up to 2^126, see C413 |
| C415 | Samples land at their place on the screen in single precision | proved | `float_screen_place` | FCamProps | product with the identity screen2camera left out; camera2world not included |
| C416 | Samples keep their order on the screen in single precision | proved | `float_screen_order` | FCamProps | screen coordinates, before camera2world |
| C417 | inverse_lerp in single precision | proved | `float_inverse_lerp` | FLerpProps | numbers up to 2^126 |
| C418 | lerp in single precision | proved | `float_lerp` | FLerpProps | bounds up to 2^120 |
| C419 | lerp stays between its bounds | partial | `float_lerp_refuted` | FLerpProps | false by one unit in the last place: a result above equal bounds and a pair of values in the wrong order; see C418 for the error |
| C420 | Faces are sampled with numbers between 0 and 1 in single precision | proved | `float_mesh_sample01` | FLerpProps | same assumption as C318: the last face adds to the sum |
| C421 | Distances are symmetric in single precision | proved | `float_distance_symmetric` | FDistProps | coordinates up to 2^40 |
| C422 | Distances are accurate in single precision | proved | `float_distance_near` | FDistProps | coordinates up to 2^40, distance at least 2^-45 |
| C423 | Only equal points are at distance 0 | partial | `float_distance_zero_refuted` | FDistProps | false: the squares of differences up to 2^-76 vanish |
| C424 | The cross product is antisymmetric in single precision | proved | `float_cross_antisymmetric` | FDistProps | coordinates up to 2^40; values, the sign of 0 aside |
| C425 | The camera frame is orthonormal in single precision | proved | `float_camera_frame` | FLookProps | up vector at least 27 degrees off the view; tolerances 3e-5 and 1e-5 |
| C426 | Perspective rays start at the position of the camera in single precision | proved | `float_camera_origin` | FLookProps | position up to 2^127; finite frame |
| C427 | Perspective rays have length 1 and the right direction in single precision | proved | `float_camera_direction` | FLookProps | as C425; tolerance 1.1e-4; the raster-to-camera point is arbitrary |
| C428 | Every camera has a usable frame | partial | `float_camera_parallel_refuted` | FLookProps | false: with the up vector along the view the axes are NaN |
| C429 | Mirrors return the exact mirror image in single precision | proved | `float_mirror_direction` | FMirrorDirProps |  |
| C430 | Bytes become channels in single precision | proved | `float_byte_colour` | FByteProps |  |
| C431 | Pixels survive the conversion to colours in single precision | proved | `float_pixel_round_trip` | FByteProps | the conversion of the film alone, without the conversion to and from XYZ |
| C432 | Orthographic rays are parallel in single precision | proved | `float_ortho_direction` | FPanoProps | as C425 |
| C433 | Panoramic rays cover the sphere in single precision | proved | `float_pano_direction` | FPanoProps | as C425; assumes of the library that the squares of sine and cosine add up to 1 within 1e-6; the angles themselves are not modelled |
| C434 | Rough reflections mirror about the half vector in single precision | proved | `float_rough_direction` | FReflProps | tolerance 2e-4 in each coordinate |
| C435 | Rough refractions follow Snell's law in single precision | proved | `float_rough_refraction` | FRefrProps | between a squared sine of 0.99 and 1.00004 only that the result is finite; tolerance 4.1e-4 in each coordinate |
| C436 | Two dimensional vectors are normalised in single precision | proved | `float_normalize2` | FVec2Props | tolerances as stated |
| C437 | What passes as a normalised two dimensional vector | proved | `float_unit2_sound` | FVec2Props |  |
| C438 | Normalised two dimensional vectors pass the test | partial | `float_unit2_refuted` | FVec2Props | False: the tolerance is one unit in the last place; (1,11) fails after normalisation. What normalisation does guarantee is C436. |
| C439 | Clamping finds the nearest number within the bounds | proved | `float_clamp`, `float_clamp_vec` | FClampProps | numbers and, coordinate by coordinate, vectors |
| C440 | Colours of scene files convert to bytes | proved | `float_colour_byte` | FClampProps | no text of a scene file reads as NaN; for NaN the conversion is undefined (float_clamp_nan_refuted) |
| C441 | Saturated vectors lie in the unit cube | proved | `float_saturate` | FClampProps |  |
| C442 | Clamped values lie within the bounds | partial | `float_clamp_nan_refuted` | FClampProps | False: NaN passes unchanged. For numbers see C439. |
| C443 | Normals of sampled triangles are exact up to rounding | proved | `float_face_normal` | FFaceNormProps | in object space; coordinates up to 256 |
| C444 | Samples are filtered at their distance from the pixel in single precision | proved | `float_filter_offset` | FPlaceProps | one axis |
| C445 | Texture coordinates are scaled and shifted in single precision | proved | `float_texture_coordinate` | FPlaceProps | one axis |
| C446 | An expanded box holds exactly the points close to the box | proved | `box_expanded` | RestProps | exact arithmetic with infinities |
| C447 | The surface of a mesh is the sum of the areas of its triangles | proved | `faces_area_local` | FaceSumProps | in the reals |

## Findings: what the proofs refute

Each entry names the theorem; "UB" is undefined behaviour reached on an input
that the interface accepts.

### Containers, images, paths
* `Array2D` of side 65536: the index overflows `int`, the clear length wraps to 0 (`array2d_side_65536_refuted`, `array2d_zero_65536_refuted`); requested sides above 2^31 become 1 (`array2d_side_huge_refuted`).
* bmp: height 0 divides by zero, negative widths are UB (`bmp_read_zero_height_refuted`, `bmp_read_negative_width_refuted`); odd widths give files that do not follow the format (`bmp_odd_width_refuted`).
* tga: sides of 65536 and more are truncated although the write succeeds (`tga_big_side_refuted`); run-length files of width 1 to 126 can overrun the buffer (`tga_read_overrun_refuted`); raw packets of two or more pixels are decoded wrongly (`tga_raw_packet_refuted`).
* ppm: two-byte samples are wrong (`ENDIANNESS_BIG16` drops a byte), samples above the maximum are UB, the macro `CLAMP` lacks parentheses (`ppm_16bit_refuted`, `big16_is_swap_refuted`, `ppm_sample_overflow_refuted`, `ppm_clamp_refuted`).
* Paths: `..` after a name of one character, the root, a lone `.` or `..` (`file_dotdot_refuted`, `file_root_refuted`, `file_dot_refuted`); parents never have an extension and first-level ancestors have a wrong name (`file_parent_extension_refuted`, `file_parent_refuted`).

### Accelerators and scene
* kd-tree: child indices from 2^29 are lost (`kdnode_child_range_refuted`); the 4097th asset is written past the buffer (`kd_add_over_capacity_refuted`); leaves can overflow the buffer while building (`kd_build_overflow_refuted`); a flat asset can be lost (`kd_flat_asset_lost_refuted`); rays in the plane of a box face miss (`kd_face_plane_refuted`).
* BVH: faces are reordered, their materials are not (`bvh_material_refuted`); centroids that agree on an axis give NaN converted to an integer (`bvh_flat_conversion_refuted`); the stack of 32 entries overflows (`bvh_stack_overflow_refuted`).
* Boxes: false hits for rays in the plane of a face (`slab_exact_refuted`, `box_plane_refuted`); misses with a negative zero (`slab1_negative_zero_refuted`).
* Scene: repeated assets are traced twice, identifiers wrap, too many assets overflow (`scene_repeated_asset_refuted`, `scene_id_wrap_refuted`, `scene_too_many_assets_refuted`).
* Occlusion: asking twice may change the answer (`occlusion_twice_refuted`), rays of five bounces read past the cache (`occlusion_bounces_refuted`).
* A material added under a name in use is never freed (`mtl_library_leak_refuted`).

### Rendering
* Several workers lose updates of the film near tile borders (`render_film_lost_update_refuted`, `render_film_border_refuted`); the box filter covers no pixel for some samples (`film_update_box_refuted`).
* The stratified sampler leaves samples unset when spp is not a square (`stratified_unfilled_refuted`); the height is not rounded to tiles, the largest sample counts overflow (`resolution_height_refuted`, `spp_overflow_refuted`).

### Meshes and obj files
* `Mesh(0)` writes out of bounds (`mesh_size_zero_refuted`); the sampled face is one too low, a single face reads index -1, zero-area last faces loop forever (`mesh_sample_face_refuted`, `mesh_sample_single_refuted`, `mesh_sample_diverges_refuted`).
* obj: a last line without newline is read forever; an object without faces drops the rest; the material is reset per object; a second file keeps the old vertices; `v/vt` corners take stale normals; faces with one or two corners and early relative indices are UB; 256 materials and more are mixed up (`obj_terminates_refuted`, `obj_unfinished_refuted`, `obj_every_object_refuted`, `obj_material_persists_refuted`, `obj_second_file_refuted`, `obj_texture_only_refuted`, `obj_texture_only_unset_refuted`, `obj_short_face_refuted`, `obj_relative_index_refuted`, `obj_materials_256_refuted`, `obj_materials_257_refuted`).

### Shapes, transforms, cameras
* Rays in the plane of a triangle miss it (`tri_coplanar_refuted`).
* Uniform scales of 0.02 or less are not inverted and the inverse is left unset; `mul` onto its first operand is wrong (`small_scale_refuted`, `mul_onto_first_refuted`).
* Spheres: grazing misses count as hits, the more the larger the sphere; masked spheres ignore the distance; pole hits are moved; non-uniform surfaces are wrong (`sphere_graze_refuted`, `large_sphere_refuted`, `sphere_mask_refuted`, `sphere_pole_refuted`, `sphere_surface_refuted`).
* Boxes: the normal from inside belongs to the entry axis; the mask is asked about the previous hit (`box_normal_leaving_refuted`, `box_mask_refuted`).
* Cameras: the field of view is read in degrees and used in radians; wide angles leave the matrix unset; orthographic differentials are wrong; the panorama is mirrored (`default_fov_refuted`, `perspective_wide_refuted`, `orthographic_differentials_refuted`, `panorama_mirrored_refuted`).
* The shading frame is not orthonormal when dpdu is slanted (`shading_slanted_refuted`).

### Materials and textures
* Conductors from inside reflect more than arrives; total reflection is not divided by the cosine (`conductor_inside_refuted`, `total_reflection_refuted`).
* `MultiBSDF`: empty list, sixth layer, texture of the wrong layer (`multi_empty_refuted`, `sixth_layer_refuted`, `multi_texture_refuted`, `multi_mirror_texture_refuted`).
* Blinn and Beckmann report wrong densities; Oren-Nayar is not isotropic; rough transmission reports density 0 on exit (`blinn_density_refuted`, `beckmann_density_refuted`, `oren_isotropic_refuted`, `rough_exit_refuted`).
* Textures: half a texel offset, seams, reads past the last mip level, truncation, negative coordinates, whole coordinates, swapped derivative scales, sides 0 and 65536, filter cached by path (`unfiltered_nearest_refuted`, `bilinear_seam_refuted`, `trilinear_whole_refuted`, `trilinear_constant_refuted`, `image_negative_refuted`, `repeat_border_refuted`, `derivative_scale_refuted`, `file_sides_refuted`, `texture_filter_refuted`).

- The elliptical (EWA) filter computes the first coefficient of the ellipse with a product in place
  of a sum (`dvdx*dvdx*+dvdy*dvdy+1`). Vertical extent is ignored for footprints along the axes
  (`ewa_rows_refuted`), and diagonal footprints have an empty ellipse, so 0/0 is converted to a
  byte (`ewa_diagonal_level_refuted`, `ewa_diagonal_refuted`). The distance is taken after wrapping,
  so wrapped texels never count (`ewa_seam_refuted`); wide footprints give negative indices
  (`ewa_wide_refuted`); the level after the last is read (`ewa_last_level_refuted`); a footprint of
  no width is not filtered at all (`ewa_streak_refuted`). On moderate footprints along the axes the
  filter is safe and in range (`ewa_filter_safe`, `ewa_level_within`).
- The derivatives of texture coordinates are solved for after the tangents were given length
  one, so they are too large by the length of the true tangents and the mip level chosen from
  them is off (`differentials_length_refuted`).
- Where texture coordinates are mirrored, a normal map gives a shading frame whose vertical
  points into the surface, opposite to the normal returned with it (`normal_map_mirrored_refuted`).
- Samples reach one pixel further to the left and below than to the right and above
  (`film_update_symmetric_refuted`); the gaussian and Mitchell filters are not one at the centre,
  and Mitchell and Lanczos give negative weights (`gauss_centre_refuted`,
  `mitchell_range_refuted`, `lanczos_range_refuted`).

### Light transport
* Scaled lights: distance off by s, density off by s^2 (`light_sample_scaled_refuted`, `light_pdf_scaled_refuted`).
* A visible light counts twice, emission along a path counts twice, several lights are averaged instead of added, Russian roulette multiplies by the wrong factor (`visible_light_refuted`, `indirect_emission_refuted`, `many_lights_refuted`, `roulette_refuted`).

### Configuration files
* Settings in child files have no effect: the renderer is built before they are read (`children_settings_refuted`).
* Each relative child is appended to `current_dir` itself, so the next child, the obj files and the textures of materials are looked for below the path of that child (`child_paths_refuted`, `deferred_paths_refuted`).
* The library is searched by file name and not by the given string: two files of the same name in different directories are taken for one, and a texture whose name has a separator is never found (`texture_path_refuted`, `texture_name_refuted`).
* A missing mask with the attribute `inverted` hides the whole object (`mask_missing_refuted`).
* Equal roughness and anisotropy above 1 give an anisotropic surface and drop the chosen distribution (`material_isotropic_refuted`); a dual material that names a later one gets the default material (`dual_forward_refuted`); arrays of duplicate meshes and of spheres leak (`arrays_leaked_refuted`).
* Reports of syntax errors: a token of 65 to 123 characters that ends at column 124 or later, or any error on the first line of a child read after a main file with a long last line without newline, writes outside the array `under` (`error_long_token_refuted`, `error_child_column_refuted`); an error on an unterminated last line reads `buf` before it is written (`error_last_line_refuted`); line numbers are wrong in children and after quoted texts that contain newlines (`error_child_line_refuted`, `error_after_long_text_refuted`). Also seen, not modelled: the format contains the conversion `%` followed by an escape character, which is undefined.

### Colours and spectra
- Lights given by a temperature use `exp(x)+1` in place of `exp(x)-1`: long wavelengths are too weak
  at every temperature (`planck_refuted`); up to 3000 K by less than one percent (`planck_warm`).
- In `spectre-rgb` a spectrum given by samples puts short wavelengths into X and long ones into Z, so red
  and blue are exchanged (`samples_colour_refuted`); gold is cyan (`gold_is_cyan`).
- In `spectre-rgb` light and surfaces are multiplied in XYZ, where white is (0.95, 1, 1.09): white
  surfaces add light (`white_wall_gain_refuted`) and tint it (`white_wall_tint_refuted`).
- `spectre-full` keeps only the mean index of refraction: nothing is dispersed (`dispersion_refuted`).
- The sRGB transfer function dips at its threshold (`srgb_encode_dip`), which bytes do not show.

### Jpeg, png and tiff files
- `jpg_read` reads three samples for each pixel whatever the file has: every greyscale jpeg is read past
  the end of its row (`grey_jpeg_refuted`), and pixels of CMYK files are mixed (`cmyk_jpeg_refuted`).
- `img_dimensions` asks for `JPEG_FOUND` before it handles tiff (imageio.c:79): without libjpeg every
  tiff texture is loaded with sides that were not set (`tiff_without_jpeg_refuted`).
- `TextureImage` ignores the answer of `img_read8`: a greyscale tiff, which `img_valid` accepts and
  `tiff_read` refuses, becomes a texture of uninitialised memory (`grey_tiff_refuted`).

### The text of configuration files
- Integers outside `int` are undefined behaviour in `atoi` (`integer_overflow_refuted`).
- A string whose last character is a backslash swallows its quote and the text up to the next one, or the
  file is refused, although README.md says that escaping is not supported (`backslash_refuted`).
- README.md gives `E10` as a float and `integrator: pt` in its example; both are refused
  (`readme_float_refuted`, `readme_integrator_refuted`).
- `name` must be the first key of world and light objects (`name_first_refuted`).

### Triangles
- Texture coordinates on one line make every component of `dpdu` and `dpdv` infinite or NaN
  (`tri_folded_refuted`).
- Masks of triangles are evaluated with the derivative of an earlier hit, and with `du` in place of `dv`
  (`tri_mask_stale_refuted`, `tri_mask_dv_refuted`).

### Rendering again, progress bar
- `buildTree` does not reset `nodes_index`: a scene rendered twice is searched with the nodes of the first
  build over the assets of the second; added assets do not appear and unchanged scenes lose assets
  (`rebuild_added_refuted`, `rebuild_same_refuted`).
- Before the first tile is taken the listener converts an infinity or NaN to `time_t` (`bar_start_refuted`);
  it also reads the queue without the lock.

### Boxes

* `AABB::operator==` compares surfaces: a box equals every copy of it that is moved elsewhere; the default, empty box has an infinite surface and compares larger than every finite box (`box_equal_refuted`).

### Vectors and matrices

* `Vec3::cross(target, output)` and `Matrix4::transpose(output)` write the output while they still read the operands: storing the result in an operand gives something else (`cross_alias_refuted`, `transpose_alias_refuted`).
* Equality of vectors and points within FLT_EPSILON is not transitive, treats all tiny vectors as equal and is neither true nor false of infinities (`vec_eq_refuted`).

### Microfacets

* `GGXiso::G1` computes the squared sine as 1 - cos^4: the masking term is smaller than Smith's in every direction other than the normal (`ggx_masking_refuted`).
* The rational approximation of Blinn and Beckmann exceeds one just before it is cut off at 1.6 (`approximate_masking_refuted`).
* `GGXaniso::D` is 1 at the normal instead of 1/(pi ax ay); its lambda is 1 there instead of 0, so that a surface seen and lit from above loses two thirds of its light (`aniso_normals_refuted`, `aniso_masking_refuted`).
* The pdf of a sampled rough refraction is multiplied with no^2|wo.h| where the density of the refracted direction has ni^2|wi.h|: it is too small entering the denser medium and too large leaving it (`rough_transmission_density_refuted`).
* Rough transmission has a positive value between directions that lie on one side of their bisector, which no microfacet joins (`impossible_refraction_refuted`).

### Files and folders

* `File` keeps the result of stat of the time it was made, and `get_parent` keeps the one of the child: the parent of a regular file says it is a regular file and lists nothing (`kind_stale_refuted`, `parent_kind_refuted`).
* Entries with a backslash in their name are listed under a path that does not exist (`listing_backslash_refuted`).
* The film accepts outputs below a regular file and outputs that cannot be overwritten; an output path with a trailing separator becomes a hidden file `.ppm` without extension, for which nothing is written (`film_accepts_unwritable_refuted`, `film_trailing_separator_refuted`).
* `File::operator=` never frees the old buffer, and assigning an object to itself copies from the new, uninitialised buffer (read, not modelled).

### Single precision

* A random number of 1 - 2^-24 added to a pixel from 2 on rounds to the next pixel (`float_next_pixel_refuted`).
* A sample with a NaN channel is added to its pixel: the pixel is saved white, whatever its other samples are (`float_undefined_sample_refuted`).
* The area of a last face that is smaller than a 2^25th of the others is lost in the cumulative sum; the random number 1.0, which the generator returns for its 128 largest words, then makes `Mesh::sample_point` loop forever (`float_face_hangs_refuted`).
* `normalize` squares first: vectors with components of at most 2^-76 give infinities or NaN, vectors with a component from 2^64 on give the zero vector (`float_normalize_short_refuted`, `float_normalize_long_refuted`).
* The box test misses boxes that the exact ray crosses near an edge (`float_box_miss_refuted`; a margin of a millionth of the distance is enough, `float_box_margin`), and the triangle test leaves cracks: a ray can go through the inside of two triangles at their common edge and be reported by neither (`float_crack_refuted`).
* A sphere from 2^14 radii on is hit in its centre, with a normal that is NaN (`float_sphere_far_refuted`).
* The tolerance of the occlusion test is an absolute thousandth: from a distance of 32768 on it is lost in the sum (`float_occlusion_far_refuted`).
* A unit sphere moved by 2^26 or more has a flat world box (`float_box_far_refuted`); up to that the box is right within the rounding of the transformation (`float_box_image`).
* The mean of a pixel depends on the order in which the workers add their samples, in the last places only (`float_film_order_refuted`, `float_film_order`): two renders of the same scene with several threads need not be the same to the bit.
* A triangle whose volume with the direction of the ray is below 2^-128 is hit at distance NaN by a ray that starts in its first vertex (`float_triangle_number_refuted`); away from that, hits, misses and distances of triangles are right within a stated slack (`float_triangle_on`, `float_triangle_hit`, `float_triangle_miss`).
* The offset against self intersection is an absolute hundredth: on a sphere of radius 64 a ray that leaves nearly along the surface hits the sphere again (`float_sphere_leaving_refuted`), and triangles 2^18 away are hit again by the ray that goes on (`float_triangle_leaving_refuted`); both are excluded for scenes that are small enough (`float_sphere_leaving`, `float_triangle_leaving`).
* A border between two media of the same index reflects everything at cosines up to 2^-13 in single precision, instead of nothing (`float_dielectric_matched_refuted`); away from the critical angle the share reflected is right within a stated bound (`float_dielectric_near`).
* The share reflected by a metal without absorption can be slightly negative in single precision (`float_conductor_negative_refuted`), never below -2^-21 (`float_conductor_fraction`).
* A white texture gives 254 at some coordinates within the first half texel: there the weights are multiples of 2^-25, one minus the weight is rounded, and the sum is cut to an integer (`float_bilinear_constant_refuted`, for every side); from half a texel on colours are kept exactly (`float_bilinear_constant`).
* Smooth mirrors divide by the cosine without a check: for light exactly along the surface of the shading frame (reachable with interpolated normals) metals, and glass thinner than its surroundings, have an infinite value and the power of the path is infinite or NaN (`float_mirror_grazing_refuted`); together with `float_undefined_sample_refuted` this spoils the pixel. Refraction never does that: its cosine is at least 2^-12 (`float_refract_defined`).
* The weight of a light sample squares its density: from 2^64 on (points nearly in the plane of the light; the test for an infinite density does not see it) the weight is infinity over infinity, and the pixel is NaN (`float_mis_overflow_refuted`); for densities between 2^-50 and 2^62 weights are fair (`float_mis_weights`, `float_mis_terms`).
* The isotropic GGX density tests the cosine for 0 and then squares it: below 2^-75 the density is NaN, and roughness 0 gives NaN along the normal (`float_ggx_defined_refuted`); elsewhere it is defined (`float_ggx_defined`).
* Oren-Nayar divides by the larger cosine: if both directions lie in the surface of the shading frame the value is infinite, or NaN for roughness 0 and for opposite directions (`float_oren_range_refuted`); elsewhere it is a number, and it is reciprocal bit by bit (`float_oren_range`, `float_oren_reciprocal`).
* Vectors and points compare with an absolute tolerance of 2^-23, so from 2 on `==` is exact (`float_vec_equal`); with an infinite or NaN component both `==` and `!=` are false (`float_vec_not_finite`).
* Points sampled on a triangle are computed with 1-(1-s): for random numbers up to 2^-52 the third weight is negative (`float_face_weights_refuted`); the point stays within 24 M 2^-24 of the exact one (`float_face_sample`).
* The density of a diffuse direction tests the product of two cosines: if both are below 2^-76 the product vanishes and the density is 0 although the direction was sampled with a density above 0 (`float_diffuse_pdf_refuted`).
* `clamp` returns a roughness of -0 unchanged: the masking term of `Beckmann` is then no number for every direction between the surface and the normal (`float_beckmann_negative_zero_refuted`).
* Rough reflections test the sides and divide by products of cosines: with GGX the value is no number if both cosines are at most 2^-77, even for directions on different sides (`float_rough_grazing_refuted`).
* `min` and `max` return the second argument if a comparison fails: a point with a coordinate that is no number makes a box forget, on that axis, the points that it engulfed before (`float_box_nan_refuted`).
* `AABB::center` adds the bounds before halving: the center of a box beyond 2^127 is at infinity (`float_box_center_refuted`).
* `lerp` is not monotone and can leave its bounds by one unit in the last place (`float_lerp_refuted`); the program only uses it from 0.
* `Point3::distance` squares the differences: points that differ by at most 2^-76 in each coordinate are at distance 0 (`float_distance_zero_refuted`).
* `Matrix4::set_lookAt_inverse` normalises the cross product of up vector and view without a test: a camera that looks along its up vector has an axis that is not a number (`float_camera_parallel_refuted`).
* `Vec2::is_normalized` allows one unit in the last place of the length: some vectors fail it right after `normalize`, (1, 11) for one (`float_unit2_refuted`).
* `clamp` lets NaN pass, and its conversion to a byte is then undefined (`float_clamp_nan_refuted`); no scene file contains one.

## Trusted base

* Coq 8.16.1: its kernel, including the conversion by `vm_compute`; `coqchk`
  accepts the compiled files.  No axiom is declared in this development, there is
  no `Admitted`, no plugin, and no kernel check is switched off.
* The reading of the source.  There is no mechanical link between `/repo` and the
  model: each definition cites the lines it was read from.
* The simplifications stated at the head of each `XModel.v` and in the comments
  of the definitions: exact arithmetic instead of floats where said so, success of
  allocation and of file operations, one spectral entry for spectra.
* The C and C++ semantics assumed: `int` of 32 bits, `size_t` of 64 bits, IEEE 754
  floats, little-endian machine, two's complement conversions.
* The library Flocq 4.1.0 for binary32.  It adds no axiom: its theorems use the real
  numbers of the standard library, so the axioms listed with the theorems below are
  the ones of those reals.  Assumed of the machine: `FLT_EVAL_METHOD` 0, rounding
  to nearest with ties to even, no contraction of products and sums, no flushing of
  subnormal numbers, and no option that relaxes IEEE 754.  `CMakeLists.txt` (lines
  14-17) grants this for the debug configuration with gcc or clang on x86-64
  (`-O0`).  The release configuration passes `-Ofast`, which lets the compiler
  reassociate, contract and assume that infinities and NaN do not occur: for that
  binary the statements about rounding, infinities and NaN describe the source as
  IEEE 754 reads it, and not the code that a given compiler emits.  This concerns
  treatments 2 and 4 of floating point; statements over integers, text, files,
  trees of records and the reals do not depend on it.
* External functions are either specified in the comment of the definition that
  models them (`scanf`, `strrchr`, `std::unordered_map`, `std::sort`) or arbitrary
  parameters of the theorems (cost functions, cluster sizes, number parsing).
* These definitions are transcribed but no theorem mentions them, so nothing is
  claimed about them: `dielectric_bdf` and `refraction_bdf` (`BsdfModel`),
  `fv_distance` (`FRayModel`), `box_filter` (`FilterModel`), `ofile_copy`
  (`FsModel`), `plain_bump` (`HitModel`), `box_box` (`PrimModel`).

### What `Print Assumptions` lists

Every theorem below is followed in its file by `Print Assumptions`; the axioms are those of the standard library of Coq (the classical construction of the real numbers, functional extensionality and, through `Rlt_dec`-style case analyses of the analysis part, excluded middle).

**Closed under the global context** (293 theorems)

* AabbOpProps: box_measures_grow, box_center_mirror, box_longest_axis, box_order_consistent, box_equal_refuted
* AabbProps: engulf_points_smallest, engulf_boxes_smallest, engulf_order_independent, inside_contains, slab_never_misses, slab_exact_partial, slab_exact_refuted, slab1_never_misses_partial, slab1_negative_zero_refuted
* AliasProps: transpose_into_other, transpose_alias_refuted
* Array2DProps: array2d_is_a_map, array2d_copy_is_a_map, array2d_from_values, array2d_side_65536_refuted, array2d_zero_65536_refuted, array2d_side_least_pow2, array2d_side_huge_refuted
* BarProps: bar_honest, bar_start_refuted, bar_forward
* BitsProps: kdnode_leaf_lossless, kdnode_interior_lossless, kdnode_child_range_refuted, morton_interleaves, morton_injective, morton_octree, morton_monotone
* BmpProps: bmp_round_trip, bmp_read_safe, bmp_read_zero_height_refuted, bmp_read_negative_width_refuted, bmp_conformant_even_width, bmp_odd_width_refuted, bmp_read_conformant_even_width
* BoxProps: box_exact, box_normal_entering, box_normal_leaving_refuted, box_plane_refuted, box_mask_refuted
* BsdfProps: sixth_layer_refuted, layers_kept
* BuildProps: material_keys, material_layers, documented_dist_unique, material_valid, material_isotropic_refuted, materials_built, dual_components, dual_forward_refuted, meshes_owned_once, objects_alive, meshes_kept, objects_placed, arrays_balanced, arrays_leaked_refuted
* BvhCodes: bvh_flat_conversion_refuted, bvh_build_total_partial
* BvhDeep: bvh_stack_overflow_refuted
* BvhMaterial: bvh_material_refuted, bvh_material_kept_partial
* BvhProps: bvh_build_permutes, bvh_array_is_tree, bvh_intersect_closest_partial, bvh_intersect_closest_small, bvh_answer_geometric
* CodecProps: png_round_trip, tiff_round_trip, png_decoded, jpg_decoded, tiff_decoded, grey_jpeg_refuted, cmyk_jpeg_refuted, extensions_agree, tiff_without_jpeg_refuted, grey_tiff_refuted, texture_has_file_pixels
* ConfigProps: resolution_checked, resolution_safe, resolution_height_refuted, spp_checked, spp_nearest_square, spp_square_kept, spp_random_kept, spp_strata_exact, spp_overflow_refuted
* DriverProps: declarations_collected, settings_of_main, children_settings_refuted, child_paths, child_paths_refuted, deferred_paths, deferred_paths_refuted, parse_defined, texture_statement, texture_plain_name, texture_path_refuted, texture_name_refuted, mask_disabled, mask_missing_refuted, mask_as_written
* ErrProps: error_underlines_token, error_long_token_refuted, error_last_line_refuted, error_not_shown, error_main_file, error_child_line_refuted, error_after_long_text_refuted, error_child_column_refuted
* EwaProps: ewa_level_within, ewa_rows_refuted, ewa_seam_refuted, ewa_diagonal_level_refuted, ewa_diagonal_refuted, ewa_wide_refuted, ewa_last_level_refuted, ewa_filter_safe, ewa_streak_refuted
* FilmProps: film_update_inside, film_update_covers, film_update_box_refuted, film_update_box_lost, film_update_symmetric_refuted, film_save_words, film_save_average
* FsProps: folder_created, folders_created, kind_fresh, kind_stale_refuted, parent_kind_refuted, listing_exact, listing_backslash_refuted, film_output_chosen, film_accepts_unwritable_refuted, film_trailing_separator_refuted
* GramProps: documents_parsed, documents_unambiguous, config_read, config_read_only, readme_integrator_refuted, name_first_refuted, dual_as_written
* ImgProps: mip_levels, mip_within, unfiltered_texel, unfiltered_nearest_refuted, bilinear_value, bilinear_seam_refuted, trilinear_safe, trilinear_whole_refuted, trilinear_constant_refuted, repeat_in_range, image_lookup_safe, image_negative_refuted, repeat_border_refuted, derivative_scale_refuted, file_texture, file_sides_refuted, texture_filter_kept, texture_filter_refuted
* KdAddProps: kd_add_within_capacity, kd_add_over_capacity_refuted
* KdAgainProps: rebuild_same_small, rebuild_added_refuted, rebuild_same_refuted
* KdCases: kd_triangles_closest, kd_build_capacity, kd_build_overflow_refuted
* KdProps: kd_leaves_cover, kd_assets_kept_partial, kd_flat_asset_lost_refuted, kd_touching_refuted, kd_intersect_safe, kd_intersect_closest_partial, kd_face_plane_refuted
* LibProps: mtl_library_is_a_map, mtl_library_leak_refuted, tex_library_is_a_map
* MaskProps: mask_partition, dual_one_layer, dual_inverted
* MeshProps: mesh_adds_in_order, mesh_size_zero_refuted, mesh_sample_face, mesh_sample_face_refuted, mesh_sample_single_refuted, mesh_sample_diverges_refuted
* ObjProps: obj_buffer_independent, obj_terminates, obj_terminates_refuted, obj_unfinished_refuted, obj_load_correct, obj_every_object_refuted, face_triangles_fan, relative_index, obj_material_persists_refuted, obj_compaction, obj_materials_256_refuted, obj_materials_257_refuted, obj_second_file_refuted, obj_texture_only_refuted, obj_texture_only_unset_refuted, obj_short_face_refuted, obj_relative_index_refuted
* OcclProps: occlusion_history_partial, occlusion_twice_refuted, occlusion_face_plane_refuted, occlusion_bounces_refuted, occlusion_safe
* PathProps: file_resolved, file_append_resolved, file_dotdot_refuted, file_root_refuted, file_dot_refuted, file_names, file_root_names, file_ancestors, file_parent_root, file_parent_refuted, file_parent_extension_refuted
* PixelProps: bgra_rgb_bgra, rgb_bgra_rgb, rgb_to_bgra_defined, px_channels_independent
* PpmProps: ppm_round_trip, ppm_binary_decode, ppm_ascii_decode, ppm_16bit_refuted, ppm_sample_overflow_refuted, ppm_clamp_refuted
* RenderProps: render_tiles_never_lost, render_exactly_once, render_no_deadlock, render_terminates, render_film_exact, render_film_no_overcount, render_film_lost_update_refuted, render_film_border_refuted
* RestProps: box_expanded
* ScanProps: layout_scanned, numbers_read, integer_overflow_refuted, scan_defined, backslash_refuted, readme_float_refuted
* SceneProps: scene_consistent, scene_repeated_asset_refuted, scene_id_wrap_refuted, scene_too_many_assets_refuted
* TanProps: tri_tangents, tri_folded_refuted, tri_mask_stale_refuted, tri_mask_dv_refuted
* TgaProps: tga_round_trip, tga_big_side_refuted, tga_read_safe, tga_read_determined, tga_read_invalid, tga_read_overrun_refuted, tga_rle_decode, tga_rle_truncated, tga_raw_decode, tga_raw_packet_refuted
* TilesProps: tiles_partition, tiles_rejected_width, tile_order_bijective, random_sampler_order, stratified_sampler_order, stratified_unfilled_refuted
* TriProps: tri_hit_sound, tri_hit_complete, tri_coplanar_refuted, tri_box_contains
* UtilProps: format_seconds_denotes, format_seconds_fits, format_seconds_special, swap32_reverses_bytes, swap32_involutive, swap16_reverses_bytes, big32_is_swap, big16_is_swap_refuted
* VecEqProps: vec_eq_tolerance, vec_eq_refuted
* WellProps: well_states_never_merge, well_seeds_never_merge, well_never_zero, well_reversible, well_result_range

**`ClassicalDedekindReals.sig_forall_dec`** (1 theorems)

* MatProps: mul_is_product

**`ClassicalDedekindReals.sig_forall_dec`, `FunctionalExtensionality.functional_extensionality_dep`** (38 theorems)

* AliasProps: vec_in_place, mat_in_place, cross_alias_refuted
* ColorProps: luminance_is_y, colour_is_linear, samples_colour_refuted, dispersion_refuted, air_index
* FilterProps: tent_weights, mitchell_weights, mitchell_range_refuted
* HitProps: differentials_reach, differentials_found, height_steps
* IntegProps: path_is_finite, chosen_light_exists, light_chosen_uniformly, mis_is_unbiased, visible_light_refuted, many_lights_refuted, roulette_refuted, indirect_emission_refuted, radiance_not_negative
* MatProps: mul_identity, mul_assoc, inverse_correct, inverse_fails, small_scale_refuted, compose_point, compose_vec, compose_ray, transform_ray_parameter, mul_onto_first_refuted, transform_normal_perpendicular
* PrimProps: transformed_box_contains, transformed_box_smallest
* SpecularProps: conductor_fraction, conductor_inside_refuted

**`ClassicalDedekindReals.sig_forall_dec`, `ClassicalDedekindReals.sig_not_dec`, `FunctionalExtensionality.functional_extensionality_dep`** (91 theorems)

* AliasProps: into_other
* AnisoProps: ggx_masking_range, ggx_masking_refuted, approximate_masking, approximate_masking_refuted, aniso_normals, aniso_normals_refuted, aniso_masking, aniso_masking_refuted
* BsdfProps: multi_sample_layer, multi_empty_refuted, multi_value_partial, multi_texture_refuted, multi_mirror_texture_refuted, multi_pdf_consistent, single_consistent, single_flags, default_sampling, lambertian_consistent
* CamProps: camera_frame, perspective_ray, perspective_centre, perspective_fov, perspective_differentials, orthographic_ray, orthographic_differentials_refuted, panorama_mirrored_refuted
* ColorProps: temperature_same_colour, same_index, sellmeier_index
* FaceProps: face_area_world, face_area_local, faces_area_world, face_sample_in, face_sample_onto, face_sample_uniform, face_sample_normal
* FaceSumProps: faces_area_local
* FilterProps: lanczos_range_refuted
* HitProps: differentials_length_refuted, height_tilt, height_flat, normal_map_frame, normal_map_mirrored_refuted, normal_map_upright
* LightProps: light_sample_unscaled, light_sample_scaled_refuted, light_pdf_unscaled, light_pdf_scaled_refuted, light_rays_unscaled
* MatProps: config_affine, config_order, rotations_keep_dot, config_scale, asset_hit_world
* MicroProps: default_density, ggx_sampling, rough_sample, rough_reciprocal, rough_nonnegative, rough_transmission, oren_reciprocal, oren_isotropic_refuted
* PrimProps: sphere_exact, sphere_graze_refuted, large_sphere_refuted, sphere_mask_refuted, sphere_pole_refuted, sphere_surface_uniform, sphere_surface_refuted, sphere_box_contains, sphere_sample_on, sphere_sample_uniform, box_sample_face, box_surface_ok, box_sample_uniform
* RVecProps: normalize_length, shading_orthonormal, shading_inverse, shading_slanted_refuted
* SpecularProps: dielectric_fraction, dielectric_conserves, total_reflection_refuted, dielectric_agree, mirror_direction, refraction_direction, specular_reversible
* TransProps: rough_transmission_nonnegative, rough_transmission_value, rough_transmission_reciprocal, impossible_refraction_refuted

**`ClassicalDedekindReals.sig_forall_dec`, `ClassicalDedekindReals.sig_not_dec`, `Classical_Prop.classic`, `FunctionalExtensionality.functional_extensionality_dep`** (168 theorems)

* AnisoProps: aniso_sampling, aniso_reciprocal, masking_of_two
* CamProps: perspective_wide_refuted, default_fov_refuted, panorama_covers
* ColorProps: blackbody_normalised, planck_refuted, planck_warm, hotter_is_bluer, srgb_round_trip, srgb_byte_monotone, srgb_encode_dip, white_wall_gain_refuted, white_wall_tint_refuted, spectral_surface_safe, rgb_mixture
* FBoxMarginProps: float_box_margin, float_box_miss_refuted, float_crack_refuted, float_kd_margin
* FBoxSizeProps: float_box_surface, float_longest_axis, float_box_center, float_box_center_refuted
* FBvhProps: float_bvh_complete
* FByteProps: float_byte_colour, float_pixel_round_trip
* FCamProps: float_screen_place, float_screen_order
* FClampProps: float_clamp, float_clamp_vec, float_colour_byte, float_saturate, float_clamp_nan_refuted
* FDiffProps: float_diffuse_dir, float_lambert_power, float_diffuse_pdf, float_diffuse_pdf_refuted
* FDistProps: float_distance_symmetric, float_distance_near, float_distance_zero_refuted, float_cross_antisymmetric
* FFaceNormProps: float_face_normal
* FFaceProps: float_face_sample, float_face_weights, float_face_weights_refuted
* FFilmProps: float_film_mean, float_film_order, float_film_order_refuted
* FFilterProps: float_tent
* FFresNearProps: float_dielectric_near, float_dielectric_matched_refuted
* FFresProps: float_dielectric_fraction, float_conductor_fraction, float_conductor_negative_refuted
* FGgxProps: float_ggx_masking, float_ggx_defined, float_ggx_defined_refuted
* FGrowProps: float_box_of_points, float_box_nan_refuted
* FKdBuildProps: float_kd_scene
* FKdProps: float_kd_complete
* FLeaveProps: float_sphere_leaving, float_sphere_leaving_refuted, float_triangle_leaving, float_triangle_leaving_refuted
* FLerpProps: float_inverse_lerp, float_lerp, float_lerp_refuted, float_mesh_sample01
* FLightProps: float_light_density, float_light_along
* FLookProps: float_camera_frame, float_camera_origin, float_camera_direction, float_camera_parallel_refuted
* FMatBoundProps: float_box_image, float_box_far_refuted
* FMatProps: float_box_transform, float_mesh_box, float_sphere_box
* FMicroProps: float_beckmann_masking, float_beckmann_negative_zero_refuted, float_blinn_masking
* FMirrorDirProps: float_mirror_direction
* FMirrorProps: float_mirror_bounded, float_mirror_grazing_refuted, float_layer
* FMisProps: float_mis_weights, float_mis_overflow_refuted, float_mis_terms
* FMitchellProps: float_mitchell
* FOrenProps: float_oren_reciprocal, float_oren_range, float_oren_range_refuted
* FPanoProps: float_ortho_direction, float_pano_direction
* FPlaceProps: float_filter_offset, float_texture_coordinate
* FQuadRootProps: float_equation2_finds, float_equation2_roots
* FRayImageProps: float_ray_image, float_ray_moved
* FRayProps: float_box_nested, float_box_inside
* FReflProps: float_rough_direction
* FRefrProps: float_rough_refraction
* FRoughProps: float_rough_reciprocal, float_rough_grazing_refuted, float_rough_defined
* FShadeProps: float_shading_round_trip
* FSpecNearProps: float_refract_near
* FSpecProps: float_refract_defined
* FSpecValueProps: float_refract_value
* FSphereFindProps: float_sphere_miss, float_sphere_hit, float_sphere_first
* FSphereHitProps: float_sphere_on
* FSphereProps: float_sphere_far_refuted, float_occlusion, float_occlusion_far_refuted
* FTexConstProps: float_bilinear_constant, float_bilinear_constant_refuted, float_repeat
* FTexProps: float_unfiltered, float_bilinear
* FTriHitProps: float_triangle_on, float_triangle_hit, float_triangle_miss, float_triangle_number_refuted
* FVec2Props: float_normalize2, float_unit2_sound, float_unit2_refuted
* FVecEqProps: float_vec_equal, float_vec_not_finite, float_mat_equal, float_is_normalized
* FilterProps: gauss_weights, gauss_centre_refuted, lanczos_weights
* FltProps: float_random_positions, float_next_pixel_refuted, float_stratified_positions, float_strata, float_film_reach, float_byte
* FltSumProps: float_undefined_sample_refuted, float_weight_counts, float_light, float_densities_sorted, float_face_found, float_face_hangs_refuted
* FltVecProps: float_normalize, float_normalize_twice, float_normalize_short_refuted, float_normalize_long_refuted
* FltWellProps: float_random_number
* MicroProps: blinn_density_refuted, beckmann_density_refuted, half_vectors, rough_exit_refuted
* SphUvProps: sphere_uv_names, sphere_uv_every, sphere_tangents, sphere_hit_frame
* TransProps: rough_reflection_density, rough_transmission_density_refuted
