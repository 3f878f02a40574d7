{"id": "C01", "title": "Array2D behaves like a two-dimensional map", "statement": "After constructing an Array2D of a given side and performing any sequence of set calls with coordinates below the side, get(x,y) returns the value of the last set at exactly (x,y) (or the initial content if there was none); a set never changes what any other coordinate returns, and no access falls outside the allocated storage.", "quantifier": "every side up to 32768, every element type, every sequence of set/zero_out operations, every pair of coordinates", "why_tests_cant": "aliasing between two of the billions of coordinate pairs depends on the block layout and rounding of the side; tests only sample a few sides", "anchors": ["src/utility/array2D.hpp: Array2D::Array2D, get, set, zero_out"]}
{"id": "C02", "title": "Array2D rounds its side to the smallest adequate power of two", "statement": "The storage allocated for a requested side is the square of the smallest power of two that is at least the requested side and at least one block, so storage is sufficient and never more than twice the side.", "quantifier": "every 32-bit side for which such a power of two fits in 32 bits", "why_tests_cant": "the bit-smearing trick has 2^32 inputs", "anchors": ["src/utility/array2D.hpp: Array2D::Array2D"]}
{"id": "C03", "title": "BMP write/read round trip", "statement": "Writing an image with img_write as bmp and reading it back with img_read8 succeeds and yields exactly the same pixels with the alpha channel replaced by 255, and img_dimensions reports the width and height that were written.", "quantifier": "every width and height of at least 1 whose pixel count stays within int range, every content of the pixel array", "why_tests_cant": "unbounded number of images; row padding makes behaviour depend on the width modulo 4", "anchors": ["src/utility/imageio/bmp.c: bmp_write, bmp_read, bmp_dimensions, bmp_valid, create_bmp_header"]}
{"id": "C04", "title": "BMP reader stays inside the caller's buffer", "statement": "When img_dimensions accepts a bmp file and the caller allocates width*height pixels as documented, img_read8 on the same file never writes outside that buffer, never performs an undefined operation, and when it reports success every pixel of the buffer has been written.", "quantifier": "every byte string used as a file", "why_tests_cant": "the input is adversarial; every header combination (negative width, zero height, truncated data) matters", "anchors": ["src/utility/imageio/bmp.c: bmp_read, bmp_dimensions"]}
{"id": "C05", "title": "BMP files follow the BMP format", "statement": "A written bmp file has rows padded to a multiple of four bytes and its header file-size field equals the number of bytes of the file, so other programs can decode it.", "quantifier": "every width and height", "why_tests_cant": "depends on the residue of the width; tests that only re-read with the same code cannot notice a consistent deviation", "anchors": ["src/utility/imageio/bmp.c: bmp_write, bmp_size"]}
{"id": "C06", "title": "TGA write/read round trip", "statement": "Writing an image with img_write as tga and reading it back succeeds and yields the same pixels with alpha 255, and the reported dimensions are those written.", "quantifier": "every width and height from 1 to 65535 and every pixel content; and what happens beyond 65535", "why_tests_cant": "unbounded number of images and sizes", "anchors": ["src/utility/imageio/tga.c: tga_write, tga_read, tga_dimensions"]}
{"id": "C07", "title": "TGA reader stays inside the caller's buffer", "statement": "Reading any tga file into a buffer of the dimensions reported by img_dimensions never writes outside that buffer.", "quantifier": "every byte string used as a file, both compressed and uncompressed variants", "why_tests_cant": "run lengths are attacker controlled; a run crossing the end of the image happens only for particular remainders", "anchors": ["src/utility/imageio/tga.c: tga_read"]}
{"id": "C08", "title": "TGA run-length decoding follows the TGA format", "statement": "Reading a run-length encoded tga stream yields the pixel sequence defined by the TGA format for run packets and raw packets.", "quantifier": "every sequence of packets that exactly covers the image, every pixel depth", "why_tests_cant": "all interleavings of packet kinds, lengths and line wraps", "anchors": ["src/utility/imageio/tga.c: tga_read"]}
{"id": "C09", "title": "PPM write/read round trip", "statement": "Writing an image as ppm and reading it back succeeds and yields the same pixels with alpha 255, and the reported dimensions are those written.", "quantifier": "every width and height of at least 1 and every pixel content", "why_tests_cant": "the text header is parsed with scanf-like rules, whose interaction with arbitrary following pixel bytes is input dependent", "anchors": ["src/utility/imageio/ppm.c: ppm_write, ppm_read, ppm_dimensions"]}
{"id": "C10", "title": "RGB/BGRA buffer conversion is lossless", "statement": "Converting a BGRA pixel array to RGB bytes and back preserves the three colour channels of every pixel and sets alpha to 255; converting RGB bytes to BGRA and back is the identity.", "quantifier": "every array length and every content", "why_tests_cant": "unbounded arrays", "anchors": ["src/utility/imageio/imageio.c: BGRAtoRGB, RGBtoBGRA"]}
{"id": "C11", "title": "File paths are normalised correctly", "statement": "A File built from any path has an absolute path equal to resolving the input against the current directory component by component (dot components and empty components vanish, a dot-dot removes the previous component and is ignored at the root); the stored path therefore contains no dot, dot-dot or empty components.", "quantifier": "every path string and every normalised current directory", "why_tests_cant": "arbitrary nesting of .., . and // sequences", "anchors": ["src/utility/file.cpp: append_relative, File::File, File::append"]}
{"id": "C12", "title": "File parent, name and extension are consistent", "statement": "For every file the parent's path is the path without its last component, the reported filename is the last component, and the extension is the part of the filename after its last dot (empty when there is none or the file is hidden).", "quantifier": "every path string", "why_tests_cant": "all placements of dots and slashes", "anchors": ["src/utility/file.cpp: File::File, File::get_parent, File::extension, File::filename"]}
{"id": "C13", "title": "kd-tree node encoding is lossless", "statement": "Setting a kd-tree node as leaf or interior and reading back its kind, split axis, split value, child index or asset count and offset returns what was stored, and the kinds are never confused.", "quantifier": "every axis, every child index below 2^29, every asset count below 2^31 and every offset", "why_tests_cant": "2^61 combinations of packed values", "anchors": ["src/accelerators/kdtree.hpp, kdtree.cpp: KdTreeNode"]}
{"id": "C14", "title": "kd-tree construction keeps every asset", "statement": "After the tree is built every added asset is reachable: it is listed in some leaf, and it is listed in every leaf whose region its bounding box overlaps.", "quantifier": "every set of assets with arbitrary bounding boxes, every cost function outcome", "why_tests_cant": "depends on the global sort order of boundaries and on cost-driven split choices", "anchors": ["src/accelerators/kdtree.cpp: KdTree::build, KdTree::buildTree, finalize"]}
{"id": "C15", "title": "kd-tree intersection returns the closest hit", "statement": "Intersecting a ray with the tree reports a hit exactly when some asset is hit by the ray, and the reported hit is one at minimal distance.", "quantifier": "every tree that covers its assets, every ray", "why_tests_cant": "requires reasoning over all tree shapes and all orderings of near and far visits", "anchors": ["src/accelerators/kdtree.cpp: KdTree::intersect"]}
{"id": "C16", "title": "kd-tree asset capacity is enforced", "statement": "Adding assets never writes past the asset buffer and the number of stored assets never exceeds the documented maximum.", "quantifier": "every sequence of addAsset calls", "why_tests_cant": "the boundary is reached only after thousands of operations and through internal re-insertion", "anchors": ["src/accelerators/kdtree.cpp: KdTree::addAsset"]}
{"id": "C17", "title": "BVH construction only permutes the triangles", "statement": "Building the acceleration structure of a mesh reorders its triangles without losing or duplicating any, and every triangle belongs to exactly one leaf.", "quantifier": "every list of triangles", "why_tests_cant": "depends on Morton codes, partition and clustering for arbitrary inputs", "anchors": ["src/accelerators/bvh.cpp: Bvh::buildTree, traverseTree, combineCluster, makePartition, flatten"]}
{"id": "C18", "title": "BVH flattening preserves the tree", "statement": "The flattened array visited by the intersection routine encodes the same tree: the first child is the next node and the recorded sibling index leads to the second child, for every node.", "quantifier": "every binary tree produced by the builder", "why_tests_cant": "all tree shapes", "anchors": ["src/accelerators/bvh.cpp: flatten, Bvh::intersect"]}
{"id": "C19", "title": "BVH intersection returns the closest triangle", "statement": "Intersecting a ray with a mesh reports a hit exactly when some triangle is hit within the given distance, and the reported one is at minimal distance.", "quantifier": "every hierarchy whose boxes enclose their content, every ray", "why_tests_cant": "all tree shapes, visit orders and early-outs", "anchors": ["src/accelerators/bvh.cpp: Bvh::intersect"]}
{"id": "C20", "title": "BVH traversal stack never overflows", "statement": "The fixed size stack used by ray traversal is large enough for every mesh accepted by the program.", "quantifier": "every triangle list", "why_tests_cant": "depth is data dependent and adversarial", "anchors": ["src/accelerators/bvh.cpp: Bvh::intersect, traverseTree"]}
{"id": "C21", "title": "Each face keeps the material the file gave it", "statement": "When a ray hits a triangle of an obj mesh, the material used is the one active (usemtl) when that face was read.", "quantifier": "every mesh, every assignment of materials to faces", "why_tests_cant": "only visible when triangles are reordered by the acceleration structure", "anchors": ["src/parsers/parser_obj.cpp: ParserObj", "src/accelerators/bvh.cpp: Bvh::buildTree", "src/primitives/asset.cpp: Asset::get_material"]}
{"id": "C22", "title": "Morton codes interleave the coordinate bits", "statement": "The Morton code of a cell interleaves the bits of its three coordinates: it determines the coordinates uniquely and refines the octree order.", "quantifier": "every triple of coordinates within the supported bit width", "why_tests_cant": "2^63 inputs", "anchors": ["src/accelerators/bvh.cpp: expand, mortonCode"]}
{"id": "C23", "title": "Tiles partition the image", "statement": "The rendering jobs cover every pixel of the image exactly once and never exceed it.", "quantifier": "every accepted width and every height", "why_tests_cant": "all sizes, in particular heights that are not multiples of the tile size", "anchors": ["src/renderer.cpp: Renderer::Renderer, Renderer::render"]}
{"id": "C24", "title": "Every tile is rendered exactly once", "statement": "Whatever the number of worker threads and their scheduling, every tile is handed to exactly one worker, and when all workers have ended no tile is left.", "quantifier": "every number of threads and every interleaving", "why_tests_cant": "schedules are not reproducible in tests", "anchors": ["src/renderer.cpp: executor, Renderer::render"]}
{"id": "C25", "title": "The film accumulates every contribution exactly once", "statement": "When rendering ends each pixel holds the sum of the weighted contributions of all samples, independently of how the worker threads were scheduled.", "quantifier": "every number of threads, every interleaving of memory accesses, every set of samples", "why_tests_cant": "lost updates appear only in rare schedules", "anchors": ["src/cameras/image_film.cpp: add_pixel, add_pixel_deferred, add_pixel_forced", "src/renderer.cpp: executor"]}
{"id": "C26", "title": "Film updates stay inside the image", "statement": "Adding a sample only ever updates pixels inside the image and inside the filter extent of that sample, and a sample always contributes to the pixel that contains it.", "quantifier": "every image size, filter extent and sample position", "why_tests_cant": "rounding at each pixel border", "anchors": ["src/cameras/image_film.cpp: ImageFilm::add_pixel"]}
{"id": "C27", "title": "Saved pixels are clamped and packed correctly", "statement": "Each saved pixel is the colour clamped to [0,255] per channel with alpha 255, channels never bleed into each other, and pixels appear in row-major order.", "quantifier": "every film content", "why_tests_cant": "all channel values including negative and out of range ones", "anchors": ["src/cameras/image_film.cpp: ImageFilm::save_image"]}
{"id": "C28", "title": "Samplers visit each pixel of their tile exactly once", "statement": "Repeated calls to get_samples deliver each pixel of the tile exactly once in row-major order and then report exhaustion for ever; stratified samples of a pixel fall in distinct strata of that pixel.", "quantifier": "every tile, every number of samples, every random sequence", "why_tests_cant": "state machine over arbitrarily many calls", "anchors": ["src/samplers/sampler_random.cpp, sampler_stratified.cpp: get_samples"]}
{"id": "C29", "title": "The random generator never merges states", "statement": "The pseudo random generator state update is reversible: two generators in different states stay different forever, and a generator never leaves a non-zero state for the all-zero state.", "quantifier": "every 1024-bit state and every number of draws", "why_tests_cant": "2^1024 states", "anchors": ["src/utility/wellrng.cpp: WELLrng::getNumber"]}
{"id": "C30", "title": "Scene bookkeeping is consistent", "statement": "The scene reports as many shapes, assets and lights as distinct objects were accepted; no more than the maximum number of lights is ever stored; every accepted object is kept exactly once and every accepted asset is handed to the acceleration structure.", "quantifier": "every sequence of inherit operations, including repeated objects", "why_tests_cant": "histories of operations", "anchors": ["src/utility/scene.cpp: Scene::inherit_shape, inherit_asset, inherit_light"]}
{"id": "C31", "title": "Texture and material libraries are maps", "statement": "A library lookup returns the object first registered under that name and not erased since; the default entry is always present and never freed; other names are unaffected by an operation on one name.", "quantifier": "every sequence of add/erase/clear/get operations", "why_tests_cant": "histories of operations", "anchors": ["src/textures/texture_library.cpp: TextureLibrary", "src/materials/material_library.cpp: MaterialLibrary"]}
{"id": "C32", "title": "Mip levels halve down to one texel and average correctly", "statement": "The mip chain of a square power-of-two image has one level per halving, ends with a single texel, and each texel of a level is the mean of the corresponding four texels of the previous level, channel by channel, within the range of those texels.", "quantifier": "every power-of-two side and every content", "why_tests_cant": "all sizes and contents", "anchors": ["src/textures/image_map.cpp: ImageMap::ImageMap, downsample"]}
{"id": "C33", "title": "OBJ tokenising does not depend on buffer boundaries", "statement": "The sequence of tokens and line ends obtained from an obj file is independent of the internal buffer size and of where buffer refills happen.", "quantifier": "every file content (without the reserved guard byte) and every buffer size", "why_tests_cant": "a token may straddle any refill boundary", "anchors": ["src/parsers/parser_obj.cpp: get_next_token, feed_buffer, ParserObj::get_next_mesh"]}
{"id": "C34", "title": "OBJ reading always terminates", "statement": "Reading any obj file terminates.", "quantifier": "every file content", "why_tests_cant": "non-termination cannot be observed by a finite test", "anchors": ["src/parsers/parser_obj.cpp: get_next_token, ParserObj::get_next_mesh"]}
{"id": "C35", "title": "OBJ polygons are triangulated as fans", "statement": "A face with n vertices (n at least 3) becomes exactly n-2 triangles that all share the first vertex and together use consecutive vertex pairs in order; relative (negative) indices denote the same vertices as the corresponding absolute ones.", "quantifier": "every face length and every vertex list", "why_tests_cant": "unbounded polygons", "anchors": ["src/parsers/parser_obj.cpp: ParserObj::get_next_mesh (face records)"]}
{"id": "C36", "title": "Material compaction keeps each face's material", "statement": "The run-length compaction of per-face material indices performed when a mesh is finished maps every face to the same material as before.", "quantifier": "every sequence of per-face materials", "why_tests_cant": "all patterns of repeated materials", "anchors": ["src/parsers/parser_obj.cpp: finalize_mesh, get_material_association"]}
{"id": "C37", "title": "Meshes accept triangles up to their cap without overflow", "statement": "Adding triangles to a mesh never writes beyond its buffer, keeps all previously added triangles in order and refuses exactly those beyond the maximum.", "quantifier": "every sequence of additions", "why_tests_cant": "growth by doubling over arbitrarily long histories", "anchors": ["src/primitives/mesh.cpp: Mesh::add_triangle, finalize"]}
{"id": "C38", "title": "Surface sampling picks the face the density array prescribes", "statement": "Given cumulative face areas, sampling a mesh point with parameter r0 selects the face i whose cumulative interval contains r0 times the total area, without reading outside the array and in finite time.", "quantifier": "every cumulative array and every r0 in [0,1]", "why_tests_cant": "binary search correctness over all arrays", "anchors": ["src/primitives/mesh.cpp: Mesh::sample_point, get_densities_array"]}
{"id": "C39", "title": "Accepted resolutions and sample counts are valid", "statement": "After configuration checks the width and height are positive multiples of the tile size not smaller than requested limits allow, and for stratified sampling the number of samples is a positive perfect square.", "quantifier": "every parsed resolution and sample count", "why_tests_cant": "all integers", "anchors": ["src/parsers/config_driver.cpp: check_resolution, check_spp"]}
{"id": "C40", "title": "Matrix inversion is correct", "statement": "When inverse reports success the result is a two-sided inverse of the matrix, and inversion reports failure only for (numerically) singular matrices, leaving the output untouched.", "quantifier": "every 4x4 real matrix", "why_tests_cant": "continuous domain of dimension 16", "anchors": ["src/geometry/matrix4.cpp: Matrix4::inverse, operator*"]}
{"id": "C41", "title": "Transform composition acts as composition", "statement": "Transforming a point, vector or ray by a product of affine matrices equals transforming by the factors in turn; transforms map points along a ray to points along the transformed ray with the same parameter.", "quantifier": "every pair of affine matrices, every point, vector and ray", "why_tests_cant": "continuous domain", "anchors": ["src/geometry/matrix4.cpp: operator*", "src/geometry/ray.cpp: Ray::apply"]}
{"id": "C42", "title": "Ray/triangle intersection is exact", "statement": "In exact arithmetic the triangle test reports a hit iff the ray meets the (non degenerate) triangle at a parameter within the allowed interval, and the reported distance and point are those of the meeting point.", "quantifier": "every triangle and ray", "why_tests_cant": "continuous domain", "anchors": ["src/primitives/triangle.cpp: Triangle::intersect"]}
{"id": "C43", "title": "Ray/box and ray/sphere intersection are exact", "statement": "In exact arithmetic the sphere and box tests report a hit iff the ray meets the surface beyond the self-intersection threshold and not beyond the given distance, and report the first such point.", "quantifier": "every ray (with non-zero direction components where the code divides)", "why_tests_cant": "continuous domain", "anchors": ["src/primitives/sphere.cpp: Sphere::intersect", "src/primitives/box.cpp: Box::intersect", "src/utility/utility.cpp: equation2"]}
{"id": "C44", "title": "Bounding boxes bound", "statement": "Engulfing points or boxes yields the smallest box containing all of them independently of order; transforming a shape yields a box containing every transformed point; the slab test never misses a ray that meets the box.", "quantifier": "every sequence of engulf operations, every affine transform, every ray", "why_tests_cant": "continuous domain, all orders", "anchors": ["src/geometry/AABB.cpp: engulf, inside, intersect", "src/primitives/*.cpp: compute_AABB"]}
{"id": "C45", "title": "Fresnel terms conserve energy", "statement": "Reflected fractions returned by the dielectric and conductor models lie in [0,1], total internal reflection reflects everything, and the reflected and transmitted fractions at a dielectric boundary add up to one.", "quantifier": "every admissible index of refraction and every incidence cosine", "why_tests_cant": "continuous domain", "anchors": ["src/materials/fresnel_conditions.cpp", "src/materials/reflection.cpp", "src/materials/refraction.cpp"]}
{"id": "C46", "title": "Specular directions obey the laws of optics", "statement": "The direction sampled by a mirror is the unit mirror image of the outgoing direction; the direction sampled by a smooth dielectric is a unit vector on the other side satisfying Snell's law, and none is produced beyond the critical angle.", "quantifier": "every unit outgoing direction and pair of indices", "why_tests_cant": "continuous domain", "anchors": ["src/materials/reflection.cpp", "src/materials/refraction.cpp"]}
{"id": "C47", "title": "Layered materials sample one of their own layers consistently", "statement": "Sampling a multi-layer material picks a layer inside the list for every random number in [0,1], never uses a specular layer when specular layers are excluded, and value/pdf reported with the sampled direction are those value() and pdf() report for that direction.", "quantifier": "every list of layers, every random number and hit", "why_tests_cant": "all combinations of layer kinds", "anchors": ["src/materials/multi_bsdf.cpp: MultiBSDF"]}
{"id": "C48", "title": "Occlusion caching does not change answers", "statement": "Whether a point is reported as occluded does not depend on which rays were tested before.", "quantifier": "every history of occlusion queries", "why_tests_cant": "history dependent cache", "anchors": ["src/utility/occlusion_tester.cpp: OcclusionTester::is_occluded"]}
{"id": "C49", "title": "Masks partition hit points", "statement": "A hit point is visible through a mask iff it is not masked, inverting the mask exchanges the two, and a dual material always answers value, sampling, pdf and shading queries from the same layer for the same hit.", "quantifier": "every mask texture, channel, threshold and hit point", "why_tests_cant": "all combinations", "anchors": ["src/textures/mask_boolean.cpp: MaskBoolean", "src/materials/dual.cpp: DualBsdf"]}
{"id": "C50", "title": "Elapsed time formatting is correct and bounded", "statement": "The formatted duration denotes the same number of seconds as the input, uses units in range (seconds and minutes below 60, hours below 24), and always fits the buffer size promised by the API.", "quantifier": "every number of seconds", "why_tests_cant": "all integers, buffer bound at extremes", "anchors": ["src/utility/utility.cpp: format_seconds"]}
{"id": "C51", "title": "Byte swapping is an involution", "statement": "Swapping the endianness of a 16 or 32 bit value reverses its bytes, and swapping twice gives the value back; the image library's big-endian conversion agrees with it.", "quantifier": "every 16 and 32 bit value", "why_tests_cant": "2^32 values; a macro with a wrong mask passes for values whose low byte is zero", "anchors": ["src/utility/utility.hpp: swap_endianness", "src/utility/imageio/endianness.h"]}
{"id": "C52", "title": "The camera frame is orthonormal and oriented", "statement": "The camera-to-world transform built from position, target and up vector maps the camera origin to the position, the forward axis to the unit direction towards the target, and has orthonormal axes whenever up is not parallel to the view direction.", "quantifier": "every position, target and up vector", "why_tests_cant": "continuous domain", "anchors": ["src/geometry/matrix4.cpp: set_lookAt_inverse", "src/cameras/camera.cpp"]}
{"id": "C53", "title": "The PPM reader follows the format", "statement": "Reading a binary or text PPM file with any blanks between the header fields, any maximum value and samples not above it stores, in order, the colours rescaled to 0..255 (rounding down, by at most a rounding error), leaves the rest of the buffer alone and succeeds iff no row is missing; samples above the maximum saturate.", "quantifier": "every size, separator, maximum value, sample list and truncation point", "why_tests_cant": "two formats, two sample widths and float rounding for each of the 65535 maximum values", "anchors": ["src/utility/imageio/ppm.c: ppm_read"]}
{"id": "C54", "title": "Libraries free what they inherit, once", "statement": "Every object handed to the material or texture library is freed exactly once: when its name is erased, when the library is cleared, or when the library is destroyed.", "quantifier": "every sequence of add/erase/clear operations", "why_tests_cant": "tests add a few distinct names; leaks on repeated names and double frees depend on the whole history", "anchors": ["src/materials/material_library.cpp: add_inherit, erase, clear", "src/textures/texture_library.cpp: inherit_texture, inherit_map, clear, ~TextureLibrary"]}
{"id": "C55", "title": "Every object of an obj file is loaded", "statement": "Loading an obj file produces one mesh for every object of the file that has faces.", "quantifier": "every file", "why_tests_cant": "depends on the sequence of objects in the file", "anchors": ["src/parsers/parser_obj.cpp: ParserObj::get_next_mesh", "src/parsers/config_driver.cpp: parse_and_allocate_obj"]}
{"id": "C56", "title": "A material stays in use until the next usemtl", "statement": "The material selected by usemtl applies to all the following faces until another usemtl, also when a new object or group begins.", "quantifier": "every file, names and materials", "why_tests_cant": "depends on where objects begin with respect to usemtl lines", "anchors": ["src/parsers/parser_obj.cpp: ParserObj::get_next_mesh"]}
{"id": "C57", "title": "Starting a new obj file drops the previous one", "statement": "After start_parsing the result depends on the new file only (parser_obj.hpp: every information about other files is dropped).", "quantifier": "every pair of files", "why_tests_cant": "needs two files read with the same parser and indices that mean different vertices", "anchors": ["src/parsers/parser_obj.cpp: ParserObj::start_parsing"]}
{"id": "C58", "title": "Face corners with a texture coordinate and no normal", "statement": "A corner written v/vt denotes vertex v with texture coordinate vt and no normal.", "quantifier": "every pair of indices and every earlier content of the token buffer", "why_tests_cant": "the outcome depends on the bytes that earlier tokens left in a buffer on the stack", "anchors": ["src/parsers/parser_obj.cpp: ParserObj::get_next_mesh (face records)"]}
{"id": "C59", "title": "Malformed faces are refused", "statement": "A face with fewer than three corners, or with an index of a vertex that does not exist, makes the reader refuse the object; memory outside of its vectors is not read and the program goes on.", "quantifier": "every file", "why_tests_cant": "arbitrary malformed content", "anchors": ["src/parsers/parser_obj.cpp: ParserObj::get_next_mesh (face records)"]}
{"id": "C60", "title": "The slab test accepts exactly the rays that meet the box", "statement": "AABB::intersect with ray properties returns true exactly when the line of the ray meets the box, and then the two numbers are the parameters of entry and exit.", "quantifier": "every box, every ray, including rays parallel to a face", "why_tests_cant": "rays lying in the plane of a face produce 0*infinity and have measure zero in random tests", "anchors": ["src/geometry/AABB.cpp: AABB::intersect"]}
{"id": "C61", "title": "Building the hierarchy performs no undefined conversion", "statement": "Bvh::buildTree is defined for every mesh: the conversion of the normalised centroids to integers never receives a NaN or a number out of range.", "quantifier": "every mesh, including flat ones", "why_tests_cant": "depends on all the centroids; a conversion of NaN may look harmless on one machine", "anchors": ["src/accelerators/bvh.cpp: Bvh::buildTree, mortonCode"]}
{"id": "C62", "title": "Building the kd-tree of an accepted scene fits the asset buffer", "statement": "KdTree::buildTree writes inside the buffer of _MAX_ASSETS_ references for every scene whose assets were accepted by addAsset.", "quantifier": "every scene of at most _MAX_ASSETS_ assets", "why_tests_cant": "needs thousands of overlapping assets; the count of references depends on every split", "anchors": ["src/accelerators/kdtree.cpp: KdTree::buildTree, KdTree::build"]}
{"id": "C63", "title": "The kd-tree traversal stays inside its arrays", "statement": "KdTree::intersect on a built tree terminates, reads nodes and assets inside their arrays and never needs more pending nodes than its stack of KDTREE_MAX_DEPTH holds, whatever the assets answer.", "quantifier": "every built tree, every ray including rays with zero components, every behaviour of the assets", "why_tests_cant": "memory safety over all trees and all rays, including the NaN parameters of rays in a splitting plane", "anchors": ["src/accelerators/kdtree.cpp: KdTree::intersect"]}
{"id": "C64", "title": "A leaf of the kd-tree lists what lies strictly inside its region", "statement": "Every asset with a point strictly inside the region of a leaf is listed in that leaf, and an asset listed in a leaf has a box that reaches the region.", "quantifier": "every scene, every order of equal boundaries that the sort may choose, every cost function", "why_tests_cant": "std::sort leaves the order of equal boundaries open; one run shows one order", "anchors": ["src/accelerators/kdtree.cpp: KdTree::build, finalize"]}
{"id": "C65", "title": "The kd-tree over triangles answers like testing every triangle", "statement": "For rays that do not run inside the plane of a face of a bounding box, intersecting the tree reports the hit of least distance among the triangles, or none when no triangle is hit closer than FLT_MAX.", "quantifier": "every list of triangles whose tree was built with a stable sort, every cost function, every such ray", "why_tests_cant": "requires reasoning over all trees and all orders of visits", "anchors": ["src/accelerators/kdtree.cpp: KdTree::intersect", "src/primitives/triangle.cpp: Triangle::intersect"]}
{"id": "C66", "title": "Any ray of a path can be tested for occlusion", "statement": "OcclusionTester::is_occluded is defined for every ray the integrators may produce, whatever its number of bounces up to DEFAULT_BOUNCES included.", "quantifier": "every scene, every sequence of earlier tests, every number of bounces", "why_tests_cant": "an access one past a five element array is silent in an ordinary run", "anchors": ["src/utility/occlusion_tester.cpp: OcclusionTester::is_occluded", "src/geometry/ray.hpp: ricochet"]}
{"id": "C67", "title": "Occlusion tests of rays with fewer than five bounces are memory safe", "statement": "After any sequence of tests of rays with fewer than five bounces, another such test terminates, stays inside the cache, the node array and the stack, and answers.", "quantifier": "every built scene, every behaviour of its assets, every sequence of tests, every ray and distance", "why_tests_cant": "the cache carries state from one call to the next; tests cover a few sequences", "anchors": ["src/utility/occlusion_tester.cpp: OcclusionTester::is_occluded"]}
{"id": "C68", "title": "Shading frame conversions are inverse", "statement": "For a hit whose dpdu and normal are orthogonal unit vectors, converting a unit direction to shading space and back, or to world space and back, returns it, and both conversions keep it of length one.", "quantifier": "every orthogonal pair, every unit direction", "why_tests_cant": "real arithmetic over all frames; tests use axis aligned frames", "anchors": ["src/materials/shading_space.cpp", "src/geometry/vec3.cpp: normalize, cross, dot"]}
{"id": "C69", "title": "The shading frame turns the normal into the vertical", "statement": "For every hit, converting the normal of the hit to shading space gives (0,0,1), so that the cosine with the normal is the z coordinate.", "quantifier": "every unit dpdu and every unit normal, orthogonal or not as on a mesh with interpolated normals", "why_tests_cant": "the tests use hits whose dpdu is already orthogonal to the normal", "anchors": ["src/materials/shading_space.cpp: ShadingSpace::ShadingSpace", "src/primitives/triangle.cpp: compute_normal_and_uv"]}
{"id": "C70", "title": "Specular light paths are reversible", "statement": "Sampling the direction that a mirror or a smooth dielectric produced from wo gives wo back.", "quantifier": "every pair of refraction indices, every unit direction", "why_tests_cant": "an identity over all angles and indices", "anchors": ["src/materials/reflection.cpp", "src/materials/refraction.cpp"]}
{"id": "C71", "title": "Layers added to a material are kept", "statement": "Adding layers to a multi-layer material keeps all of them, in order, each with its own texture or the default one.", "quantifier": "every number of layers, every mixture of textures", "why_tests_cant": "writing past a five element array is silent in an ordinary run", "anchors": ["src/materials/multi_bsdf.cpp: MultiBSDF::inherit_bdf", "src/settings.h: _MAX_BDF_"]}
{"id": "C72", "title": "Single-layer materials report what they sample", "statement": "The value and density returned with a sampled direction by a single-layer material are those that value() and pdf() return for that direction.", "quantifier": "every hit with an orthogonal frame, every outgoing direction, every pair of random numbers", "why_tests_cant": "quantifies over the random numbers", "anchors": ["src/materials/single_brdf.cpp", "src/materials/lambertian.cpp", "src/materials/bdf.cpp"]}
{"id": "C73", "title": "Default sampling is cosine weighted", "statement": "The default sampling of a Bdf returns a unit direction on the side of wo, and its directions are distributed with the density |cos|/pi that pdf() returns.", "quantifier": "every outgoing direction off the surface, all random numbers", "why_tests_cant": "a density is a property of the whole map from random numbers to directions", "anchors": ["src/materials/bdf.cpp: Bdf::sample_value, Bdf::pdf"]}
{"id": "C74", "title": "Half vectors have the density that pdf reports", "statement": "The half vectors sampled by the Blinn and Beckmann distributions are distributed with the density that their pdf() returns.", "quantifier": "every exponent or roughness, every angle", "why_tests_cant": "a density is a property of the whole map from random numbers to directions", "anchors": ["src/materials/microfacet_distributions.cpp: Blinn, Beckmann"]}
{"id": "C75", "title": "GGX half vectors have the density that pdf reports", "statement": "The half vectors sampled by the isotropic GGX distribution are unit vectors on the side of wo and are distributed with the density that pdf() returns.", "quantifier": "every roughness, every angle", "why_tests_cant": "a density is a property of the whole map from random numbers to directions", "anchors": ["src/materials/microfacet_distributions.cpp: GGXiso"]}
{"id": "C76", "title": "Oren-Nayar is isotropic and reciprocal", "statement": "The value of an Oren-Nayar surface does not change when the two directions are exchanged, nor when both are turned about the normal.", "quantifier": "every roughness, every pair of directions, every angle of rotation", "why_tests_cant": "tests compare a few literal values", "anchors": ["src/materials/oren_nayar.cpp: OrenNayar::value"]}
{"id": "C77", "title": "Rough reflection is reciprocal and consistent", "statement": "A rough reflection never returns a negative value or density, is unchanged when the directions are exchanged, and samples unit directions that are mirror images about the sampled half vector with the density pdf() returns whenever the half vector it rebuilds is really normalised (its squared length is one or off the tolerance 1e-5), or zero below the surface.", "quantifier": "every distribution with a symmetric geometric term, every Fresnel term, every direction and all random numbers", "why_tests_cant": "quantifies over distributions and random numbers", "anchors": ["src/materials/microfacet.cpp: MicrofacetR"]}
{"id": "C78", "title": "Rough transmission with Blinn reports the density it samples", "statement": "pdf() of a rough transmission returns, for the direction sampled from wo, the density returned by the sampling.", "quantifier": "every exponent, every pair of refraction indices, both sides of the surface", "why_tests_cant": "needs a direction leaving the denser medium and a positive density", "anchors": ["src/materials/microfacet.cpp: MicrofacetT", "src/materials/microfacet_distributions.cpp: Blinn::pdf"]}
{"id": "C79", "title": "Rough transmission reports the density it samples", "statement": "With a distribution whose density does not depend on the sign of the half vector (Beckmann, GGX), or entering the denser medium, pdf() of a rough transmission returns the density of the sampling whenever the half vector it rebuilds is really normalised (its squared length is one or off the tolerance 1e-5), and the sampled direction is a unit vector.", "quantifier": "every such distribution, every pair of different refraction indices, every direction", "why_tests_cant": "quantifies over distributions and random numbers", "anchors": ["src/materials/microfacet.cpp: MicrofacetT"]}
{"id": "C80", "title": "Fresnel terms seen from outside are fractions", "statement": "For light arriving from outside a conductor, and from either side of a dielectric, the reflected fraction lies in [0,1]; below the critical angle the reflected and the transmitted fraction add up to one.", "quantifier": "every refraction index and absorption, every direction", "why_tests_cant": "inequalities over all indices and angles", "anchors": ["src/materials/fresnel_conditions.cpp", "src/materials/refraction.cpp", "src/materials/reflection.cpp"]}
{"id": "C81", "title": "A layered material samples an eligible layer with the density it reports", "statement": "For a material with at least one layer, sampling picks an eligible layer for every random number in [0,1], each for an equal share of the random numbers, and the density returned is that pdf() returns for the direction.", "quantifier": "every list of layers, every random number", "why_tests_cant": "quantifies over layers and random numbers", "anchors": ["src/materials/multi_bsdf.cpp: MultiBSDF::sample_value, MultiBSDF::pdf"]}
{"id": "C82", "title": "Unfiltered lookup reads the texture", "statement": "For coordinates in [0,1] an unfiltered lookup returns a texel of the file: the first one below half a texel, else the one whose index is the position less half a texel rounded down.", "quantifier": "every power of two side up to 32768, every pixel content, all coordinates in [0,1]", "why_tests_cant": "an out of bounds read needs a particular pair of coordinate and side", "anchors": ["src/textures/image_map.cpp: ImageMapUnfiltered::filter"]}
{"id": "C83", "title": "Unfiltered lookup returns the texel that covers the coordinate", "statement": "An unfiltered lookup at (u,v) returns the texel whose square contains (u,v).", "quantifier": "every side, every coordinate", "why_tests_cant": "the tests sample a few coordinates", "anchors": ["src/textures/image_map.cpp: ImageMapUnfiltered::filter"]}
{"id": "C84", "title": "Bilinear lookup interpolates", "statement": "Away from the lower border, a bilinear lookup is the bilinear interpolation of the repeated texture rounded down, and everywhere each channel stays between the least and the greatest texel.", "quantifier": "every side, every content, all coordinates in [0,1]", "why_tests_cant": "quantifies over contents and coordinates", "anchors": ["src/textures/image_map.cpp: ImageMap::bilinear"]}
{"id": "C85", "title": "Bilinear lookup has no seam", "statement": "The bilinear lookup gives the same colour on the left and on the right border of the texture, which are the same place when the texture is repeated.", "quantifier": "every side, every content, every row", "why_tests_cant": "needs contents whose second and last columns differ", "anchors": ["src/textures/image_map.cpp: ImageMap::bilinear"]}
{"id": "C86", "title": "Trilinear lookup is safe and bounded", "statement": "Unless the logarithm of the footprint is exactly zero, a trilinear lookup reads inside the levels and each channel is at most the greatest and at least the least texel less one.", "quantifier": "every side, every content, all coordinates in [0,1], all derivatives, any logarithm function", "why_tests_cant": "quantifies over derivatives and contents", "anchors": ["src/textures/image_map.cpp: ImageMapTrilinear::filter"]}
{"id": "C87", "title": "Trilinear lookup covers a footprint of the whole texture", "statement": "A trilinear lookup whose footprint is exactly the whole texture returns the mean texel.", "quantifier": "every side above one, every coordinate", "why_tests_cant": "needs derivatives whose largest is exactly one", "anchors": ["src/textures/image_map.cpp: ImageMapTrilinear::filter"]}
{"id": "C88", "title": "Filtering a constant texture returns the constant", "statement": "A trilinear lookup in a texture of one colour returns that colour, whatever the footprint.", "quantifier": "every colour, every side, every coordinate and footprint", "why_tests_cant": "the tests use even values or whole levels", "anchors": ["src/textures/image_map.cpp: ImageMapTrilinear::filter"]}
{"id": "C89", "title": "Texture coordinates are repeated", "statement": "Scaled and shifted coordinates from zero up to 2^31 are brought into [0,1] by subtracting a whole number, and the unfiltered lookup there returns a texel of the file.", "quantifier": "all coordinates, scales and shifts whose result is in the range", "why_tests_cant": "quantifies over scales, shifts and coordinates", "anchors": ["src/textures/texture_image.cpp: TextureImage::map_value"]}
{"id": "C90", "title": "Negative texture coordinates are repeated", "statement": "A texture can be looked up at negative coordinates, as produced by a negative scale or shift.", "quantifier": "every side, every coordinate below zero", "why_tests_cant": "the result of the conversion is unspecified, so a test may pass by chance", "anchors": ["src/textures/texture_image.cpp: TextureImage::map_value", "src/textures/image_map.cpp: ImageMapUnfiltered::filter"]}
{"id": "C91", "title": "All whole coordinates are the same place", "statement": "Looking up a repeated texture at any two whole coordinates gives the same texel.", "quantifier": "every side, every row, all whole numbers from one to 2^31", "why_tests_cant": "the border is a single value", "anchors": ["src/textures/texture_image.cpp: TextureImage::map_value"]}
{"id": "C92", "title": "Scaling a texture scales its derivatives", "statement": "With a texture scaled by (sx,sy), the filter receives the derivatives of u scaled by sx and those of v scaled by sy.", "quantifier": "every pair of scales, every derivative", "why_tests_cant": "tests use the same scale for both axes", "anchors": ["src/textures/texture_image.cpp: TextureImage::map_value"]}
{"id": "C93", "title": "Square power of two files become textures", "statement": "A readable square file whose side is a power of two from 1 to 32768 gives a texture of that side with the pixels of the file.", "quantifier": "every such side, every content", "why_tests_cant": "quantifies over sides and contents", "anchors": ["src/textures/texture_image.cpp: TextureImage::TextureImage", "src/textures/image_map.cpp: ImageMap::init"]}
{"id": "C94", "title": "Files with unusable sides are rejected", "statement": "A file that cannot be a texture (no pixels, or a side above 32768) is rejected with a warning and the default texture is used.", "quantifier": "every file", "why_tests_cant": "needs a file of four billion pixels or an empty one", "anchors": ["src/textures/texture_image.cpp: TextureImage::TextureImage"]}
{"id": "C95", "title": "A texture uses the filter it was given", "statement": "A texture created from a file and a filter is filtered with that filter.", "quantifier": "every library of maps already loaded, every file, every filter", "why_tests_cant": "depends on which textures were created before", "anchors": ["src/textures/texture_image.cpp: TextureImage::TextureImage", "src/textures/texture_library.cpp"]}
{"id": "C96", "title": "Matrix product is the product", "statement": "Multiplying matrices with operator* or operator*= yields the matrix product, which is associative with the identity matrix as unit.", "quantifier": "every pair and triple of matrices", "why_tests_cant": "continuous domain of dimension 32", "anchors": ["src/geometry/matrix4.cpp: operator*, operator*=, set_identity"]}
{"id": "C97", "title": "Invertible transforms can be inverted", "statement": "An asset with an invertible transform, such as any non-zero scale, gets the inverse transform that its intersection relies on.", "quantifier": "every invertible transform", "why_tests_cant": "the threshold is on the determinant, a test needs a small scale on all axes", "anchors": ["src/geometry/matrix4.cpp: Matrix4::inverse", "src/primitives/asset.cpp: Asset::Asset"]}
{"id": "C98", "title": "Scene transforms scale, turn and move", "statement": "The transform of an object read from a scene file scales it, turns it about x, then y, then z, and moves it; the turns keep lengths and angles; the scale (in magnitude) and the position can be read back from the matrix.", "quantifier": "every position, rotation and scale", "why_tests_cant": "continuous domain", "anchors": ["src/parsers/config_driver.cpp: build_meshes", "src/geometry/matrix4.cpp: set_rotate_x, set_rotate_y, set_rotate_z, set_scale, set_translation, get_scale, get_translation"]}
{"id": "C99", "title": "Assets report hits in world space", "statement": "When an asset with an invertible transform is hit, the reported point lies on the world ray at the reported distance parameter, is the image of the point of the shape, and the reported normal is perpendicular to the image of every direction tangent to the shape.", "quantifier": "every affine invertible transform, every shape, every ray", "why_tests_cant": "quantifies over transforms and shapes", "anchors": ["src/primitives/asset.cpp: Asset::intersect", "src/geometry/matrix4.cpp: transform_normal"]}
{"id": "C100", "title": "mul accepts its input as output", "statement": "mul(a, b, out) writes the product of a and b also when out is a, as operator*= does.", "quantifier": "every pair of matrices", "why_tests_cant": "the tests use a separate output", "anchors": ["src/geometry/matrix4.cpp: mul"]}
{"id": "C101", "title": "Transformed normals stay normal", "statement": "transform_normal with the inverse of an affine transform gives a vector that is perpendicular to a transformed direction exactly when the normal was perpendicular to the direction.", "quantifier": "every affine transform whose inversion succeeds, every normal and direction", "why_tests_cant": "continuous domain", "anchors": ["src/geometry/matrix4.cpp: transform_normal"]}
{"id": "C102", "title": "Spheres are hit only by rays that meet them", "statement": "A ray whose line does not meet a sphere, at any uniform scale of the sphere, is not reported to hit it.", "quantifier": "every ray and every uniform scale", "why_tests_cant": "the defect grows with the scale; the tests use unit spheres", "anchors": ["src/primitives/sphere.cpp: Sphere::intersect", "src/utility/utility.hpp: equation2"]}
{"id": "C103", "title": "A masked sphere respects the distance of the best hit", "statement": "When a mask removes the first crossing of a sphere, the second crossing is reported only if it is not beyond the distance of the best hit found so far.", "quantifier": "every ray, mask and best distance", "why_tests_cant": "quantifies over masks and over the order in which shapes are tested", "anchors": ["src/primitives/sphere.cpp: Sphere::intersect"]}
{"id": "C104", "title": "Sphere hits lie on the ray and on the sphere", "statement": "The point reported for a sphere hit is on the ray at the reported distance and on the sphere.", "quantifier": "every ray", "why_tests_cant": "the exception is a set of measure zero", "anchors": ["src/primitives/sphere.cpp: Sphere::intersect"]}
{"id": "C105", "title": "The surface of a scaled sphere", "statement": "Congruent ellipsoids have the same surface, and a uniformly scaled sphere has the surface 4 pi s^2.", "quantifier": "every position, rotation and scale", "why_tests_cant": "quantifies over transforms", "anchors": ["src/primitives/sphere.cpp: Sphere::surface"]}
{"id": "C106", "title": "Boxes of transformed shapes", "statement": "The world-space box of a sphere or box contains the image of every point of the shape and is the smallest box containing the image of the enclosing cube.", "quantifier": "every affine transform, every point", "why_tests_cant": "continuous domain", "anchors": ["src/primitives/sphere.cpp: Sphere::compute_AABB", "src/primitives/box.cpp: Box::compute_AABB"]}
{"id": "C107", "title": "Sphere sampling is uniform", "statement": "Every pair of random numbers gives a point on the unit sphere, and the density of the points with respect to area is 1/(4 pi) everywhere.", "quantifier": "every pair of random numbers", "why_tests_cant": "a density cannot be measured by finitely many samples", "anchors": ["src/primitives/sphere.cpp: Sphere::sample_point"]}
{"id": "C108", "title": "Box sampling is uniform in world space", "statement": "Every pair of random numbers gives a point on a face of the box with the outward normal of that face, and with the densities of the transform the points are spread over the transformed box with density 1/surface.", "quantifier": "every position, rotation and positive scale, every pair of random numbers", "why_tests_cant": "a density cannot be measured by finitely many samples", "anchors": ["src/primitives/box.cpp: Box::sample_point, Box::get_densities, Box::surface"]}
{"id": "C109", "title": "The normal of a box entered from outside", "statement": "When a ray enters a box, the reported normal is the outward normal of the face that is hit and points against the ray.", "quantifier": "every ray starting outside that does not run in the plane of a face", "why_tests_cant": "continuous domain", "anchors": ["src/primitives/box.cpp: Box::intersect"]}
{"id": "C110", "title": "The normal of a box hit from inside", "statement": "When a ray starts inside a box, the reported normal is the normal of the face through which it leaves.", "quantifier": "every ray starting inside", "why_tests_cant": "holds when entry and exit faces are opposite, as in the tests", "anchors": ["src/primitives/box.cpp: Box::intersect"]}
{"id": "C111", "title": "Boxes are hit only by rays that meet them", "statement": "A ray that does not meet a box is not reported to hit it, including rays running in the plane of a face.", "quantifier": "every ray", "why_tests_cant": "exception of measure zero caused by NaN", "anchors": ["src/primitives/box.cpp: Box::intersect"]}
{"id": "C112", "title": "The mask of a box looks at the hit", "statement": "Whether a masked box is hit depends on the mask at the point hit.", "quantifier": "every mask, every ray, every earlier hit", "why_tests_cant": "depends on stale data of the previous hit", "anchors": ["src/primitives/box.cpp: Box::intersect"]}
{"id": "C113", "title": "Perspective rays", "statement": "For every raster position the perspective camera gives the ray from its position through the corresponding point of the screen; the centre of the image shows the target and the edge of the shorter side is seen at half the field of view given in radians.", "quantifier": "every image size, field of view, position, target and up vector", "why_tests_cant": "continuous domain", "anchors": ["src/cameras/camera_perspective.cpp"]}
{"id": "C114", "title": "Perspective differentials", "statement": "The two additional rays of create_ray are the rays of the next pixel in x and in y.", "quantifier": "every image size, field of view and raster position", "why_tests_cant": "continuous domain", "anchors": ["src/cameras/camera_perspective.cpp: create_ray", "src/cameras/camera.cpp: create_ray"]}
{"id": "C115", "title": "Every field of view below a half turn works", "statement": "A perspective camera with a field of view between 0 and pi is usable.", "quantifier": "every field of view", "why_tests_cant": "fails only for very wide angles", "anchors": ["src/cameras/camera_perspective.cpp", "src/geometry/matrix4.cpp: inverse"]}
{"id": "C116", "title": "The field of view of the configuration is in degrees", "statement": "With the documented default field of view of 55 degrees the right half of the image shows what is right of the viewing direction and the upper half what is above it.", "quantifier": "every camera placement", "why_tests_cant": "needs the sign of tan(27.5) and a comparison with the documentation", "anchors": ["src/parsers/README.md", "src/parsers/config_driver.cpp: build_camera", "src/cameras/camera_perspective.cpp"]}
{"id": "C117", "title": "Orthographic rays", "statement": "The rays of the orthographic camera are parallel to the viewing direction and start on a regular grid around the position.", "quantifier": "every image size and camera placement", "why_tests_cant": "continuous domain", "anchors": ["src/cameras/camera_orthographic.cpp"]}
{"id": "C118", "title": "Orthographic differentials", "statement": "The two additional rays of create_ray are the rays of the next pixel in x and in y.", "quantifier": "every image size and raster position", "why_tests_cant": "continuous domain", "anchors": ["src/cameras/camera_orthographic.cpp: create_ray"]}
{"id": "C119", "title": "The panorama covers every direction", "statement": "Every direction is seen by some raster position of the 360 degree camera.", "quantifier": "every direction", "why_tests_cant": "continuous domain", "anchors": ["src/cameras/camera360.cpp"]}
{"id": "C120", "title": "All cameras show the same handedness", "statement": "The 360 degree camera shows the target in the centre of the image and, right of it, what the other cameras show on the right.", "quantifier": "every image size and placement", "why_tests_cant": "a mirrored image looks plausible", "anchors": ["src/cameras/camera360.cpp"]}
{"id": "C121", "title": "A sample of an unscaled light is a point of it, with its distance and density", "statement": "For a light whose transform preserves lengths, sample_visible_surface returns the unit direction from the position to a point of the light, the distance of that point, the density of uniform area sampling seen from the position, r^2 / (cos area), and the emission exactly if the light faces the position.", "quantifier": "for all shapes, rigid transforms, positions and sampled points", "why_tests_cant": "tests sample an untransformed sphere at fixed numbers", "anchors": ["src/lights/area_light.cpp:56-113"]}
{"id": "C122", "title": "A sample of a scaled light has its world distance and density", "statement": "sample_visible_surface of a light scaled by s reports the distance and the solid angle density of the sampled point in world space, so that the occlusion test covers the whole segment to the light.", "quantifier": "for all scales", "why_tests_cant": "tests do not scale lights", "anchors": ["src/lights/area_light.cpp:56-113"]}
{"id": "C123", "title": "pdf of a direction is the density of the sample with that direction", "statement": "AreaLight::pdf asked for the direction that sample_visible_surface returned gives the density that it returned; multiple importance sampling relies on it.", "quantifier": "for all lights, scales, positions and sampled points", "why_tests_cant": "the tests never compare the two functions on a scaled light", "anchors": ["src/lights/area_light.cpp:56-134"]}
{"id": "C124", "title": "Rays leaving an unscaled light start on it and leave on its outer side", "statement": "sample_surface returns a ray that starts at the world position of the sampled point, has length one and makes a non negative angle cosine with the normal, and the density one over area times 2 pi.", "quantifier": "for all rigid transforms, points, normals and random numbers", "why_tests_cant": "only fixed random numbers are tested", "anchors": ["src/lights/area_light.cpp:28-54"]}
{"id": "C125", "title": "A path always ends", "statement": "PathTracer::radiance visits at most DEFAULT_BOUNCES + 1 hit points whatever the scene and the random numbers.", "quantifier": "for all scenes and random numbers", "why_tests_cant": "termination for every scene is not testable", "anchors": ["src/integrators/path_tracer.cpp:13-71"]}
{"id": "C126", "title": "Light selection is in range and uniform", "statement": "direct_l chooses an existing light for every random number, 1 included, and every light for an interval of numbers of the same length.", "quantifier": "for all numbers of lights and random numbers", "why_tests_cant": "rounding at the ends of the intervals", "anchors": ["src/integrators/ray_tracer.cpp:22-24"]}
{"id": "C127", "title": "Multiple importance sampling of one light is unbiased", "statement": "For a direction that both strategies can generate, if the material and the light report consistent values and densities, the contributions of the two strategies times their densities add up to the light arriving from that direction.", "quantifier": "for all materials, lights and densities", "why_tests_cant": "a bias of a Monte Carlo estimator is not visible in single samples", "anchors": ["src/integrators/ray_tracer.cpp:32-76"]}
{"id": "C128", "title": "A light seen by the camera has its own brightness", "statement": "If the camera sees a light that reflects nothing, radiance returns its emission.", "quantifier": "for all scenes and lights", "why_tests_cant": "the path tracer has no tests", "anchors": ["src/integrators/path_tracer.cpp:27-34", "src/integrators/ray_tracer.cpp:13-15"]}
{"id": "C129", "title": "Several lights add up", "statement": "The mean of direct_l over the random choice of the light is the sum of what the lights send.", "quantifier": "for all scenes with several lights", "why_tests_cant": "a bias of a Monte Carlo estimator is not visible in single samples", "anchors": ["src/integrators/ray_tracer.cpp:22-76"]}
{"id": "C130", "title": "Russian roulette does not change the mean", "statement": "The mean over the roulette number of the indirect light after the fourth bounce is the indirect light without roulette.", "quantifier": "for all scenes, powers and vertices", "why_tests_cant": "a bias of a Monte Carlo estimator is not visible in single samples", "anchors": ["src/integrators/path_tracer.cpp:40-48"]}
{"id": "C131", "title": "Emission is not counted twice along a path", "statement": "A light that has been sampled as direct light at a vertex is not added again when the path goes on to it after a non specular bounce.", "quantifier": "for all scenes", "why_tests_cant": "a bias of a Monte Carlo estimator is not visible in single samples", "anchors": ["src/integrators/path_tracer.cpp:27-34", "src/integrators/ray_tracer.cpp:13-15"]}
{"id": "C132", "title": "Radiance is never negative", "statement": "With non negative emissions, material values, densities and cosines the radiance returned for a camera ray is never negative.", "quantifier": "for all scenes, hit points and random numbers", "why_tests_cant": "all paths of all scenes", "anchors": ["src/integrators/path_tracer.cpp", "src/integrators/ray_tracer.cpp"]}
{"id": "C133", "title": "Arrays up to 32768 a side behave like maps", "statement": "An Array2D created with a side of at most 32768 returns, after any sequence of set and clear operations inside it, the last value written at each position; a copy is independent of the original, and an array made from values returns them.", "quantifier": "for all sides up to 32768, block sizes, element types and operation sequences", "why_tests_cant": "every position of every side after every sequence cannot be enumerated", "anchors": ["src/utility/array2D.hpp"]}
{"id": "C134", "title": "Array sides up to 2^31 are rounded to the least power of two", "statement": "For a requested side of at most 2^31 the side of the array is the least power of two that is at least the request and the block side.", "quantifier": "for all requested sides up to 2^31", "why_tests_cant": "4 billion values", "anchors": ["src/utility/array2D.hpp"]}
{"id": "C135", "title": "Reading a bmp with positive sides is safe and complete", "statement": "For any bytes whose header gives a width of at least 0 and a height of at least 1 with sizes that fit int, img_bmp_read writes inside the buffer only, terminates, and when it succeeds the result depends on the file only.", "quantifier": "for all files", "why_tests_cant": "arbitrary bytes", "anchors": ["src/utility/imageio/bmp.c"]}
{"id": "C136", "title": "Bmp files of even width follow the format", "statement": "A bmp of even width written by the library stores every pixel where the format says and the size field equals the file length; and any conforming file of even width is read pixel by pixel.", "quantifier": "for all images and files of even width", "why_tests_cant": "all images", "anchors": ["src/utility/imageio/bmp.c"]}
{"id": "C137", "title": "Tga images below 65536 pixels a side survive a round trip", "statement": "Writing and reading back a tga of sides below 65536 (data within int) gives the same pixels with opaque alpha.", "quantifier": "for all images in range", "why_tests_cant": "all images", "anchors": ["src/utility/imageio/tga.c"]}
{"id": "C138", "title": "Reading an uncompressed or wide tga is safe", "statement": "img_tga_read of an uncompressed file, or of any file at least 127 pixels wide, terminates, stays inside the buffer, and its successful result depends on the file only.", "quantifier": "for all bytes of the file", "why_tests_cant": "arbitrary bytes", "anchors": ["src/utility/imageio/tga.c"]}
{"id": "C139", "title": "Uncompressed tga files and runs are decoded as the format says", "statement": "Files of uncompressed pixels, and run-length files made of runs and one-pixel raw packets, are decoded to the pixels the format assigns for every depth, origin, identification field and trailing data; truncated ones are reported.", "quantifier": "for all such files", "why_tests_cant": "all packet sequences", "anchors": ["src/utility/imageio/tga.c"]}
{"id": "C140", "title": "Paths whose parents are long enough are resolved", "statement": "A path in which every dot-dot leaves the root or a name of at least two characters, that does not resolve to the root without a final separator and is not a lone dot or dot-dot, is resolved component by component, for File(path) and append.", "quantifier": "for all such paths and working directories", "why_tests_cant": "all paths", "anchors": ["src/utility/file.cpp"]}
{"id": "C141", "title": "Names of files and paths of ancestors are right", "statement": "The name and extension of a constructed file are the last component and what follows its last dot, and the n-th parent has the path without the last n components, up to the root.", "quantifier": "for all constructed files", "why_tests_cant": "all paths", "anchors": ["src/utility/file.cpp"]}
{"id": "C142", "title": "Kd-tree nodes keep children below 2^29", "statement": "Interior nodes return the split, the axis and a child index below 2^29 unchanged, leaves an offset and a number of assets below 2^31.", "quantifier": "for all values in range", "why_tests_cant": "2^61 nodes", "anchors": ["src/accelerators/kdtree.cpp:21-69"]}
{"id": "C143", "title": "Up to 4096 assets are kept in order", "statement": "Adding up to 4096 assets to a kd-tree stores them in order inside the buffer.", "quantifier": "for all sequences of additions", "why_tests_cant": "all sequences", "anchors": ["src/accelerators/kdtree.cpp:129-142"]}
{"id": "C144", "title": "The film is exact for one worker and for pixels of one tile", "statement": "When the rendering ends, a pixel of the film holds the sum of all contributions to it, if there is one worker or only one tile contributes to the pixel; with several workers it never holds more than that.", "quantifier": "for all schedules, numbers of workers and contributions", "why_tests_cant": "all interleavings", "anchors": ["src/renderer.cpp:148-245", "src/cameras/image_film.cpp:46-140"]}
{"id": "C145", "title": "Film updates stay inside and reach the own pixel with wide filters", "statement": "A sample updates every pixel at most once, inside the image and the filter range only, and with a range of at least 3/2 it updates the pixel it lies in.", "quantifier": "for all samples, image sizes and ranges", "why_tests_cant": "all positions", "anchors": ["src/cameras/image_film.cpp:46-140"]}
{"id": "C146", "title": "The random sampler visits every pixel of its tile in order", "statement": "get_samples returns, for the i-th call, spp positions in the i-th pixel of the tile in row order, and false after the last pixel.", "quantifier": "for all tiles, sample counts and random streams", "why_tests_cant": "all tiles", "anchors": ["src/samplers/sampler_random.cpp"]}
{"id": "C147", "title": "The stratified sampler fills every stratum for square counts", "statement": "For a square number of samples every call of get_samples returns exactly one position in every stratum of the next pixel, and false after the last pixel.", "quantifier": "for all tiles, square counts and random streams below 1", "why_tests_cant": "all tiles", "anchors": ["src/samplers/sampler_stratified.cpp"]}
{"id": "C148", "title": "Scenes of at most 4096 operations are consistent", "statement": "After any sequence of at most 4096 inherit operations the scene holds each shape, asset and light once, at most 32 lights, counts them right, and frees each object once.", "quantifier": "for all such sequences", "why_tests_cant": "all sequences", "anchors": ["src/utility/scene.cpp"]}
{"id": "C149", "title": "Obj files that end with a newline are read to their end", "statement": "Reading an obj file that ends with a newline and has no byte 7 terminates for every buffer size.", "quantifier": "for all such texts", "why_tests_cant": "non termination cannot be tested", "anchors": ["src/parsers/parser_obj.cpp"]}
{"id": "C150", "title": "Up to 255 materials stay with their faces", "statement": "Compacting the materials of a mesh keeps, for every face, the material it had, and drops only materials without faces, for material indices below 256.", "quantifier": "for all tables and faces", "why_tests_cant": "all tables", "anchors": ["src/parsers/parser_obj.cpp"]}
{"id": "C151", "title": "Meshes made with room for a triangle accept any number", "statement": "Adding triangles to a mesh made for at least one triangle keeps the first million in order inside the allocation; trimming keeps them.", "quantifier": "for all sequences of triangles", "why_tests_cant": "all sequences", "anchors": ["src/primitives/mesh.cpp"]}
{"id": "C152", "title": "Accepted sizes and sample counts keep their promise", "statement": "check_resolution makes the width a multiple of 32 by less than 32 and keeps the aspect within one pixel; check_spp makes the sample count of a stratified sampler a square close to the request.", "quantifier": "for all inputs in the stated ranges", "why_tests_cant": "2^62 inputs", "anchors": ["src/parsers/config_driver.cpp"]}
{"id": "C153", "title": "Rays that cross the plane of a triangle hit it exactly", "statement": "For a ray not parallel to the plane, intersect reports a hit exactly when the ray meets the triangle at an acceptable distance, with the interpolated point, normal and texture coordinates.", "quantifier": "for all triangles, rays and distances, exact arithmetic", "why_tests_cant": "a continuum of rays", "anchors": ["src/primitives/triangle.cpp"]}
{"id": "C154", "title": "Boxes contain what they engulf and are never missed", "statement": "The box grown around points or boxes is the smallest that contains them, in any order; a ray that passes through a point of a box is reported by the slab test with an interval that contains the point; the box of a transformed box, sphere or triangle contains the shape.", "quantifier": "for all points, boxes, rays and transforms", "why_tests_cant": "a continuum of points", "anchors": ["src/geometry/AABB.cpp"]}
{"id": "C155", "title": "Text and one-byte ppm files are decoded", "statement": "Every text ppm and every binary ppm with a maximum up to 255 is read to its samples rescaled to 0..255, with truncated files reported and the pixels before the end kept.", "quantifier": "for all such files", "why_tests_cant": "all files", "anchors": ["src/utility/imageio/ppm.c"]}
{"id": "C156", "title": "Small meshes are intersected exactly through the hierarchy", "statement": "For meshes of up to 33 triangles the BVH answers with the closest accepted triangle, like testing every triangle.", "quantifier": "for all meshes up to 33 triangles, rays, masks, sorts and cluster sizes", "why_tests_cant": "a continuum of rays", "anchors": ["src/accelerators/bvh.cpp"]}
{"id": "C157", "title": "Materials of up to five layers keep their layers", "statement": "Up to five layers added to a MultiBSDF are kept in order with their textures, the default texture where none is given.", "quantifier": "for all layers and textures", "why_tests_cant": "all sequences", "anchors": ["src/materials/multi_bsdf.cpp"]}
{"id": "C158", "title": "Lossless byte swaps", "statement": "The 16 and 32 bit swaps reverse the bytes and undo themselves, and the 32 bit big-endian macro is the swap.", "quantifier": "for all words", "why_tests_cant": "2^32 words", "anchors": ["src/utility/utility.hpp:321-337", "src/utility/imageio/endianness.h"]}
{"id": "C159", "title": "The texture library frees exactly what it was given", "statement": "Whatever the texture library held at some time is freed exactly once by the end, and lookups find the last texture inherited under a name.", "quantifier": "for all sequences of operations on distinct objects", "why_tests_cant": "all sequences", "anchors": ["src/textures/texture_library.cpp"]}
{"id": "C160", "title": "The tent filter shares out every sample", "statement": "The tent filter's weights are within 0 and 1, one at the centre, zero outside its range, even, falling with distance, and the weights a sample gives to the pixels around it add up to the same total wherever it falls.", "quantifier": "for all offsets in the pixel", "why_tests_cant": "the offsets are a continuum", "anchors": ["src/samplers/filter_tent.cpp", "src/samplers/filter.hpp"]}
{"id": "C161", "title": "The gaussian filter fades out", "statement": "The gaussian filter's weights are within 0 and 1, even, falling with distance, zero outside the range, and positive inside it for a positive falloff.", "quantifier": "for all falloffs and offsets", "why_tests_cant": "the falloff is a free parameter", "anchors": ["src/samplers/filter_gaussian.cpp"]}
{"id": "C162", "title": "Full weight at the centre", "statement": "Every filter gives a sample that falls exactly on a pixel's centre the weight one.", "quantifier": "for all filters and parameters", "why_tests_cant": "tests fix the parameters", "anchors": ["src/samplers/filter_gaussian.cpp", "src/samplers/filter_mitchell.cpp", "src/samplers/filter_lanczos.cpp", "src/samplers/filter_tent.cpp"]}
{"id": "C163", "title": "The Mitchell filter shares out every sample", "statement": "Whatever its two parameters, the weights that the Mitchell filter gives to the pixels around a sample add up to one; it is even and vanishes at the edge of its range.", "quantifier": "for all b, c and offsets", "why_tests_cant": "the parameters are free", "anchors": ["src/samplers/filter_mitchell.cpp"]}
{"id": "C164", "title": "The Lanczos filter is bounded", "statement": "The Lanczos filter is one at the centre, zero at the edge and outside, even, within -1 and 1, and within 0 and 1 when tau is at most one.", "quantifier": "for all positive tau and offsets", "why_tests_cant": "trigonometric functions of a free parameter", "anchors": ["src/samplers/filter_lanczos.cpp"]}
{"id": "C165", "title": "No negative weights", "statement": "A sample never takes light away from a pixel: no filter gives a negative weight.", "quantifier": "for all filters, parameters and offsets", "why_tests_cant": "it depends on parameter and offset together", "anchors": ["src/samplers/filter_mitchell.cpp", "src/samplers/filter_lanczos.cpp"]}
{"id": "C166", "title": "A sample reaches both sides equally", "statement": "Two pixels of the image whose centres are at the same distance left and right of a sample either both receive it or neither does.", "quantifier": "for all filters, samples and pixels", "why_tests_cant": "the asymmetry appears only at the last pixel of the range", "anchors": ["src/cameras/image_film.cpp:46-80"]}
{"id": "C167", "title": "Derivatives lead to the neighbouring hits", "statement": "When derivatives are found, moving from the hit along the two tangents by du and dv reaches exactly the points of the surface's plane that the two differential rays reach.", "quantifier": "for all hits with tangents in the surface and rays not along it", "why_tests_cant": "a three way choice of axes solved in two dimensions", "anchors": ["src/primitives/hit_point.cpp:6-67"]}
{"id": "C168", "title": "Derivatives are always found on a proper frame", "statement": "With a normal and tangents of length one at right angles to each other, derivatives are always found.", "quantifier": "for all orientations", "why_tests_cant": "the worst case is a normal along a diagonal", "anchors": ["src/primitives/hit_point.cpp:29-67"]}
{"id": "C169", "title": "Derivatives are in texture coordinates", "statement": "The derivatives of a hit say how far the texture coordinates move towards the neighbouring rays.", "quantifier": "for all surfaces and rays", "why_tests_cant": "only surfaces whose coordinates do not run at unit speed show it", "anchors": ["src/primitives/asset.cpp:43-48", "src/primitives/hit_point.cpp:50-64", "src/renderer.cpp:228-231"]}
{"id": "C170", "title": "Height maps tilt away from the rise", "statement": "A height map turns the normal into the one of the displaced surface, n - a u - b v up to a positive factor for slopes a and b, whichever way the texture runs; the frame keeps right angles, its vertical is that normal and it stays on the surface's side.", "quantifier": "for all slopes and hits with tangents of length one at right angles", "why_tests_cant": "slopes and frames are a continuum", "anchors": ["src/textures/texture_height.cpp:62-77"]}
{"id": "C171", "title": "A level height map changes nothing", "statement": "A height map of a single height leaves the normal as it is.", "quantifier": "for all heights, derivatives and hits with a proper frame", "why_tests_cant": "all orientations", "anchors": ["src/textures/texture_height.cpp:13-77"]}
{"id": "C172", "title": "Normal maps give proper frames", "statement": "A normal map gives, for every texel, a normal of length one strictly on the surface's side and a frame with right angles whose vertical is along that normal.", "quantifier": "for all texels and hits with a proper frame", "why_tests_cant": "2^24 texels and all orientations", "anchors": ["src/textures/texture_normal.cpp:11-44"]}
{"id": "C173", "title": "The frame of a normal map stands on its normal", "statement": "With a normal map, the vertical of the shading frame is the normal returned with it.", "quantifier": "for all texels and hits", "why_tests_cant": "shows only where texture coordinates are mirrored", "anchors": ["src/textures/texture_normal.cpp:32-43"]}
{"id": "C174", "title": "Normal maps read red, green and blue as u, -v and n", "statement": "Where the texture coordinates run the right way round, a texel facing out of the map gives the frame's vertical along r u - g v + b n with each channel from -1 to 1.", "quantifier": "for all texels with blue at least 128 and hits with a proper frame", "why_tests_cant": "2^23 texels and all orientations", "anchors": ["src/textures/texture_normal.cpp:14-38"]}
{"id": "C175", "title": "A single layer answers as the layer itself in the shading frame", "statement": "A material made of one layer returns, for its value and its probability, what the layer returns for the directions seen in the shading frame (the value times the texture), and a specular layer answers nothing unless specular layers are asked for.", "quantifier": "for every layer, frame, texture, flags and pair of directions", "why_tests_cant": "A test tries some flags on some layers; a negated flag test is invisible on the others.", "anchors": ["src/materials/single_brdf.cpp:33-86"]}
{"id": "C176", "title": "Everything declared in the configuration files is collected once and by its own keys", "statement": "After parsing, the shapes, world objects, lights, materials and dual materials are those declared in the main file followed by those of each child in order, each object described by the last value of each of its own keys and by the documented defaults: no key leaks from one object to the next or from one file to the next.", "quantifier": "for every main file, every set of children and every order of keys", "why_tests_cant": "The parser keeps one current object that every statement fills and resets: leaks appear only for particular sequences of statements, of which a test has a few.", "anchors": ["src/parsers/config_driver.cpp:45-125", "src/parsers/config_parser.y:168-300"]}
{"id": "C177", "title": "The renderer gets the last settings of the main file", "statement": "Output, resolution, samples, sampler, filter and camera given to the renderer are the last ones declared in the main file, and the documented defaults where it declares none, whatever the child files contain.", "quantifier": "for every main file and every set of children", "why_tests_cant": "The order in which files are read and settings used matters only with children, and settings interact in sequences.", "anchors": ["src/parsers/config_driver.cpp:45-66", "src/parsers/config_parser.y:140-232"]}
{"id": "C178", "title": "A child file can overwrite the settings of its parent", "statement": "As the README says, a setting declared both in the main file and in a child takes the value of the child.", "quantifier": "for every main file and child that declare the same setting differently", "why_tests_cant": "The scene still renders, with the settings of the main file.", "anchors": ["src/parsers/config_driver.cpp:57-91", "src/parsers/README.md:20-40"]}
{"id": "C179", "title": "An absolute child and the first relative one are read from the right place", "statement": "A child given by an absolute path is read from it, and the first child given by a relative path is read from the directory of the main file.", "quantifier": "for every directory, every list of children and every path made of names", "why_tests_cant": "Paths are built by editing shared buffers; a test runs from one directory.", "anchors": ["src/parsers/config_driver.cpp:70-80", "src/utility/file.cpp:290-311"]}
{"id": "C180", "title": "Every relative child is read from the directory of the input file", "statement": "As the README says, every relative path of a child is resolved from the position of the input file.", "quantifier": "for every directory and every list of children", "why_tests_cant": "A scene with one child works; with two the second is not found.", "anchors": ["src/parsers/config_driver.cpp:76-78", "src/utility/file.cpp:290-311"]}
{"id": "C181", "title": "Without relative children obj files and textures are found from the input file", "statement": "If no child is given by a relative path, every obj file and every texture of a material or mask given by a relative path is looked for from the directory of the main file, and every absolute one where it says.", "quantifier": "for every directory, configuration and path made of names", "why_tests_cant": "The paths are resolved long after they are read, from a directory kept in the driver.", "anchors": ["src/parsers/config_driver.cpp:45-95", "src/parsers/config_driver.cpp:261-272", "src/parsers/config_driver.cpp:522-530"]}
{"id": "C182", "title": "Obj files and textures are found from the input file", "statement": "Every relative path of an obj file or of a texture of a material is resolved from the position of the input file, whatever its children.", "quantifier": "for every configuration", "why_tests_cant": "A scene without children is right.", "anchors": ["src/parsers/config_driver.cpp:76-78", "src/parsers/config_driver.cpp:261-272"]}
{"id": "C183", "title": "Reading proper configurations is defined", "statement": "Reading a configuration whose texture and child paths are made of names, from a main file that is not in the root directory, never reads or writes outside a buffer, whatever the children and the objects.", "quantifier": "for every such configuration and directory", "why_tests_cant": "Reads outside buffers usually go unnoticed.", "anchors": ["src/parsers/config_driver.cpp:45-95", "src/utility/file.cpp:180-311"]}
{"id": "C184", "title": "A texture object loads its own image under its own name", "statement": "A texture object adds to the library its own source with its own scale and shift, under its name or under the file name if it has none; names already in the library keep their texture, and the next texture starts from the defaults.", "quantifier": "for every library, list of keys, directory and source", "why_tests_cant": "Scale, shift and name are kept in the driver between textures: a leak needs a particular sequence.", "anchors": ["src/parsers/config_driver.cpp:261-295", "src/parsers/config_parser.y:232-248"]}
{"id": "C185", "title": "A plain texture name is searched in the library, then on the disk", "statement": "A texture given by a name without separators is the texture of that name in the library, otherwise the file of that name in the directory, otherwise the default texture.", "quantifier": "for every library, directory and name", "why_tests_cant": "Which of the three is used depends on everything loaded before.", "anchors": ["src/parsers/config_driver.cpp:261-295", "src/parsers/README.md:190"]}
{"id": "C186", "title": "A texture path is searched in the library, then on the disk", "statement": "As the README says, the string given for a texture is searched in the library and, if not found, used as a path.", "quantifier": "for every library, directory and string", "why_tests_cant": "It goes wrong only if two directories have files of the same name, or a texture name has a separator.", "anchors": ["src/parsers/config_driver.cpp:273-288", "src/parsers/README.md:190"]}
{"id": "C187", "title": "An object without a mask, or with a missing one that is not inverted, is visible", "statement": "If an object has no mask, or its mask names no texture and no file and is not inverted, every point of it is visible.", "quantifier": "for every library, directory, mask channel and hit", "why_tests_cant": "The missing texture is replaced by another one, whose texels decide.", "anchors": ["src/parsers/config_driver.cpp:695-705", "src/textures/mask_boolean.cpp:13-31"]}
{"id": "C188", "title": "A missing mask is disabled", "statement": "As the README says, a mask whose texture cannot be found is disabled, with any attributes.", "quantifier": "for every mask", "why_tests_cant": "A missing mask without attributes is right.", "anchors": ["src/parsers/config_driver.cpp:695-705", "src/textures/texture_library.cpp:7-16", "src/parsers/README.md:166"]}
{"id": "C189", "title": "A material is described by its own keys", "statement": "A material object of a configuration is described by the last value of each of its keys, and by the documented defaults of the keys it does not have.", "quantifier": "for every list of keys", "why_tests_cant": "The parser fills one shared material; sequences of keys are unbounded.", "anchors": ["src/parsers/config_parser.y:173", "src/parsers/config_parser.y:250-280", "src/parsers/config_driver.cpp:9-22"]}
{"id": "C190", "title": "Every type of material has the documented layers", "statement": "For roughness in [0,1] and anisotropy unset or in [0,1], a matte, glossy, glass or metal material has the documented layers: smooth ones for roughness 0, the chosen distribution if isotropic, anisotropic GGX if the two values differ, the diffuse texture on the diffuse or transmitted layer and the specular one on the reflected layer.", "quantifier": "for every type, roughness, anisotropy, distribution, index, element and textures", "why_tests_cant": "The layers depend on comparisons of two real numbers after several corrections of them.", "anchors": ["src/parsers/config_driver.cpp:361-490", "src/parsers/README.md:178-192"]}
{"id": "C191", "title": "No roughness gives a degenerate layer", "statement": "Whatever numbers are given for roughness and anisotropy, also outside the documented range, every roughness given to a distribution is in (0,1], every Blinn exponent is at least 0 and every Oren-Nayar parameter is in (0,100].", "quantifier": "for all numbers, types and distributions", "why_tests_cant": "A division by zero needs a particular combination of clamped values and sentinels.", "anchors": ["src/parsers/config_driver.cpp:361-490"]}
{"id": "C192", "title": "Equal roughness and anisotropy mean an isotropic surface", "statement": "As the README says, if the anisotropy equals the roughness the surface is isotropic and has the chosen distribution.", "quantifier": "for all equal values", "why_tests_cant": "Values above 1 are accepted and clamped without a warning.", "anchors": ["src/parsers/config_driver.cpp:361-372", "src/parsers/README.md:188"]}
{"id": "C193", "title": "The library has the first material of each name with its own textures", "statement": "After a configuration is built, the material library has under each name the first material declared with that name, with the textures that its plain names meant before any material was built; no material changes the textures of another, and Default stays the default material.", "quantifier": "for every list of materials and every texture library", "why_tests_cant": "Materials share the texture library, which grows as they are built.", "anchors": ["src/parsers/config_driver.cpp:297-496", "src/materials/material_library.cpp"]}
{"id": "C194", "title": "A dual material holds the materials it names", "statement": "A dual material with a new name holds the materials or earlier dual materials of the two names it gives, or the default material for a missing name, and adding dual materials does not change what other names mean.", "quantifier": "for every library and list of dual materials", "why_tests_cant": "Names are resolved in a map that changes while the dual materials are built.", "anchors": ["src/parsers/config_driver.cpp:498-520"]}
{"id": "C195", "title": "A dual material can name any material of the configuration", "statement": "A dual material that names a dual material declared after it holds that one.", "quantifier": "for every pair of dual materials", "why_tests_cant": "The default material is put instead without a warning.", "anchors": ["src/parsers/config_driver.cpp:498-520"]}
{"id": "C196", "title": "Every mesh is deleted or kept exactly once", "statement": "Every mesh made from an obj file is either deleted or given to the scene, exactly once: none leaks and none is freed twice.", "quantifier": "for every list of meshes with any names and every list of objects", "why_tests_cant": "Double frees need repeated names in particular places.", "anchors": ["src/parsers/config_driver.cpp:98-118", "src/parsers/config_driver.cpp:522-563"]}
{"id": "C197", "title": "No object uses a deleted mesh", "statement": "The shape of every object of the scene is the built-in sphere or a mesh that the scene keeps, the first one parsed with the name of the object.", "quantifier": "for every list of meshes and objects", "why_tests_cant": "A use of a freed mesh happens later, in other code, and rarely crashes.", "anchors": ["src/parsers/config_driver.cpp:98-118", "src/parsers/config_driver.cpp:565-693"]}
{"id": "C198", "title": "The scene keeps exactly the meshes that are used", "statement": "A mesh is kept if and only if it is the first of its name, an object of the world or a light has its name and the name is not Sphere.", "quantifier": "for every list of meshes and objects", "why_tests_cant": "Unused meshes waste memory silently.", "anchors": ["src/parsers/config_driver.cpp:98-118", "src/parsers/config_driver.cpp:565-605"]}
{"id": "C199", "title": "Every object with a known shape is placed with its material", "statement": "Every object of the world and every light whose name is Sphere or the name of a mesh is placed, in reverse order of declaration, with the material it names, the default one if that is missing, or those of its mesh if it names none; the others are left out.", "quantifier": "for every list of meshes, objects and materials", "why_tests_cant": "Combinations of missing shapes, missing materials and overrides are unbounded.", "anchors": ["src/parsers/config_driver.cpp:565-693"]}
{"id": "C200", "title": "The arrays of materials are freed", "statement": "Every array of materials and associations made while placing the objects is freed when the configuration is done.", "quantifier": "for every list of meshes and objects", "why_tests_cant": "Leaks are invisible to tests.", "anchors": ["src/parsers/config_driver.cpp:98-118", "src/parsers/config_driver.cpp:541-563", "src/parsers/config_driver.cpp:596-606"]}
{"id": "C201", "title": "Syntax errors underline the wrong token", "statement": "When a configuration file has a syntax error, the message shows the text of the line and a row of tildes exactly under the wrong token, also when the line is longer than the 128 characters that fit: for every line that ends with a newline and every token that ends before column 124 or has at most 61 characters.", "quantifier": "all files, lines and tokens within the stated lengths", "why_tests_cant": "a test shows a few lines; the window that is shown depends on the lengths of the line, of the text before and of the token", "anchors": ["src/parsers/config_driver.cpp:158-190", "src/parsers/config_lexer.l:199-235"]}
{"id": "C202", "title": "Syntax errors at long tokens are reported safely", "statement": "A syntax error at any token of up to 123 characters on any line is reported without writing outside the array of the underlining.", "quantifier": "all tokens of 65 to 123 characters that end at column 124 or later", "why_tests_cant": "needs a long token far in a long line, and the wrong write may go unnoticed", "anchors": ["src/parsers/config_driver.cpp:169-180"]}
{"id": "C203", "title": "Syntax errors on the last line are reported safely", "statement": "A syntax error on the last line of a file is reported without reading characters that were never written, also if the file does not end with a newline.", "quantifier": "all unterminated last lines of less than 124 characters", "why_tests_cant": "uninitialised memory often contains a zero by chance", "anchors": ["src/parsers/config_lexer.l:199-221"]}
{"id": "C204", "title": "Tokens that cannot be underlined", "statement": "A wrong token that spans more lines, or has more than 123 characters, is reported without any access to the line.", "quantifier": "all files, positions and columns", "why_tests_cant": "the guard must hold for every pair of columns", "anchors": ["src/parsers/config_driver.cpp:168-171"]}
{"id": "C205", "title": "Syntax errors of the main file name the right line", "statement": "An error in the main configuration file is reported with the number of the line that contains the wrong token, and that line is shown with the token underlined.", "quantifier": "all main files of tokens, blanks and comments within lines, all positions of the wrong token", "why_tests_cant": "depends on all the lexemes before the wrong one", "anchors": ["src/parsers/config_lexer.l:58-68", "src/parsers/config_lexer.l:179-196", "src/parsers/config_driver.cpp:158-190"]}
{"id": "C206", "title": "Syntax errors of children name the right line", "statement": "An error in a child configuration file is reported with the number of the line of that file.", "quantifier": "all main files with at least a newline, all children", "why_tests_cant": "needs an error in the second file of a run", "anchors": ["src/parsers/config_lexer.l:14", "src/parsers/config_lexer.l:188-196"]}
{"id": "C207", "title": "Line numbers after texts of more lines", "statement": "An error after a quoted text that contains newlines is reported with the right line number.", "quantifier": "all files with a quoted text that contains a newline before the error", "why_tests_cant": "needs a quoted text of more lines before the error", "anchors": ["src/parsers/config_lexer.l:27", "src/parsers/config_lexer.l:146", "src/parsers/config_lexer.l:181"]}
{"id": "C208", "title": "Syntax errors on the first line of a child", "statement": "An error on the first line of a child is reported safely whatever the length of the last line of the main file.", "quantifier": "all main files whose last line has at least 128 characters and no newline, all first lines of the child", "why_tests_cant": "needs a main file with a long last line without newline and a wrong child", "anchors": ["src/parsers/config_lexer.l:14", "src/parsers/config_lexer.l:188-196", "src/parsers/config_driver.cpp:173-180"]}
{"id": "C209", "title": "The elliptical filter stays in the map and in range", "statement": "For footprints along the axes that fit in a level of the texture, the elliptical (EWA) filter reads only texels of that level and its result lies between the darkest and the brightest texel of the picture in every channel.", "quantifier": "all textures, levels, coordinates in the unit square, footprints along the axes that fit, and roots with an error of half a percent", "why_tests_cant": "Which texels are inside the ellipse changes with every coordinate and footprint.", "anchors": ["src/textures/image_map.cpp:237-307"]}
{"id": "C210", "title": "The elliptical filter covers the height of the footprint", "statement": "The elliptical filter averages over the vertical extent of the footprint as over the horizontal one.", "quantifier": "all textures and footprints along the axes, whatever their height", "why_tests_cant": "A missing blur in one direction looks like a sharper picture.", "anchors": ["src/textures/image_map.cpp:255"]}
{"id": "C211", "title": "The elliptical filter wraps around the border", "statement": "Near the border of the picture the elliptical filter uses the texels of the opposite border, as the picture is repeated.", "quantifier": "all textures whose side is at least two, coordinates within the first column of texels, footprints along the axes that fit", "why_tests_cant": "A seam of one texel is easily missed.", "anchors": ["src/textures/image_map.cpp:280-291"]}
{"id": "C212", "title": "The elliptical filter is defined on diagonal footprints", "statement": "The elliptical filter returns a colour for every footprint, also along a diagonal.", "quantifier": "all diagonal footprints two texels long or more and at most a quarter of a texel wide; at any level, all footprints with a negative determinant", "why_tests_cant": "Tests use footprints along the axes, where the wrong coefficient is harmless.", "anchors": ["src/textures/image_map.cpp:254-274", "src/textures/image_map.cpp:299-305"]}
{"id": "C213", "title": "The elliptical filter is defined on wide footprints", "statement": "The elliptical filter returns a colour also when the picture is repeated many times across a pixel.", "quantifier": "all textures and footprints three times as wide as the picture or more", "why_tests_cant": "Reading before the start of a small level rarely crashes.", "anchors": ["src/textures/image_map.cpp:280-294"]}
{"id": "C214", "title": "The elliptical filter uses existing levels", "statement": "The elliptical filter only uses levels of the texture that exist, whatever the footprint and also for a texture of one texel.", "quantifier": "all textures with a footprint of exactly the size of the picture, all footprints on textures of one texel", "why_tests_cant": "Reading after the last level rarely crashes.", "anchors": ["src/textures/image_map.cpp:181-193"]}
{"id": "C215", "title": "The elliptical filter is safe on moderate footprints", "statement": "For footprints along the axes, less than half of the picture wide, with an eccentricity of at most 29, on textures with a side of at least four texels, the whole elliptical filter is defined and its result lies between the darkest (less one) and the brightest texel.", "quantifier": "all such textures, coordinates and footprints", "why_tests_cant": "Both levels, their blend and the wrapping depend on all the arguments.", "anchors": ["src/textures/image_map.cpp:152-205", "src/textures/image_map.cpp:237-307"]}
{"id": "C216", "title": "The elliptical filter blurs streaks", "statement": "A footprint that is long in one direction and has no extent in the other is filtered along the long one.", "quantifier": "all textures and all lengths", "why_tests_cant": "An exact zero is rare in random tests.", "anchors": ["src/textures/image_map.cpp:164-168"]}
{"id": "C217", "title": "Temperatures are normalised", "statement": "A light given by a positive temperature has sixteen positive samples of at most one, and from 300 K on the strongest is one.", "quantifier": "all temperatures above zero kelvin", "why_tests_cant": "The strongest wavelength moves with the temperature.", "anchors": ["src/utility/spectrum.cpp:368-405"]}
{"id": "C218", "title": "Temperatures follow Planck's law", "statement": "The samples of a light given by a temperature are in the ratios of Planck's law for a black body.", "quantifier": "all temperatures and all pairs of samples", "why_tests_cant": "The error is a few percent at daylight temperatures and invisible to the eye.", "anchors": ["src/utility/spectrum.cpp:386-402", "src/validator.h:43-45"]}
{"id": "C219", "title": "Warm temperatures are close to Planck's law", "statement": "Up to 3000 K the ratio of any two samples is within one percent of Planck's law.", "quantifier": "all temperatures up to 3000 K and all pairs of samples", "why_tests_cant": "Exponentials of all temperatures cannot be sampled.", "anchors": ["src/utility/spectrum.cpp:386-402"]}
{"id": "C220", "title": "Hotter lights are bluer", "statement": "When the temperature of a light rises, every sample grows with respect to every sample of longer wavelength.", "quantifier": "all pairs of temperatures and of samples", "why_tests_cant": "A monotonicity over all temperatures.", "anchors": ["src/utility/spectrum.cpp:386-402"]}
{"id": "C221", "title": "Both programs show the same colour for a temperature", "statement": "A light given by a temperature has the same XYZ colour in spectre-rgb and in spectre-full.", "quantifier": "all temperatures, also zero", "why_tests_cant": "The two programs are built from different branches of the preprocessor and cannot be tested together.", "anchors": ["src/utility/spectrum.cpp:368-423", "src/utility/spectrum.cpp:586-649"]}
{"id": "C222", "title": "Colours add up", "statement": "The colour of a sum of spectra is the sum of the colours and scaling a spectrum scales its colour and luminance, in both programs.", "quantifier": "all spectra and factors", "why_tests_cant": "Sixteen unrolled statements per operator, for all values.", "anchors": ["src/utility/spectrum.cpp:586-675", "src/utility/spectrum.cpp:726-752", "src/utility/spectrum.cpp:1052-1078"]}
{"id": "C223", "title": "Colours come back from the picture", "statement": "A light of a colour given by three bytes, seen directly by the camera of spectre-rgb, has these bytes in the picture, or one less in a channel.", "quantifier": "all 16.7 million colours", "why_tests_cant": "All colours cannot be rendered.", "anchors": ["src/utility/color.cpp:153-178", "src/utility/color.cpp:217-258", "src/cameras/image_film.cpp:150-180"]}
{"id": "C224", "title": "Brighter pixels have larger bytes", "statement": "When a channel of a pixel receives more light, its byte in the picture does not decrease.", "quantifier": "all pairs of intensities", "why_tests_cant": "The two branches of the transfer function overlap by less than any sampled step.", "anchors": ["src/utility/color.cpp:164-175", "src/cameras/image_film.cpp:169-176"]}
{"id": "C225", "title": "White surfaces do not add light", "statement": "In spectre-rgb a white surface reflects at most the light that it receives.", "quantifier": "all lights with a positive third component and all numbers of reflections", "why_tests_cant": "The gain of nine percent in one component looks like a slightly blue picture.", "anchors": ["src/utility/spectrum.cpp:479-484", "src/utility/spectrum.cpp:578-583", "src/utility/spectrum.cpp:835-862"]}
{"id": "C226", "title": "White light on white walls is grey", "statement": "In spectre-rgb the light of a white lamp that is reflected by white walls has equal red, green and blue.", "quantifier": "all numbers of reflections", "why_tests_cant": "Needs indirect light to be separated from direct light.", "anchors": ["src/utility/spectrum.cpp:578-583", "src/utility/color.cpp:160-162"]}
{"id": "C227", "title": "Surfaces of spectre-full do not add light", "statement": "In spectre-full a surface of any colour reflects at most what it receives, sample by sample, after any number of reflections.", "quantifier": "all tables, colours, lights and numbers of reflections", "why_tests_cant": "All colours and all lights.", "anchors": ["src/utility/spectrum.cpp:479-576", "src/utility/spectrum.cpp:835-862"]}
{"id": "C228", "title": "The spectrum of a colour does not depend on the order of its channels", "statement": "In spectre-full the spectrum of a colour is the same mixture of white, the mixed colours and the pure ones whichever branch is taken, also for equal channels.", "quantifier": "all tables and colours", "why_tests_cant": "Six branches with ties.", "anchors": ["src/utility/spectrum.cpp:479-576"]}
{"id": "C229", "title": "Spectra given by samples keep their colour", "statement": "In spectre-rgb a spectrum given by sixteen samples, as those of the metals, is shown with the colour of its samples: short wavelengths are blue.", "quantifier": "all spectra with samples from 400 to 480 nm only", "why_tests_cant": "The colour of a metal has to be judged by eye.", "anchors": ["src/utility/spectrum.cpp:425-455", "src/materials/metals.hpp:146-180", "src/parsers/config_driver.cpp:469-470"]}
{"id": "C230", "title": "Both programs refract alike", "statement": "For the same coefficients of Cauchy or Sellmeier both programs use the same index of refraction, and the outside of glass has index one.", "quantifier": "all coefficients", "why_tests_cant": "The two programs cannot be tested together.", "anchors": ["src/materials/refraction.cpp:6-23", "src/materials/refraction.cpp:96-152", "src/materials/fresnel_conditions.cpp:31-48"]}
{"id": "C231", "title": "Spectre-full disperses light", "statement": "In spectre-full a material with different indices for different wavelengths refracts them differently.", "quantifier": "all coefficients with a positive second one", "why_tests_cant": "Needs a rendered prism.", "anchors": ["src/materials/refraction.cpp:6-23", "src/materials/fresnel_conditions.cpp:31-48"]}
{"id": "C232", "title": "Png and tiff files survive a round trip", "statement": "An image of any size written as png or tiff and read back has the same red, green and blue at every pixel, in the same order, and alpha 255.", "quantifier": "all images", "why_tests_cant": "Tests write one or two pictures.", "anchors": ["src/utility/imageio/png.c:6-47", "src/utility/imageio/png.c:91-164", "src/utility/imageio/tiff.c:6-44", "src/utility/imageio/tiff.c:77-125"]}
{"id": "C233", "title": "Jpeg, png and tiff files are decoded", "statement": "Rgb jpeg files, png files of any kind and tiff files of three or four channels are read without leaving any buffer, every pixel with its own colour at its own place.", "quantifier": "all files", "why_tests_cant": "Tests read sample files.", "anchors": ["src/utility/imageio/jpg.c:122-170", "src/utility/imageio/png.c:91-164", "src/utility/imageio/tiff.c:77-125"]}
{"id": "C234", "title": "Greyscale jpeg files can be read", "statement": "Reading a greyscale jpeg file stays inside the buffers.", "quantifier": "all greyscale jpeg files", "why_tests_cant": "The test files are rgb, and reading past a small heap block rarely crashes.", "anchors": ["src/utility/imageio/jpg.c:145-160"]}
{"id": "C235", "title": "CMYK jpeg files keep their pixels apart", "statement": "A pixel read from a jpeg file depends on the samples of that pixel only.", "quantifier": "all jpeg files of four components", "why_tests_cant": "The test files are rgb.", "anchors": ["src/utility/imageio/jpg.c:145-160"]}
{"id": "C236", "title": "Extensions mean one format", "statement": "An extension stands for the same format in img_write, img_valid, img_read8, img_supported and img_dimensions, and exactly the formats of the libraries that were found are supported (libtiff and libjpeg both found or both missing).", "quantifier": "all strings, all sets of libraries", "why_tests_cant": "A build tests one set of libraries.", "anchors": ["src/utility/imageio/imageio.c:8-130"]}
{"id": "C237", "title": "Tiff textures do not need libjpeg", "statement": "With libtiff, a tiff file accepted as a texture is loaded with its own sides, whether libjpeg is there or not.", "quantifier": "all tiff files", "why_tests_cant": "Needs a machine without libjpeg.", "anchors": ["src/utility/imageio/imageio.c:79-82", "src/textures/texture_image.cpp:15-19"]}
{"id": "C238", "title": "Accepted greyscale tiff textures are loaded", "statement": "A greyscale tiff file accepted as a texture has the pixels of the file.", "quantifier": "all greyscale tiff files", "why_tests_cant": "Depends on the contents of fresh memory.", "anchors": ["src/utility/imageio/tiff.c:95-120", "src/textures/texture_image.cpp:21-24", "src/parsers/config_driver.cpp:277-283"]}
{"id": "C239", "title": "Textures have the pixels of their files", "statement": "A square png, rgb jpeg or tiff file of three or four channels with a power of two as side becomes a texture with exactly its pixels, whatever was in memory before.", "quantifier": "all such files, all contents of fresh memory", "why_tests_cant": "Tests check one picture.", "anchors": ["src/parsers/config_driver.cpp:277-283", "src/textures/texture_image.cpp:13-37", "src/utility/imageio/imageio.c:33-108"]}
{"id": "C240", "title": "The layout of a configuration does not matter", "statement": "A configuration written as a sequence of keys, punctuation, numbers, metals and quoted strings is read as exactly that sequence, whatever blanks, tabs, line ends and # comments stand between them, with nothing at all beside punctuation and strings, with a comment at the end of the file, and with chemical symbols in any case.", "quantifier": "all token sequences and all texts that lay them out", "why_tests_cant": "The texts are unbounded and the scanner takes the longest match over 110 rules at every character; tests try a few files.", "anchors": ["src/parsers/config_lexer.l:24-179", "src/parsers/README.md:6-12"]}
{"id": "C241", "title": "Numbers of a configuration have their decimal value", "statement": "A float literal (sign, digits, point, exponent) is read as its exact decimal value and an integer literal within the range of int as its value, wherever a blank, a comment, punctuation or the end of the file follows.", "quantifier": "all numerals of any length", "why_tests_cant": "There are infinitely many literals and the integer, float and keyword rules compete for the same characters.", "anchors": ["src/parsers/config_lexer.l:24-26", "src/parsers/config_lexer.l:143-145"]}
{"id": "C242", "title": "Integers beyond int are diagnosed", "statement": "An integer literal outside the range of int is refused with an error.", "quantifier": "all texts with such a literal after any well-formed prefix", "why_tests_cant": "atoi has undefined behaviour there, so a run that happens to give some value proves nothing.", "anchors": ["src/parsers/config_lexer.l:143-144", "src/parsers/config_lexer.l:5-6"]}
{"id": "C243", "title": "Reading a configuration text is defined", "statement": "Scanning any text ends, and has defined behaviour unless the text contains an integer literal outside the range of int.", "quantifier": "all texts", "why_tests_cant": "Any byte sequence may be given to the program.", "anchors": ["src/parsers/config_lexer.l:64-180"]}
{"id": "C244", "title": "A quoted string ends at its quote", "statement": "A string ends at the next quote of the kind that opened it, because escaping is not supported: a path may end in a backslash.", "quantifier": "all strings and all texts after them", "why_tests_cant": "The documentation excludes escapes, the regular expression has them, and the difference shows only for strings that end in a backslash.", "anchors": ["src/parsers/config_lexer.l:27", "src/parsers/README.md:82"]}
{"id": "C245", "title": "The documented float literals are accepted", "statement": "Every form of float that README.md lists is accepted, E10 included.", "quantifier": "all exponents without digits before them, after any prefix", "why_tests_cant": "The documented form is refused for every value, not only in one example.", "anchors": ["src/parsers/config_lexer.l:26", "src/parsers/README.md:81"]}
{"id": "C246", "title": "The parser accepts exactly the documented configurations", "statement": "A token sequence is accepted exactly if it is a sequence of the documented statements, with pairs in any order and any commas between them, objects of settings not empty, names of worlds and lights first, and it gives exactly the settings and descriptions written; no file has two readings.", "quantifier": "all token sequences, any number of statements and pairs", "why_tests_cant": "Infinitely many files must be accepted and infinitely many refused; the equivalence is by induction on both.", "anchors": ["src/parsers/config_parser.y:152-365", "src/parsers/README.md:85-240"]}
{"id": "C247", "title": "A configuration text is read as what it says", "statement": "A text that lays out a documented configuration is accepted and gives the described settings, shapes, objects, textures and materials in order; and a text is accepted only if its tokens form such a configuration.", "quantifier": "all texts and configurations", "why_tests_cant": "It composes scanner and grammar over unbounded texts.", "anchors": ["src/parsers/config_lexer.l:64-180", "src/parsers/config_parser.y:152-365"]}
{"id": "C248", "title": "The example of README.md is accepted", "statement": "A configuration that selects the integrator as README.md shows it, `integrator: pt`, is accepted.", "quantifier": "all configurations that contain the line after any statements", "why_tests_cant": "`pt` is also the chemical symbol of platinum; that every file with the line is refused follows from the grammar, not from one run.", "anchors": ["src/parsers/README.md:24", "src/parsers/config_parser.y:165", "src/parsers/config_lexer.l:154"]}
{"id": "C249", "title": "The keys of an object may come in any order", "statement": "The keys of a world or light object may be given in any order, as those of all other objects.", "quantifier": "all world and light objects whose first key is not the name, after any statements", "why_tests_cant": "Every such file is refused whatever follows.", "anchors": ["src/parsers/config_parser.y:212-226", "src/parsers/README.md:8"]}
{"id": "C250", "title": "A texture tangent follows the triangle", "statement": "For every triangle whose three texture coordinates are not on one line, a hit reports dpdu and dpdv such that the displacement between any two points of the plane of the triangle is dpdu times the difference of their u plus dpdv times the difference of their v.", "quantifier": "every mask, triangle with unfolded texture coordinates, ray, limit, incoming hit and pair of points of the plane", "why_tests_cant": "Tests compare dpdu for two or three axis-aligned triangles; the linear relation over all points and all mappings is a theorem about the solved 2x2 system.", "anchors": ["src/primitives/triangle.cpp:66-122"]}
{"id": "C251", "title": "Tangents stay finite on any mapping", "statement": "A hit on a triangle always reports finite tangents, also when the file gives all three corners the same texture coordinate.", "quantifier": "every triangle whose texture coordinates are on one line and every hit on it", "why_tests_cant": "No test uses such a mapping; the division by zero is silent and yields NaN in the shading frame.", "anchors": ["src/primitives/triangle.cpp:66-75"]}
{"id": "C252", "title": "A mask sees the footprint of the ray at hand", "statement": "Whether a masked triangle is hit depends on the triangle, the ray and the mask, not on the derivatives left in the hit record by an earlier intersection.", "quantifier": "every triangle, ray and pair of incoming hit records that differ in the stored derivative", "why_tests_cant": "Tests call intersect once with a fresh record.", "anchors": ["src/primitives/triangle.cpp:96-110"]}
{"id": "C253", "title": "A mask gets both texture derivatives", "statement": "The mask of a triangle is evaluated with the derivative of the texture coordinates in x and the one in y of the hit.", "quantifier": "every triangle, ray and hit whose two derivatives differ", "why_tests_cant": "Tests use uniform masks, which ignore derivatives.", "anchors": ["src/primitives/triangle.cpp:100-106"]}
{"id": "C254", "title": "Surface of a face in the world", "statement": "The surface of a triangle under the transform built from any position, rotation and scale, also negative scales, is the area of the triangle with the transformed corners, given by the lengths of its sides.", "quantifier": "every triangle and configured transform", "why_tests_cant": "Tests check a few triangles with one scale; agreement with Heron's formula after rotation and mirroring is for all reals.", "anchors": ["src/primitives/triangle.cpp:41-53", "src/parsers/config_driver.cpp:612-626"]}
{"id": "C255", "title": "Surface and densities of a mesh", "statement": "The surface of a mesh under a configured transform is the sum of the areas of its transformed faces, and entry i of the densities is the sum of the first i+1 areas.", "quantifier": "every list of triangles and configured transform", "why_tests_cant": "Tests use one mesh; the statement is by induction over the faces.", "anchors": ["src/primitives/mesh.cpp:134-168"]}
{"id": "C256", "title": "Points sampled on a face are exactly its points", "statement": "Every pair of numbers in the unit square is sent to a point of the triangle, and every point of the triangle is the image of some pair.", "quantifier": "every triangle, pair of random numbers and point of the triangle", "why_tests_cant": "Tests draw finitely many pairs and cannot show that no point is left out.", "anchors": ["src/primitives/triangle.cpp:124-139"]}
{"id": "C257", "title": "Points sampled on a face are uniform", "statement": "The sampling of a triangle maps the unit square to the transformed triangle with an area element that is everywhere the area of the triangle, so equal parts are equally likely.", "quantifier": "every configured transform, triangle and pair of random numbers inside the square", "why_tests_cant": "Uniformity is a statement about a density, which no number of samples settles.", "anchors": ["src/primitives/triangle.cpp:124-139"]}
{"id": "C258", "title": "The normal sampled on a face", "statement": "The normal that comes with a sampled point is perpendicular to the sides of a triangle of positive area, of squared length one up to 1e-5, and on the side from which the corners run counterclockwise.", "quantifier": "every triangle of positive area and pair of random numbers", "why_tests_cant": "Tests check one triangle.", "anchors": ["src/primitives/triangle.cpp:136-138"]}
{"id": "C259", "title": "The progress bar tells the truth", "statement": "At any moment of a rendering in which some tile has been taken, the progress bar shows twenty blocks of which the full ones come first and are the share of tiles taken rounded down, the percentage rounded down, and the time so far per taken tile times the tiles left; if that time is below one second nothing is printed.", "quantifier": "every set of tiles, number of workers, schedule, contribution of tiles and elapsed time below 2^63 divided by the number of tiles", "why_tests_cant": "Tests do not run the listener; the numbers depend on the interleaving.", "anchors": ["src/renderer.cpp:247-293", "src/utility/console.cpp:155-184"]}
{"id": "C260", "title": "The progress bar is defined from the start", "statement": "Looking at the queue before the first tile is taken is harmless.", "quantifier": "every schedule in which no tile has been taken", "why_tests_cant": "The undefined conversion shows no symptom on common machines and depends on timing.", "anchors": ["src/renderer.cpp:279-286"]}
{"id": "C261", "title": "The progress bar does not move back", "statement": "Of two bars printed one after the other in one rendering the later percentage is not lower, and none is above 100.", "quantifier": "every schedule and its continuation", "why_tests_cant": "Needs all interleavings.", "anchors": ["src/renderer.cpp:272-293"]}
{"id": "C262", "title": "Rendering a small scene again", "statement": "A scene of one to three assets that is rendered a second time gives every ray the same answer as the first time.", "quantifier": "every scene of up to three assets, sort, cost, shape and ray", "why_tests_cant": "Tests build the tree of a scene once.", "anchors": ["src/accelerators/kdtree.cpp:172-255", "src/renderer.cpp:87-88"]}
{"id": "C263", "title": "Assets added between two renderings appear", "statement": "After a scene was rendered, an asset that is added and rendered again can be hit.", "quantifier": "every scene of up to three assets and every list of assets added later", "why_tests_cant": "Tests build the tree of a scene once; the node index that is not reset shows up only on a second build.", "anchors": ["src/accelerators/kdtree.cpp:172-255"]}
{"id": "C264", "title": "Rendering any scene again", "statement": "A scene that is rendered a second time without any change gives the same answers.", "quantifier": "a scene whose tree lists an asset in two leaves", "why_tests_cant": "Tests build the tree of a scene once.", "anchors": ["src/accelerators/kdtree.cpp:212-255"]}
{"id": "C265", "title": "Texture coordinates name the point of the sphere", "statement": "The texture coordinates of a hit on a sphere away from its poles lie in the unit square, and the point of the globe at that longitude and latitude is the hit itself.", "quantifier": "every point of the sphere off its axis", "why_tests_cant": "Tests check a few points; atan2 has four quadrants, two axes and a seam.", "anchors": ["src/primitives/sphere.cpp:6-22"]}
{"id": "C266", "title": "A texture covers a sphere exactly once", "statement": "Every pair of texture coordinates of the open texture belongs to exactly one point of the sphere: the hit at that point has those coordinates.", "quantifier": "every u in [0,1) and v in (0,1)", "why_tests_cant": "A seam that is counted twice or a mirrored half is easily missed by sample points.", "anchors": ["src/primitives/sphere.cpp:6-22"]}
{"id": "C267", "title": "Tangents of a sphere are derivatives", "statement": "The two tangents reported with a hit on a sphere are the derivatives of the surface by the texture coordinates.", "quantifier": "every point of the sphere off its axis", "why_tests_cant": "A limit cannot be tested.", "anchors": ["src/primitives/sphere.cpp:17-21"]}
{"id": "C268", "title": "Tangents and normal of a sphere form a frame", "statement": "Every hit on a sphere, the poles included, comes with texture coordinates in the unit square and two tangents that are perpendicular to the normal and to each other and span a surface that faces outwards.", "quantifier": "every ray, distance and mask", "why_tests_cant": "Poles are singular and need the shift in the code; tests use a few rays.", "anchors": ["src/primitives/sphere.cpp:6-22", "src/primitives/sphere.cpp:95-151"]}
{"id": "C269", "title": "Smaller boxes measure less", "statement": "A bounding box that lies in another one has no larger surface and no larger volume, and both are finite and not negative.", "quantifier": "every two finite boxes, one in the other", "why_tests_cant": "Monotonicity quantifies over pairs of boxes; the cost of splits relies on it.", "anchors": ["src/geometry/AABB.cpp:67-77"]}
{"id": "C270", "title": "Centre and longest axis of a box", "statement": "The centre of a bounding box belongs to it and mirrors the box onto itself; along no axis are two points of the box further apart than along the longest axis.", "quantifier": "every finite box and its points", "why_tests_cant": "Quantifies over the points of a box.", "anchors": ["src/geometry/AABB.cpp:79-95"]}
{"id": "C271", "title": "Comparing boxes is consistent", "statement": "Of two finite boxes exactly one of <, == and > holds, <=, >= and != agree with these, and the comparisons are transitive.", "quantifier": "every three finite boxes", "why_tests_cant": "Laws of an order cannot be settled by examples.", "anchors": ["src/geometry/AABB.cpp:214-242"]}
{"id": "C272", "title": "Equal boxes are the same box", "statement": "Two bounding boxes compare equal only if they hold the same points, and the empty box is not larger than another one.", "quantifier": "every box and every copy of it moved aside", "why_tests_cant": "Tests compare boxes that happen to differ in surface.", "anchors": ["src/geometry/AABB.cpp:6-10", "src/geometry/AABB.cpp:67-71", "src/geometry/AABB.cpp:234-237"]}
{"id": "C273", "title": "Working in place is the same as working on copies", "statement": "The operators and functions of vectors that change the vector itself (+=, -=, *=, /=, max, min, clamp, reflect) give the value of the version that returns a new vector and change nothing else, also when an argument is the vector itself.", "quantifier": "every memory and every choice of objects, equal or not", "why_tests_cant": "Tests never pass an object as its own argument.", "anchors": ["src/geometry/vec3.cpp:180-278", "src/geometry/vec3.cpp:336-448"]}
{"id": "C274", "title": "Writing a result into another object", "statement": "The cross product and refraction written into a separate object are right and leave the operands alone; products and inverses of matrices are right even when the result is written over an operand, and an inverse that does not exist changes nothing.", "quantifier": "every memory and every choice of objects", "why_tests_cant": "Aliasing is not exercised by tests.", "anchors": ["src/geometry/vec3.cpp:121-126", "src/geometry/vec3.cpp:280-322", "src/geometry/matrix4.cpp:293-435", "src/geometry/matrix4.cpp:624-723"]}
{"id": "C275", "title": "A cross product may be stored in an operand", "statement": "Writing the cross product of two vectors into one of them gives the cross product.", "quantifier": "every two vectors", "why_tests_cant": "Aliasing is not exercised by tests.", "anchors": ["src/geometry/vec3.cpp:121-126"]}
{"id": "C276", "title": "A matrix may be transposed in place", "statement": "Writing the transpose of a matrix into the matrix itself gives the transpose.", "quantifier": "every matrix", "why_tests_cant": "Aliasing is not exercised by tests.", "anchors": ["src/geometry/matrix4.cpp:273-291"]}
{"id": "C277", "title": "Transposing into another matrix", "statement": "Writing the transpose of a matrix into another one gives the transpose and leaves the first alone.", "quantifier": "every two matrices", "why_tests_cant": "Quantifies over all matrices.", "anchors": ["src/geometry/matrix4.cpp:273-291"]}
{"id": "C278", "title": "Equality of vectors is closeness", "statement": "Two finite vectors or points compare equal exactly if every component differs by at most 2^-23; equality is reflexive and symmetric and != is its negation; normals are compared exactly.", "quantifier": "every two finite vectors", "why_tests_cant": "A tolerance is sampled by tests on a few values only.", "anchors": ["src/geometry/vec3.cpp:460-472", "src/geometry/vec3.cpp:854-862", "src/geometry/point3.cpp:105-127", "src/geometry/vec2.cpp:296-306", "src/geometry/point2.cpp:85-105"]}
{"id": "C279", "title": "Equality of vectors is an equivalence", "statement": "Equal vectors can be replaced by each other: equality is transitive, tells directions apart, and a vector equals itself.", "quantifier": "every vector, also tiny ones and ones with infinities", "why_tests_cant": "Counterexamples need chains of close values or special floats.", "anchors": ["src/geometry/vec3.cpp:460-472", "src/geometry/point3.cpp:105-127"]}
{"id": "C280", "title": "The masking term of GGX is a share", "statement": "The share of GGX microfacets visible from a direction is between zero and one, and positive for every direction that is not grazing.", "quantifier": "every roughness and unit direction", "why_tests_cant": "Tests evaluate the term at a few directions.", "anchors": ["src/materials/microfacet_distributions.cpp:142-150"]}
{"id": "C281", "title": "The masking term of GGX is the one of Smith", "statement": "The share of GGX microfacets visible from a direction is 2/(1+sqrt(1+a^2 tan^2)).", "quantifier": "every roughness and unit direction", "why_tests_cant": "Test constants were computed with the same expression as the code.", "anchors": ["src/materials/microfacet_distributions.cpp:142-150"]}
{"id": "C282", "title": "Approximate masking stays within a bound", "statement": "The masking terms of Blinn and Beckmann lie between 0 and 1.0001 in every direction.", "quantifier": "every exponent, roughness and unit direction", "why_tests_cant": "A bound on a rational function on an interval cannot be sampled.", "anchors": ["src/materials/microfacet_distributions.cpp:28-46", "src/materials/microfacet_distributions.cpp:91-103"]}
{"id": "C283", "title": "Nothing is more than fully visible", "statement": "The masking terms of Blinn and Beckmann are at most one.", "quantifier": "every exponent, roughness and unit direction", "why_tests_cant": "The approximation exceeds one only just before it is cut off.", "anchors": ["src/materials/microfacet_distributions.cpp:28-46", "src/materials/microfacet_distributions.cpp:91-103"]}
{"id": "C284", "title": "The anisotropic distribution is GGX", "statement": "Off the normal the anisotropic distribution is the GGX density of normals with two roughnesses; with equal roughnesses it is the isotropic one.", "quantifier": "every two roughnesses and unit half vector other than the normal", "why_tests_cant": "Agreement of two formulas everywhere.", "anchors": ["src/materials/microfacet_distributions.cpp:171-193", "src/materials/microfacet_distributions.cpp:126-135"]}
{"id": "C285", "title": "The anisotropic distribution has no exception at the normal", "statement": "The density of anisotropic normals at the normal is the one of the formula, 1/(pi ax ay).", "quantifier": "every two roughnesses", "why_tests_cant": "A test asserts the exceptional value instead.", "anchors": ["src/materials/microfacet_distributions.cpp:171-178"]}
{"id": "C286", "title": "Anisotropic masking", "statement": "The anisotropic masking term does not change when the two directions are exchanged, lies in (0,1] and is the height-correlated term of Smith for directions neither normal nor grazing; rough reflection with it is reciprocal.", "quantifier": "every two roughnesses and directions", "why_tests_cant": "Relation between two calls for all directions.", "anchors": ["src/materials/microfacet_distributions.cpp:195-216"]}
{"id": "C287", "title": "Surfaces are fully visible from the normal", "statement": "Seen and lit along the normal no microfacet is hidden: the anisotropic masking term is the one of Smith there as well.", "quantifier": "every two roughnesses", "why_tests_cant": "The branch for the normal is never compared with its neighbourhood.", "anchors": ["src/materials/microfacet_distributions.cpp:195-216"]}
{"id": "C288", "title": "Anisotropic half vectors are drawn with the reported density", "statement": "Half vectors drawn for the anisotropic distribution are unit vectors on the side of the outgoing direction, different random numbers give different vectors, and the reported density is the inverse of the area they are spread over.", "quantifier": "every two roughnesses, outgoing direction and pair of random numbers inside (0,1) other than 1/2 for the azimuth", "why_tests_cant": "A density is a limit; tests compare single samples with stored numbers.", "anchors": ["src/materials/microfacet_distributions.cpp:171-193", "src/materials/microfacet_distributions.cpp:218-233", "src/materials/microfacet_distributions.cpp:6-9"]}
{"id": "C289", "title": "A folder is created exactly when it can be", "statement": "File::mkdir succeeds exactly if nothing is at the path and its parent is a folder that can be written to; then a folder is there and nothing else changes, otherwise nothing changes, and afterwards the object knows what is there.", "quantifier": "every file system and every object made from a string", "why_tests_cant": "A test creates one folder in one file system.", "anchors": ["src/utility/file.cpp:363-373"]}
{"id": "C290", "title": "Missing folders are created all the way", "statement": "File::mkdirs only ever creates folders on the way to the path, reports success exactly if nothing was at the path and a folder is there now, succeeds whenever the folders can be created, and leaves the object with its path, name and extension.", "quantifier": "every file system and every path of any depth", "why_tests_cant": "The loop overwrites the separators of the stored path; depth and what exists already are unbounded.", "anchors": ["src/utility/file.cpp:375-416"]}
{"id": "C291", "title": "A new file object knows what its path names", "statement": "Just after it is made from a string or appended to, an object says of its path whether it exists, is a folder or is a regular file, and is right.", "quantifier": "every file system, working directory and string", "why_tests_cant": "All file systems.", "anchors": ["src/utility/file.cpp:143-168", "src/utility/file.cpp:227-272", "src/utility/file.cpp:290-311"]}
{"id": "C292", "title": "A file object never contradicts the file system", "statement": "is_folder, is_file and ls agree with exists at any time.", "quantifier": "every object and every change of the file system", "why_tests_cant": "Needs two objects and a change between the calls.", "anchors": ["src/utility/file.cpp:252-272", "src/utility/file.cpp:418-478"]}
{"id": "C293", "title": "The parent of a file is a folder", "statement": "get_parent of an existing regular file returns an object that says it is a folder and lists it.", "quantifier": "every regular file in every file system", "why_tests_cant": "Tests check the path of the parent only.", "anchors": ["src/utility/file.cpp:313-361"]}
{"id": "C294", "title": "A folder lists exactly its entries", "statement": "ls of a folder returns every entry once and nothing else, and every returned object stands for its entry and knows its kind, for names of any length.", "quantifier": "every file system and folder whose entries have no backslash in their names", "why_tests_cant": "Number and length of the names are unbounded; the buffer grows on the way.", "anchors": ["src/utility/file.cpp:418-478"]}
{"id": "C295", "title": "Backslashes in names are kept", "statement": "ls returns an object for the path of every entry, whatever characters are in its name.", "quantifier": "every folder with an entry that has a backslash in its name", "why_tests_cant": "Tests list folders with plain names.", "anchors": ["src/utility/file.cpp:418-478", "src/utility/file.cpp:21-141"]}
{"id": "C296", "title": "The film writes to the path it was given", "statement": "An output path is accepted exactly if it is not a folder and the path of its parent exists and can be written to; .ppm is added exactly if the extension is not of a format that can be written, and what is accepted is written in the format its name says.", "quantifier": "every file system, working directory, set of image libraries and path whose last component is a name", "why_tests_cant": "All paths, file systems and sets of libraries.", "anchors": ["src/cameras/image_film.cpp:6-43", "src/cameras/image_film.cpp:178-181", "src/utility/imageio/imageio.c:8-31"]}
{"id": "C297", "title": "An accepted output can be written", "statement": "If the film accepts an output path, the parent is a folder and the file is missing or can be written to.", "quantifier": "every file system and path", "why_tests_cant": "The failure shows after the whole rendering.", "anchors": ["src/cameras/image_film.cpp:6-43"]}
{"id": "C298", "title": "No output without a format", "statement": "If the film accepts an output path then an image is written in some format.", "quantifier": "every file system and path that ends with a separator", "why_tests_cant": "The failure shows after the whole rendering, and only in a warning.", "anchors": ["src/cameras/image_film.cpp:6-43", "src/cameras/image_film.cpp:178-181"]}
{"id": "C299", "title": "Rough reflections report the density of their directions", "statement": "The pdf reported with a sampled direction of a rough reflection is the density of that direction on the sphere: times the factor by which the map from the random numbers to directions stretches areas it is one.", "quantifier": "every roughness of the isotropic and the anisotropic GGX distribution, every direction above the surface and all random numbers whose half vector faces it", "why_tests_cant": "A density is a limit; samples only estimate it.", "anchors": ["src/materials/microfacet.cpp:24-66", "src/materials/microfacet_distributions.cpp:126-190"]}
{"id": "C300", "title": "Rough refractions report the density of their directions", "statement": "The pdf reported with a sampled direction of a rough refraction is the density of that direction on the sphere.", "quantifier": "every pair of different indices of refraction, every distribution of normals and every refracted sample", "why_tests_cant": "A density is a limit; samples only estimate it.", "anchors": ["src/materials/microfacet.cpp:123-160"]}
{"id": "C301", "title": "Values of rough refractions obey the law for interfaces and reciprocity", "statement": "For directions joined by an upward microfacet normal the value is |wo.h||wi.h|/(|wo.n||wi.n|) no^2 (1-F) G D/(no wo.h + ni wi.h)^2, with one Fresnel term for both directions, and f(wo,wi)/no^2 = f(wi,wo)/ni^2.", "quantifier": "every two different indices, symmetric geometric term, every pair of directions on the two sides that a microfacet joins, off the cut at small values", "why_tests_cant": "All pairs of directions and indices.", "anchors": ["src/materials/microfacet.cpp:68-121", "src/materials/fresnel_conditions.cpp:49-82"]}
{"id": "C302", "title": "Rough refractions are never negative and stay on the other side", "statement": "The value of a rough refraction is not negative and is zero for two directions on one side or along the surface.", "quantifier": "every nonnegative distribution and geometric term, all positive indices, all pairs of directions", "why_tests_cant": "All pairs of directions.", "anchors": ["src/materials/microfacet.cpp:82-121"]}
{"id": "C303", "title": "Light is refracted only where a microfacet can refract it", "statement": "The value of a rough refraction is zero for directions that no microfacet joins.", "quantifier": "every pair of directions whose index-weighted bisector has both directions on one side of it", "why_tests_cant": "Needs directions that sampling never produces.", "anchors": ["src/materials/microfacet.cpp:82-121"]}
{"id": "C304", "title": "Height maps are differentiated over steps that are never zero", "statement": "The gradient of a height map is the difference of its values over half the sum of the screen derivatives of the coordinate, and over 1/100 of the texture where there are no derivatives, so it is never a division by zero.", "quantifier": "every height map, every pair of derivatives", "why_tests_cant": "Needs all derivatives, also zero ones.", "anchors": ["src/textures/texture_height.cpp:13-60"]}
{"id": "C305", "title": "A mask shows the object where the written channel says so", "statement": "A mask with a texture that is found hides or shows a point by the value, at least 128 or below, of the channel named in the configuration, and the other way round if inverted.", "quantifier": "every texture, channel, inversion, library of textures, folder and hit", "why_tests_cant": "All textures and hits.", "anchors": ["src/parsers/config_driver.cpp:695-705", "src/textures/mask_boolean.cpp:13-31"]}
{"id": "C306", "title": "Dual materials keep the two names written", "statement": "A dual material has its own name and the first and second material that were written last, in any order and with any other keys between them.", "quantifier": "every list of keys", "why_tests_cant": "All orders of keys.", "anchors": ["src/parsers/config_parser.y:282-296"]}
{"id": "C307", "title": "Indices by the Sellmeier equation", "statement": "The index computed from Sellmeier coefficients does not depend on the order of the terms; with resonances below the visible wavelengths it is at least one and falls with the wavelength.", "quantifier": "all coefficients", "why_tests_cant": "All coefficients.", "anchors": ["src/materials/refraction.cpp:124-152"]}
{"id": "C308", "title": "Random samples stay on their pixel in single precision", "statement": "The position of a sample of the random sampler lies between the edges of its pixel, edges included, and differs from the exact sum of pixel and random number by at most (pixel+4) 2^-24.", "quantifier": "every pixel below 2^24 and every word of the generator, IEEE single precision", "why_tests_cant": "Rounding of every word and pixel.", "anchors": ["src/samplers/sampler_random.cpp:12-30", "src/utility/wellrng.cpp:35"]}
{"id": "C309", "title": "Random samples belong to their own pixel", "statement": "The position of a sample is strictly below the next pixel whenever its random number is below one.", "quantifier": "every pixel from 2 on, IEEE single precision", "why_tests_cant": "Needs one word in 2^24 for every pixel.", "anchors": ["src/samplers/sampler_random.cpp:12-30"]}
{"id": "C310", "title": "Stratified samples stay in their stratum in single precision", "statement": "The position of a stratified sample lies on its pixel, and differs from the exact position in its stratum by at most (pixel+8) 2^-24.", "quantifier": "every pixel below 2^24, up to 4096 strata, every stratum and word of the generator, IEEE single precision", "why_tests_cant": "Rounding of every word, stratum and pixel.", "anchors": ["src/samplers/sampler_stratified.cpp:18-35"]}
{"id": "C311", "title": "The number of strata is the integer square root", "statement": "(int)sqrtf((float)spp) is the integer square root of the samples per pixel.", "quantifier": "every number of samples from 1 to 2^22, IEEE single precision", "why_tests_cant": "Every number of samples.", "anchors": ["src/samplers/sampler_stratified.cpp:13"]}
{"id": "C312", "title": "A sample reaches the pixels within its filter in single precision", "statement": "The conversions to int in add_pixel are defined, the range is inside the image, every pixel in it has its centre within the filter and 1/64 of the sample, and every pixel of the image whose centre is within the filter less a pixel and 1/64 is in it.", "quantifier": "every position up to 65536, filters up to 4096 pixels, IEEE single precision", "why_tests_cant": "Rounding of every position.", "anchors": ["src/cameras/image_film.cpp:46-65"]}
{"id": "C313", "title": "Every channel is saved as a byte, in order", "statement": "The byte of a channel is defined for every float: 0 for what is not positive, 255 from one on and for NaN, and in between 255 times the channel to within a 65536th, cut off; a larger channel never has a smaller byte.", "quantifier": "every float, with NaN, infinities and overflow", "why_tests_cant": "Four billion floats and all pairs of them.", "anchors": ["src/cameras/image_film.cpp:169-176"]}
{"id": "C314", "title": "An undefined sample does not spoil its pixel", "statement": "The saved pixel is a weighted mean of its valid samples.", "quantifier": "every pixel, every list of samples before and after a sample with a NaN channel", "why_tests_cant": "Any number of later samples.", "anchors": ["src/cameras/image_film.cpp:46-90", "src/cameras/image_film.cpp:155-176", "src/utility/color.cpp:158-175"]}
{"id": "C315", "title": "The weights of a box filter count the samples exactly", "statement": "The sum of weights in a pixel after n samples of weight one is n, up to 2^24, where it stays.", "quantifier": "every number of samples, IEEE single precision", "why_tests_cant": "Unbounded numbers of samples.", "anchors": ["src/cameras/image_film.cpp:84-90"]}
{"id": "C316", "title": "The chosen light exists in single precision", "statement": "The index computed from a random number in [0,1], one included, is that of a light, and of the light whose share of the interval contains the number, up to an eighth of a share.", "quantifier": "every float in [0,1], every number of lights up to 2^20", "why_tests_cant": "All random numbers and numbers of lights.", "anchors": ["src/integrators/ray_tracer.cpp:24"]}
{"id": "C317", "title": "Cumulative areas never decrease in single precision", "statement": "The densities of a mesh are not negative and not decreasing after rounding.", "quantifier": "every list of finite areas whose sums are finite", "why_tests_cant": "Rounding of every sum.", "anchors": ["src/primitives/mesh.cpp:160-168"]}
{"id": "C318", "title": "A face is found for every random number in single precision", "statement": "sample_point of a mesh ends without undefined behaviour for every random number in [0,1], one included, if its last face adds to the rounded sum of areas.", "quantifier": "every list of at least two areas, every random number", "why_tests_cant": "Termination of a loop for all arrays and numbers.", "anchors": ["src/primitives/mesh.cpp:170-217"]}
{"id": "C319", "title": "Sampling a mesh of proper faces ends", "statement": "sample_point ends for every mesh whose faces all have an area and every number of the generator.", "quantifier": "every mesh whose last face is smaller than a 2^25th of the rest, the 128 largest words of the generator", "why_tests_cant": "Needs one random number in 2^25.", "anchors": ["src/primitives/mesh.cpp:170-217", "src/utility/wellrng.cpp:35"]}
{"id": "C320", "title": "Normalised vectors have length one in single precision", "statement": "normalize gives a vector with a squared length within 1.1e-5 of one whose components are within 1e-5 of the exact ones.", "quantifier": "every finite vector with a length between 2^-50 and 2^50, IEEE single precision", "why_tests_cant": "Rounding of all vectors.", "anchors": ["src/geometry/vec3.cpp:135-156"]}
{"id": "C321", "title": "Normalising twice is normalising once", "statement": "A vector that was normalised is not changed by normalize, bit for bit.", "quantifier": "every finite vector with a length between 2^-50 and 2^50, IEEE single precision", "why_tests_cant": "Rounding of all vectors.", "anchors": ["src/geometry/vec3.cpp:135-156"]}
{"id": "C322", "title": "Short vectors are normalised", "statement": "normalize of a vector that is not zero is a finite vector.", "quantifier": "every vector with components of at most 2^-76", "why_tests_cant": "Underflow in intermediate results.", "anchors": ["src/geometry/vec3.cpp:135-156"]}
{"id": "C323", "title": "Long vectors are normalised", "statement": "normalize of a finite vector that is not zero has length one.", "quantifier": "every finite vector with a component of at least 2^64", "why_tests_cant": "Overflow in intermediate results.", "anchors": ["src/geometry/vec3.cpp:135-156"]}
{"id": "C324", "title": "The generator's number is rounded as IEEE says", "statement": "The model of the generator rounds its word exactly like the conversion to single precision and the product with 2^-32 do.", "quantifier": "every state of the generator", "why_tests_cant": "Every word.", "anchors": ["src/utility/wellrng.cpp:35"]}
{"id": "C325", "title": "Rounding keeps nested boxes nested", "statement": "In single precision, a ray that hits a box also hits every box around it, and the interval of distances reported for the outer box contains the interval reported for the inner one.", "quantifier": "every ray with finite components of at most 3/2, every pair of finite boxes one inside the other, and no face in which the ray runs", "why_tests_cant": "Interplay of three roundings per face and of infinite inverses over all rays and boxes.", "anchors": ["src/geometry/AABB.cpp:153-182", "src/geometry/ray.hpp:40-47"]}
{"id": "C326", "title": "A ray from inside a box hits it", "statement": "In single precision, a ray that starts in a box, on its faces included, is reported to hit the box, whatever its direction is.", "quantifier": "every finite box and origin in it, every direction, undefined and infinite ones included", "why_tests_cant": "Zero times infinity at the faces gives undefined values that have to fall on the right side of each comparison.", "anchors": ["src/geometry/AABB.cpp:153-182"]}
{"id": "C327", "title": "Rounding loses no object in the kd-tree", "statement": "In single precision, the walk through a kd-tree never leaves out an object whose box the rounded box test reports: the distance found is at most the hit of the object or a distance in the interval of its box; and what is reported is a hit of an object of the tree.", "quantifier": "every tree whose leaves list the objects that reach over its planes, every ray, every object that reports its first hit", "why_tests_cant": "Planes and intervals are rounded differently from the hits of the objects.", "anchors": ["src/accelerators/kdtree.cpp:415-514"]}
{"id": "C328", "title": "Built trees lose no object in single precision", "statement": "The tree that the construction makes of boxes in single precision lists all objects, and the walk through it with rounding leaves none out.", "quantifier": "every list of objects with finite boxes, every sort (stable if a box is flat), every cost function, every ray", "why_tests_cant": "All scenes and rays.", "anchors": ["src/accelerators/kdtree.cpp:129-255", "src/accelerators/kdtree.cpp:415-514"]}
{"id": "C329", "title": "Rounding loses no triangle in the Bvh", "statement": "In single precision, the walk through a Bvh finds a hit at most as far as the hit of every triangle whose box the rounded test reports, or as a distance in the interval of that box; and what is reported is a hit of a triangle of the tree.", "quantifier": "every tree whose nodes have boxes around the boxes of their triangles, every ray and distance found before", "why_tests_cant": "Boxes are pruned by rounded distances.", "anchors": ["src/accelerators/bvh.cpp:408-462"]}
{"id": "C330", "title": "A box crossed by a millionth of the distance is hit", "statement": "In single precision, a ray that is inside a box at an exact distance, and a millionth of the distance before and after, is reported to hit it; one axis may be flat. The interval reported contains the distance up to a millionth.", "quantifier": "every ray and box within 2^60, distances from 1/1000", "why_tests_cant": "Bounds of rounding errors over all rays and boxes.", "anchors": ["src/geometry/AABB.cpp:153-182"]}
{"id": "C331", "title": "A ray through a box is reported", "statement": "A ray that is strictly inside a box at some distance is reported to hit it in single precision.", "quantifier": "every ray and box", "why_tests_cant": "The ray has to pass an edge closely.", "anchors": ["src/geometry/AABB.cpp:153-182"]}
{"id": "C332", "title": "Meshes have no cracks", "statement": "A ray that goes through the inside of both of two triangles with a common edge is reported to hit one of them.", "quantifier": "every ray and pair of triangles", "why_tests_cant": "The ray has to pass the common edge closely.", "anchors": ["src/primitives/triangle.cpp:55-84"]}
{"id": "C333", "title": "The closest object is found up to a millionth", "statement": "In single precision, the walk through the kd-tree finds a hit that is not further than a millionth more than the hit of any object whose box is crossed by a millionth there.", "quantifier": "every tree, ray and object as for the kd-tree, hits from 1/1000 within 2^60", "why_tests_cant": "Rounding errors of walk, boxes and hits together.", "anchors": ["src/accelerators/kdtree.cpp:415-514", "src/geometry/AABB.cpp:153-182"]}
{"id": "C334", "title": "Far spheres are hit on their surface", "statement": "A ray to the centre of a sphere is reported to hit it on its surface, with the normal there.", "quantifier": "every distance from 2^14 to 2^60 radii", "why_tests_cant": "Cancellation at particular magnitudes.", "anchors": ["src/primitives/sphere.cpp:63-150", "src/utility/utility.hpp:289-312"]}
{"id": "C335", "title": "Only nearer objects hide, and clearly nearer ones always do", "statement": "In single precision, nothing at the distance of a light or beyond hides it, everything nearer by more than 0.0011 and a relative 2^-23 does, and up to a distance of 8192 nothing that is nearer by at most half a thousandth does.", "quantifier": "every pair of distances within 2^126", "why_tests_cant": "The tolerance competes with the rounding of the sum at every magnitude.", "anchors": ["src/utility/occlusion_tester.cpp:16-32"]}
{"id": "C336", "title": "Far lights do not hide themselves", "statement": "An object that is nearer than a light only by rounding does not hide it.", "quantifier": "every pair of different distances from 32768 on", "why_tests_cant": "The tolerance is absorbed only at large magnitudes.", "anchors": ["src/utility/occlusion_tester.cpp:16-32"]}
{"id": "C337", "title": "The world box contains the transformed points", "statement": "In single precision, the image of every point of a box under an affine matrix is within the box that is computed from the transformed corners, with no tolerance.", "quantifier": "every affine matrix, box and point of numbers up to 2^60", "why_tests_cant": "Rounding of three products and three sums in each coordinate of nine points.", "anchors": ["src/geometry/matrix4.cpp:765-782", "src/primitives/mesh.cpp:95-133"]}
{"id": "C338", "title": "The box of an asset contains its transformed vertices", "statement": "In single precision, every transformed vertex of a mesh is within the world box of the asset.", "quantifier": "every list of triangles and affine matrix with numbers up to 2^60", "why_tests_cant": "Needs every vertex, every order of the triangles and the rounding of the transformation.", "anchors": ["src/primitives/mesh.cpp:58-81", "src/primitives/mesh.cpp:95-133", "src/primitives/triangle.cpp:12-20", "src/geometry/AABB.cpp:48-58"]}
{"id": "C339", "title": "The box of a sphere contains its transformed points", "statement": "In single precision, the image of every point whose coordinates are between -1 and 1 is within the world box of a sphere.", "quantifier": "every affine matrix with numbers up to 2^60 and every such point", "why_tests_cant": "Needs every rotation, scale and translation.", "anchors": ["src/primitives/sphere.cpp:31-61"]}
{"id": "C340", "title": "The exact object leaves its box only by rounding", "statement": "The exact image of every point of a box, in real numbers, is within 2^-21 of the size of its terms of the computed world box.", "quantifier": "every affine matrix, box and real point of the box", "why_tests_cant": "The worst case of the error of the rounded transformation over a continuum of points.", "anchors": ["src/geometry/matrix4.cpp:765-782", "src/primitives/mesh.cpp:95-133"]}
{"id": "C341", "title": "The exact object is inside its box", "statement": "The exact image of a sphere is inside the computed world box.", "quantifier": "every translation from 2^26 to 2^60", "why_tests_cant": "The radius is absorbed only at large magnitudes.", "anchors": ["src/primitives/sphere.cpp:31-61", "src/geometry/matrix4.cpp:765-782"]}
{"id": "C342", "title": "A pixel is the mean of its samples up to rounding", "statement": "In single precision, the mean that save_image converts is within a relative 2^-21 for each sample of the exact weighted mean of the samples, negative channels counted as 0.", "quantifier": "every list of at most 65536 samples with colours up to 2^40 and weights from 0 to 2^40 that sum to at least 2^-20", "why_tests_cant": "Rounding errors accumulate over the samples.", "anchors": ["src/cameras/image_film.cpp:46-94", "src/cameras/image_film.cpp:155-164"]}
{"id": "C343", "title": "The schedule changes a pixel only by rounding", "statement": "Two renders that add the same samples to a pixel in different orders save means that differ by at most a relative 2^-20 for each sample.", "quantifier": "every permutation of every such list of samples", "why_tests_cant": "The number of orders of the samples of worker threads.", "anchors": ["src/cameras/image_film.cpp:46-140"]}
{"id": "C344", "title": "The schedule does not change a pixel", "statement": "Two renders that add the same samples to a pixel in different orders save the same mean.", "quantifier": "every permutation of the samples", "why_tests_cant": "Only particular magnitudes show the difference.", "anchors": ["src/cameras/image_film.cpp:46-140"]}
{"id": "C345", "title": "Masking by two directions", "statement": "The masking terms of Blinn and Beckmann for two directions do not change when the directions are exchanged, lie between 0 and 1.0003, are 0 if either direction is grazing and are the term of one direction if the other is the normal; rough reflection with them is reciprocal.", "quantifier": "every exponent, roughness and pair of unit directions", "why_tests_cant": "A continuum of directions.", "anchors": ["src/materials/microfacet_distributions.cpp:20-103", "src/materials/microfacet.cpp:12-36"]}
{"id": "C346", "title": "Quadratic equations have solutions when they should", "statement": "In single precision equation2 finds solutions of every equation whose discriminant exceeds 2^-22 of the sum of its terms, and finds none if the discriminant is below -0.00011 by that much.", "quantifier": "all coefficients with a from 2^-30 to 2^30, b and c up to 2^40 and c zero or at least 2^-40", "why_tests_cant": "Rounding of every product, sum and root.", "anchors": ["src/utility/utility.hpp:289-312"]}
{"id": "C347", "title": "Solutions of quadratic equations solve them", "statement": "In single precision every solution of equation2 is a number that solves the equation up to a relative rounding error of its terms; only the double solution of a tangent may be off by 26 millionths more.", "quantifier": "all coefficients with a from 2^-30 to 2^30, b and c up to 2^40 and c zero or at least 2^-40", "why_tests_cant": "Cancellation in the discriminant shows for particular coefficients only.", "anchors": ["src/utility/utility.hpp:289-312"]}
{"id": "C348", "title": "What is hit of a sphere lies on it", "statement": "In single precision a hit of a sphere is a number, at least 0.01 and at most the given distance; the point is the one of the ray at that distance up to rounding, and the square of its distance from the centre is 1 up to 2^-16 of 1+|o|^2 and 27 millionths over |d|^2.", "quantifier": "every ray in the space of the sphere with |o|^2 at most 2^30 and |d|^2 from 2^-20 to 2^20, every distance", "why_tests_cant": "All pairs of origins and directions.", "anchors": ["src/primitives/sphere.cpp:63-101", "src/utility/utility.hpp:289-312", "src/geometry/ray.cpp:24-29"]}
{"id": "C349", "title": "Rays that pass by a sphere miss it", "statement": "In single precision a ray whose line stays outside of the sphere by more than rounding and the tolerance for tangents does not hit it.", "quantifier": "every ray with |o|^2 at most 2^30 and |d|^2 from 2^-20 to 2^20", "why_tests_cant": "All pairs of origins and directions.", "anchors": ["src/primitives/sphere.cpp:63-101"]}
{"id": "C350", "title": "Rays through a sphere hit it", "statement": "In single precision a ray that is inside of the sphere by more than 2^-16 of 1+|o|^2 somewhere from 0.02 on and has left it before the given distance hits it, from outside or from within.", "quantifier": "every ray with |o|^2 at most 2^30 and |d|^2 from 2^-20 to 2^20", "why_tests_cant": "All pairs of origins and directions.", "anchors": ["src/primitives/sphere.cpp:63-101"]}
{"id": "C351", "title": "A sphere is hit on the side that is met first", "statement": "In single precision a ray that starts outside of the sphere and is inside of it, by more than 2^-16 of 1+|o|^2, at some distance hits it no later than there: the exit is never reported for the entry.", "quantifier": "every ray with |o|^2 at most 2^30 and |d|^2 from 2^-20 to 2^20 that is still outside at 0.01", "why_tests_cant": "The order of the two rounded solutions.", "anchors": ["src/primitives/sphere.cpp:63-101"]}
{"id": "C352", "title": "Distances mean the same in the space of a shape", "statement": "In single precision, the ray that is transformed to the space of a shape is, at every parameter, at the image of the point that the original ray is at, up to a relative 2^-21 of the terms of the transformation; its components are numbers.", "quantifier": "every affine matrix and ray with components up to 2^60, every real parameter", "why_tests_cant": "All matrices, rays and parameters.", "anchors": ["src/geometry/matrix4.cpp:765-796"]}
{"id": "C353", "title": "Moving a shape does not turn rays", "statement": "In single precision a translation leaves the direction of a ray as it is, to the bit, and moves its origin by one rounded sum for each coordinate; the identity changes nothing.", "quantifier": "every translation and ray with components up to 2^60", "why_tests_cant": "Exactness for all values.", "anchors": ["src/geometry/matrix4.cpp:765-796"]}
{"id": "C354", "title": "Hits of triangles lie on the triangle", "statement": "In single precision, for a triangle that is neither a sliver nor seen from the side, a reported hit has finite distance and barycentric coordinates, the coordinates are not negative and sum to at most 1 + 2^-23, the distance is between the self intersection offset and the asked one, and the point of the ray at that distance is the point of the triangle with those coordinates up to 32 units of rounding of the size of the scene, divided by how obliquely the triangle is seen.", "quantifier": "every triangle, ray and distance with edges, direction and offset up to 2^18, volume at least 2^-60 and at least 2^-18 of its bound", "why_tests_cant": "All triangles and rays; rounding of every operation.", "anchors": ["src/primitives/triangle.cpp:55-84"]}
{"id": "C355", "title": "Rays through a triangle hit it", "statement": "In single precision a ray that exactly meets the inside of a triangle, by more than the stated rounding slack from the edges and from the limits of the distance, is reported as a hit, and the reported distance and coordinates are within the slack of the exact ones.", "quantifier": "every such triangle and ray, every limit of the distance, also infinity", "why_tests_cant": "All triangles, rays and limits.", "anchors": ["src/primitives/triangle.cpp:55-84"]}
{"id": "C356", "title": "Rays past a triangle miss it", "statement": "In single precision a ray whose line meets the plane of a triangle outside of it, or too near, or too far, by more than the stated rounding slack, is not reported as a hit.", "quantifier": "every such triangle and ray, every limit of the distance", "why_tests_cant": "All triangles, rays and limits.", "anchors": ["src/primitives/triangle.cpp:55-84"]}
{"id": "C357", "title": "The distance to a triangle is a number", "statement": "When a triangle with finite vertices is hit by a finite ray within a finite distance, the reported distance is a number.", "quantifier": "every finite triangle and ray", "why_tests_cant": "All finite inputs, also tiny triangles whose reciprocal volume overflows.", "anchors": ["src/primitives/triangle.cpp:66-84"]}
{"id": "C358", "title": "Rays that leave a sphere outwards miss it", "statement": "In single precision a ray that starts on the unit sphere, or at most 9/100000 of the squared length of its direction below it, and goes outwards by more than the rounding, is not reported to hit the sphere, whatever the limit of the distance.", "quantifier": "every such ray with a squared direction between 2^-20 and 2^20 and an origin up to 2^15", "why_tests_cant": "All origins and directions.", "anchors": ["src/primitives/sphere.cpp:63-101", "src/utility/utility.hpp:289-312"]}
{"id": "C359", "title": "Spheres do not shadow themselves", "statement": "A ray that starts at the point where a sphere was hit and goes outwards does not hit that sphere again.", "quantifier": "every ray that hits a sphere, every outward direction", "why_tests_cant": "All spheres; the offset against self intersection is a constant of the scene while rounding grows with the radius.", "anchors": ["src/settings.h:21", "src/primitives/sphere.cpp:63-101"]}
{"id": "C360", "title": "Rays that leave a triangle miss it", "statement": "In single precision a ray that starts at the point where a triangle was hit, in any direction, does not hit that triangle again, provided that coordinates, edges and distance are at most L, the triangle is not seen more obliquely than K by either ray, and K K L is at most 800.", "quantifier": "every triangle and pair of rays of that kind", "why_tests_cant": "All triangles, first rays and second directions.", "anchors": ["src/primitives/triangle.cpp:55-84", "src/geometry/ray.cpp:24-29"]}
{"id": "C361", "title": "Triangles do not shadow themselves", "statement": "A ray that goes on from the point where a triangle was hit does not hit that triangle again.", "quantifier": "every triangle and ray", "why_tests_cant": "All triangles; floats are too sparse far from the origin.", "anchors": ["src/settings.h:21", "src/primitives/triangle.cpp:55-84"]}
{"id": "C362", "title": "Dielectrics reflect a fraction in single precision", "statement": "For indices of refraction between 2^-20 and 2^20 and any cosine up to 2 in absolute value, on either side, the reflected share computed by Dielectric::eval is a finite number between 0 and 1, with no tolerance.", "quantifier": "every pair of indices and every cosine", "why_tests_cant": "All floats in the range; a test would have to hit the worst rounding.", "anchors": ["src/materials/fresnel_conditions.cpp:49-82"]}
{"id": "C363", "title": "Dielectrics reflect the right fraction in single precision", "statement": "With q the square of the ratio of the indices and s2 the square of the exact sine of refraction: if s2 is above 1 by 2^-19 (1 + q) everything is reflected; if it is below 1 by as much, the result of Dielectric::eval differs from the exact Fresnel value by at most 2^-17 (1 + q) / (1 - s2).", "quantifier": "every pair of indices and every cosine between -1 and 1", "why_tests_cant": "A bound on rounding for all inputs, including the neighbourhood of the critical angle.", "anchors": ["src/materials/fresnel_conditions.cpp:49-82"]}
{"id": "C364", "title": "Matched media reflect nothing in single precision", "statement": "When the two media have the same index of refraction, no light is reflected.", "quantifier": "every index and every cosine other than 0", "why_tests_cant": "Holds in exact arithmetic and in every test that is not at grazing angles.", "anchors": ["src/materials/fresnel_conditions.cpp:66-68"]}
{"id": "C365", "title": "Metals reflect the right fraction in single precision", "statement": "For an index between 2^-20 and 2^20, an absorption up to 2^20 and a cosine between 0 and 1, Conductor::eval gives a finite number of at most 1 that differs from the exact value by at most 2^-19, and it is not negative when the absorption is at least a 500th of the index.", "quantifier": "every index, absorption and cosine", "why_tests_cant": "A bound on rounding for all inputs.", "anchors": ["src/materials/fresnel_conditions.cpp:12-30"]}
{"id": "C366", "title": "Metals never reflect a negative fraction in single precision", "statement": "Conductor::eval is not negative for any index, absorption and cosine between 0 and 1.", "quantifier": "every index, absorption and cosine", "why_tests_cant": "Cancellation in rare combinations only.", "anchors": ["src/materials/fresnel_conditions.cpp:24-27"]}
{"id": "C367", "title": "Unfiltered look ups read the right texel in single precision", "statement": "For a texture of 2^k x 2^k texels, k at most 15, and every coordinate between 0 and 1, the unfiltered look up converts without undefined behaviour and reads exactly the texel at the integer part of u * side - 1/2, which exists.", "quantifier": "every side and every float between 0 and 1", "why_tests_cant": "All floats; a rounding at a border of a texel would show for single values only.", "anchors": ["src/textures/image_map.cpp:106-112"]}
{"id": "C368", "title": "Bilinear look ups are right in single precision", "statement": "For a texture of 2^k x 2^k texels, k at most 15, and all coordinates between 0 and 1, the bilinear look up reads only texels that exist and returns the exact bilinear mix cut to an integer, with an error of at most 2^-11 before the cut.", "quantifier": "every side, every texture, all coordinates", "why_tests_cant": "Rounding of eight products and sums for all inputs; a wrong weight or neighbour would be hidden by smooth test images.", "anchors": ["src/textures/image_map.cpp:207-235"]}
{"id": "C369", "title": "Textures of one colour keep it from half a texel on", "statement": "In single precision a texture whose texels all have the value c gives exactly c in the bilinear look up, for every coordinate from half a texel on.", "quantifier": "every side, byte and coordinate", "why_tests_cant": "The cut to an integer turns the smallest rounding error into a wrong value.", "anchors": ["src/textures/image_map.cpp:207-235"]}
{"id": "C370", "title": "Textures of one colour keep it", "statement": "In single precision a texture whose texels all have the value c gives exactly c in the bilinear look up.", "quantifier": "every side, byte and coordinate between 0 and 1", "why_tests_cant": "Fails only within the first half texel, where the weights have one more bit.", "anchors": ["src/textures/image_map.cpp:213-216", "src/textures/image_map.cpp:225-232"]}
{"id": "C371", "title": "Repeated coordinates are exact in single precision", "statement": "Every coordinate above 1 and below 2^31 is replaced by its fractional part without rounding and without undefined behaviour; coordinates between 0 and 1 are kept.", "quantifier": "every float from 0 to 2^31", "why_tests_cant": "All floats, in particular the ones that are too large to have a fraction.", "anchors": ["src/textures/texture_image.cpp:64-68"]}
{"id": "C372", "title": "Refraction is defined in single precision", "statement": "For indices between 2^-20 and 2^20 and every finite direction of about unit length, from either side and also exactly along the surface, refraction by smooth glass returns a finite value that is not negative, and either reports total reflection with density 0 or a finite direction with density 1 on the other side of the surface and away from it by at least 2^-12.", "quantifier": "all indices and directions", "why_tests_cant": "Overflow, roots of negative numbers and divisions by zero happen for single directions that tests do not try.", "anchors": ["src/materials/refraction.cpp:30-89"]}
{"id": "C373", "title": "Refraction obeys Snell's law in single precision", "statement": "With q the ratio of the indices and s2 the squared exact sine on the other side, total reflection is reported where s2 exceeds 1 by 2^-20 q^2 and not where it is below by as much; the returned direction is -q times the given one along the surface up to 2^-22 q, its squared cosine is 1 - s2 up to 2^-20 (1 + q^2), and its squared length is 1 up to that plus q^2 times what the given direction misses.", "quantifier": "all indices between 2^-20 and 2^20 and all directions with a squared length within 2^-10 of 1", "why_tests_cant": "A bound over all floats, including those next to the critical angle.", "anchors": ["src/materials/refraction.cpp:30-89"]}
{"id": "C374", "title": "Smooth mirrors never amplify light in single precision", "statement": "For cosines of at least 2^-60 the values of mirrors of glass and of metal are finite, and value times cosine is at most 1 + 2^-22 (or the cosine, where it exceeds 1); it is never negative for glass and at least -2^-20 for metals.", "quantifier": "all indices, absorptions and cosines", "why_tests_cant": "Energy conservation must hold for every float; a test sees only some angles.", "anchors": ["src/materials/reflection.cpp:46-106"]}
{"id": "C375", "title": "Smooth mirrors have a value along the surface", "statement": "The value of a mirror of glass or of metal is finite for every direction, also for light that passes exactly along the surface of the shading frame.", "quantifier": "all indices and directions", "why_tests_cant": "The cosine is exactly zero only for special directions.", "anchors": ["src/materials/reflection.cpp:46-106", "src/integrators/path_tracer.cpp:62"]}
{"id": "C376", "title": "Every layer of a material can be chosen in single precision", "statement": "For every random number in [0, 1], 1 included, and any number of layers, the chosen layer exists and is the one of that share of the interval, up to rounding at the ends.", "quantifier": "all random numbers and counts up to 2^20", "why_tests_cant": "The generator can return 1; rounding of the product may reach the count.", "anchors": ["src/materials/multi_bsdf.cpp:83-85"]}
{"id": "C377", "title": "The tent filter keeps its shape in single precision", "statement": "For all offsets up to 2^60 the weight is a number between 0 and 1, positive exactly within two pixels on both axes and 1 at the centre; it depends on the distances only, never grows with them, and differs from the exact weight by at most 2^-21.", "quantifier": "all pairs of floats up to 2^60", "why_tests_cant": "Monotonicity and sign over all floats cannot be tried one by one.", "anchors": ["src/samplers/filter_tent.cpp:14-18"]}
{"id": "C378", "title": "The Mitchell filter is accurate in single precision", "statement": "For all parameters B and C between 0 and 1 and all offsets within two pixels the weight is a number that differs from the product of the exact piecewise cubics by at most 2^-13, on both sides of the seam at one pixel.", "quantifier": "all parameters in [0, 1] and all offsets in [-2, 2]", "why_tests_cant": "The terms of the polynomial are a hundred times its value; how much cancels depends on all four inputs.", "anchors": ["src/samplers/filter_mitchell.cpp:21-55"]}
{"id": "C379", "title": "The weights of light and material samples are fair in single precision", "statement": "For a density between 2^-50 and 2^62 and any other density up to 2^62 both weights are fractions, they add up to 1 up to 2^-22, each differs from the exact one by at most 2^-21, and the strategy with the larger density has the larger weight.", "quantifier": "all pairs of densities", "why_tests_cant": "A bound over all pairs of floats; a test sees only some.", "anchors": ["src/integrators/ray_tracer.cpp:43-44", "src/integrators/ray_tracer.cpp:62"]}
{"id": "C380", "title": "Every light sample with a positive density has a weight", "statement": "The weight of a sample of the light is a number for every density that is finite and positive, also near the plane of the light.", "quantifier": "all densities that pass the test for infinity", "why_tests_cant": "Needs densities above 2^64, which single points produce.", "anchors": ["src/integrators/ray_tracer.cpp:43-46", "src/lights/area_light.cpp:93-102"]}
{"id": "C381", "title": "A combined sample never adds more than it would alone", "statement": "For values of the material and the light up to 2^20 and densities between 2^-50 and 2^62 what a sample of either strategy adds to a channel is a number, not negative, and at most value times light times cosine over its density, up to 2^-21; where the density of the light is infinite a sample of the material adds exactly 0.", "quantifier": "all values, lights, cosines and densities", "why_tests_cant": "Rounding of four operations in sequence over all floats.", "anchors": ["src/integrators/ray_tracer.cpp:40-46", "src/integrators/ray_tracer.cpp:56-72"]}
{"id": "C382", "title": "GGX masking is monotone in single precision", "statement": "For every finite roughness and all directions at least 2^-60 away from the surface the visible share is a number in (0, 1]; directions nearer to the normal see at least as much, rougher surfaces hide at least as much, and the product for two directions is a fraction that does not depend on their order; directions in the surface see nothing.", "quantifier": "all roughness values and directions", "why_tests_cant": "Monotonicity over all pairs of floats through seven rounded operations.", "anchors": ["src/materials/microfacet_distributions.cpp:120-124", "src/materials/microfacet_distributions.cpp:137-150"]}
{"id": "C383", "title": "The GGX density is defined in single precision", "statement": "For every roughness of at least 2^-10 and every direction that is in the surface or at least 2^-74 away from it the density of microfacets is a number that is not negative, also where its terms overflow.", "quantifier": "all roughness values and directions", "why_tests_cant": "Overflow and underflow at directions no test uses.", "anchors": ["src/materials/microfacet_distributions.cpp:120-135"]}
{"id": "C384", "title": "The GGX density is defined for all directions", "statement": "The density of microfacets is a number for every roughness that the constructor accepts and every direction.", "quantifier": "all roughness values and directions", "why_tests_cant": "The directions in question are a tiny part of the floats.", "anchors": ["src/materials/microfacet_distributions.cpp:120-135"]}
{"id": "C385", "title": "Refraction transmits what Fresnel's equations let pass, in single precision", "statement": "For any two indices between 2^-20 and 2^20 and from either side, whenever refraction returns a direction the value times its cosine is the share that Fresnel's equations let pass between the two cosines times the squared ratio of the indices, up to 2^-19 of that ratio.", "quantifier": "all indices and all directions with a cosine of at most 1", "why_tests_cant": "A relative bound over all floats; a test sees only some angles and indices.", "anchors": ["src/materials/refraction.cpp:30-89"]}
{"id": "C386", "title": "Oren-Nayar surfaces are reciprocal bit by bit", "statement": "In single precision, for every roughness and every pair of directions, whatever their coordinates are (also infinite or NaN), the value of a rough diffuse surface is the same float when the two directions are exchanged.", "quantifier": "all floats", "why_tests_cant": "Exchanging the directions changes which branch is taken and the order of every product; whether no bit changes is a statement about all floats.", "anchors": ["src/materials/oren_nayar.cpp:24-61"]}
{"id": "C387", "title": "Oren-Nayar surfaces have a finite positive value, and are Lambertian at roughness 0", "statement": "In single precision, for every roughness up to 2^60 and all finite directions at least one of which is 2^-60 away from the surface, the value is a number between 0.159 and 0.32 (1 + 1/m), m being the larger cosine; for roughness 0 it is exactly the value of a Lambertian surface.", "quantifier": "all roughnesses and directions", "why_tests_cant": "Quotients by sines and cosines that may vanish, over all floats.", "anchors": ["src/materials/oren_nayar.cpp:16-61", "src/materials/lambertian.cpp:8-24"]}
{"id": "C388", "title": "Oren-Nayar surfaces have a finite value in every direction", "statement": "In single precision the value of a rough diffuse surface is a number also for directions that lie in the surface.", "quantifier": "all roughnesses and directions", "why_tests_cant": "The case is a set of measure zero that random tests do not hit.", "anchors": ["src/materials/oren_nayar.cpp:46-60"]}
{"id": "C389", "title": "The density of the directions towards a light is the squared distance over the seen area, in single precision", "statement": "For all points with coordinates up to 2^29 that are at least 2^-20 apart, areas between 2^-30 and 2^30 and cosines c of at least 2^-10, the density that the light reports for a direction is the squared distance over cosine times area, up to a part of 2^-18 / c; it is the same float whether the direction was sampled from the light or found otherwise, and a sample emits exactly if the point is on the side of the normal.", "quantifier": "all points, normals, directions and areas in range", "why_tests_cant": "A relative bound through subtractions that cancel and a quotient, over all floats.", "anchors": ["src/lights/area_light.cpp:57-113", "src/lights/area_light.cpp:115-134"]}
{"id": "C390", "title": "A light seen along its surface gives no sample", "statement": "In single precision the density of a sampled direction is never infinite, whatever the floats are, and emission comes only from the side of the normal; if no coordinate contributes to the cosine between direction and normal the density is infinite and the sample is dropped, with density 0 and without emission.", "quantifier": "all floats; all points that are 2^-20 apart and all areas up to 2^30", "why_tests_cant": "Grazing directions have measure zero and random tests do not meet them.", "anchors": ["src/lights/area_light.cpp:93-111"]}
{"id": "C391", "title": "Directions survive the trip from the shading frame to the world and back, in single precision", "statement": "For every tangent and normal of length 1 (squared length up to 2e-5) that are orthogonal up to 1e-4, and every direction of length 1 in the shading frame, the direction in the world has length 1 and the same cosines to normal and tangent up to 5e-4, and transforming it back into the shading frame gives a direction of length 1 with each coordinate within 0.0015 of the first.", "quantifier": "all float tangents, normals and directions meeting these bounds", "why_tests_cant": "An error bound through two normalisations and a cross product, over all frames and directions.", "anchors": ["src/materials/shading_space.cpp:6-22"]}
{"id": "C392", "title": "Equality of vectors and points in single precision is exact from 2 on", "statement": "For all finite vectors or points a and b: if all components are at most 2^-23 apart then a == b; if a == b then no components are further apart than 2^-23 + 2^-46; if all components are 2 or more in size then a == b exactly if the components are equal; == is symmetric and != is its opposite. Normals compare equal exactly if the components are equal.", "quantifier": "all finite vectors, points and normals", "why_tests_cant": "A statement about all pairs of floats, with the rounding of the difference.", "anchors": ["src/geometry/vec3.cpp:460-472", "src/geometry/vec3.cpp:854-862", "src/geometry/point3.cpp:105-127", "src/geometry/vec2.cpp:296-306", "src/geometry/point2.cpp:85-105"]}
{"id": "C393", "title": "A vector with an infinite component or NaN is equal to nothing but never different from itself", "statement": "A vector or point with a component that is not finite is == to no vector, not even to itself; a != a is false for every vector, so == and != are not opposites there. A matrix is different from itself exactly if some entry is not finite.", "quantifier": "all floats, finite or not", "why_tests_cant": "All combinations of NaN and infinities in all positions.", "anchors": ["src/geometry/vec3.cpp:460-472", "src/geometry/matrix4.cpp:725-763"]}
{"id": "C394", "title": "Matrices are equal if all entries are, up to 1e-5 in single precision", "statement": "For all finite matrices: if all entries are at most the float 1e-5 apart the matrices are ==, if they are == no entries are further apart than the next float, and == is symmetric.", "quantifier": "all finite matrices", "why_tests_cant": "All floats in sixteen positions.", "anchors": ["src/geometry/matrix4.cpp:725-763", "src/utility/utility.hpp:222-225"]}
{"id": "C395", "title": "A normalised vector counts as normalised, in single precision", "statement": "For every vector of squared length between 2^-100 and 2^100 is_normalized is true after normalize; a vector for which is_normalized is true is left alone by normalize and has squared length 1 up to 1.1e-5, and every vector with squared length 1 up to 9e-6 counts.", "quantifier": "all finite vectors of that length", "why_tests_cant": "Rounding of the length test over all float vectors.", "anchors": ["src/geometry/vec3.cpp:135-163", "src/geometry/vec3.cpp:604-631"]}
{"id": "C396", "title": "A point sampled on a triangle is where the exact one is, in single precision", "statement": "For every triangle with coordinates up to M (1 <= M <= 65536) and all random numbers r0 <= 1 and r1 in [0,1] the sampled point is finite and each coordinate is within 24 M 2^-24 of (1-s) a + r1 s b + (1-r1) s c, with s the root of r0, which is the uniform point of the triangle.", "quantifier": "all float triangles in range, all pairs of random numbers", "why_tests_cant": "Error bound over all triangles and all random numbers, small and large.", "anchors": ["src/primitives/triangle.cpp:124-139"]}
{"id": "C397", "title": "The weights of a sampled point are a partition of 1 up to rounding", "statement": "For all random numbers r0 <= 1 and r1 in [0,1] the weights of the first two vertices are in [0,1], the third is at least -10 * 2^-24, and together they are 1 up to 16 * 2^-24.", "quantifier": "all pairs of random numbers", "why_tests_cant": "Cancellation in 1-u-v shows for few random numbers only.", "anchors": ["src/primitives/triangle.cpp:127-131"]}
{"id": "C398", "title": "The weights of a sampled point are never negative", "statement": "For all random numbers in [0,1] the three weights of a point sampled on a triangle are at least 0, so the point is a convex combination of the vertices.", "quantifier": "all pairs of random numbers", "why_tests_cant": "Only random numbers below 2^-52 show it.", "anchors": ["src/primitives/triangle.cpp:127-131"]}
{"id": "C399", "title": "Directions sampled on a diffuse surface, in single precision", "statement": "For all random numbers r1 in [0,1] and any float cosine and sine in [-1,1] whose squares add up to at most 1 + 1e-6, the sampled direction is finite, has squared length 1 up to 3e-6, is left alone by normalize, has its first two coordinates within 2.5e-7 of root(r1) times cosine and sine, and lies on the side of the other direction.", "quantifier": "all random numbers, all results of the library for cosine and sine within that bound", "why_tests_cant": "Random numbers near 1 make the radicand cancel; the statement covers all of them.", "anchors": ["src/materials/bdf.cpp:17-30"]}
{"id": "C400", "title": "A path that leaves a diffuse surface is weakened by the colour of the surface only, in single precision", "statement": "For every tangent and normal of squared length 1 up to 2e-5 that are orthogonal up to 1e-4, all random numbers and every entry k in [0,1] of the texture: if the sampled cosine z is at least 1/64, the factor value * cosine / density of the path is a number within 6e-4 / z of k.", "quantifier": "all frames, random numbers and textures in range", "why_tests_cant": "A bound through sampling, two changes of frame and a quotient, for all of them at once.", "anchors": ["src/materials/bdf.cpp:17-30", "src/materials/single_brdf.cpp:52-75", "src/materials/lambertian.cpp:21-25", "src/materials/shading_space.cpp:6-22", "src/integrators/path_tracer.cpp:56-62"]}
{"id": "C401", "title": "The density of a diffuse direction vanishes across the surface and agrees with the sampled one", "statement": "For all directions with coordinates up to 2: the density is 0 if they are on different sides or one lies in the surface; if they are on the same side with cosines of at least 2^-60 it is above 0 and the same float as the density that comes with a sample.", "quantifier": "all pairs of directions", "why_tests_cant": "Every pair of floats, including products that vanish.", "anchors": ["src/materials/bdf.cpp:28", "src/materials/bdf.cpp:32-36"]}
{"id": "C402", "title": "The density of a diffuse direction is the one it was sampled with", "statement": "For all directions on the same side of the surface the density of the direction is the density that sampling reports for it.", "quantifier": "all pairs of directions on one side", "why_tests_cant": "Only cosines below 2^-75 show it.", "anchors": ["src/materials/bdf.cpp:28", "src/materials/bdf.cpp:32-36"]}
{"id": "C403", "title": "Beckmann masking is defined in single precision", "statement": "For every finite roughness except -0 and every finite third coordinate of a direction the masking term of Beckmann is a number from 0 to 1.0002: 0 in the surface, above 0 for cosines of at least 2^-100, 1 along the normal. The term for two directions is a number from 0 to 1.001, 0 if one of them lies in the surface, and the same float when they are exchanged.", "quantifier": "all roughnesses, all directions", "why_tests_cant": "The quotient may overflow or divide by zero for roughnesses that vanish; the statement covers every float.", "anchors": ["src/materials/microfacet_distributions.cpp:68-71", "src/materials/microfacet_distributions.cpp:84-101", "src/utility/utility.hpp:172-180"]}
{"id": "C404", "title": "Beckmann masking is defined for every roughness the constructor accepts", "statement": "For every finite roughness the masking term of Beckmann is a number for every direction.", "quantifier": "all roughnesses, all directions", "why_tests_cant": "Only the roughness -0 shows it.", "anchors": ["src/materials/microfacet_distributions.cpp:68-71", "src/materials/microfacet_distributions.cpp:89-101"]}
{"id": "C405", "title": "Blinn masking is defined in single precision", "statement": "For every finite exponent and every finite third coordinate of a direction the masking term of Blinn is a number from 0 to 1.0002: 0 in the surface, above 0 for cosines of at least 2^-99, 1 along the normal. The term for two directions is a number from 0 to 1.001, 0 if one of them lies in the surface, and the same float when they are exchanged.", "quantifier": "all exponents, all directions", "why_tests_cant": "The tangent may overflow next to the surface; the statement covers every float.", "anchors": ["src/materials/microfacet_distributions.cpp:11-14", "src/materials/microfacet_distributions.cpp:23-47"]}
{"id": "C406", "title": "Exchanging the directions changes a rough reflection through the Fresnel factor only", "statement": "For all finite directions with cosines up to 2, every distribution of normals that reads the third coordinate and every masking term that is a product over the directions: with a Fresnel factor that is a constant the value of a rough reflection is the same float when the directions are exchanged. It is 0 if one direction lies in the surface or the product of the cosines is below -2^-149.", "quantifier": "all directions, distributions and masking terms", "why_tests_cant": "Equality bit by bit for all pairs of floats.", "anchors": ["src/materials/microfacet.cpp:21-36"]}
{"id": "C407", "title": "Rough reflections with GGX are defined in single precision", "statement": "For every roughness of at least 2^-10, all directions of squared length 1 up to 2e-5 on one side of the surface with cosines of at least 2^-10, and every Fresnel factor that is a fraction for cosines up to 2: the value is a number from 0 to 2^62.", "quantifier": "all roughnesses, directions and Fresnel factors in range", "why_tests_cant": "A bound through normalisation, distribution, masking and a quotient for all of them at once.", "anchors": ["src/materials/microfacet.cpp:21-36", "src/materials/microfacet_distributions.cpp:120-150"]}
{"id": "C408", "title": "Rough reflections with GGX are defined for all directions", "statement": "The value of a rough reflection with GGX is a number for all directions that are not in the surface, and 0 for directions on different sides.", "quantifier": "all pairs of directions", "why_tests_cant": "Only cosines up to 2^-77 show it.", "anchors": ["src/materials/microfacet.cpp:21-36", "src/materials/microfacet_distributions.cpp:142-150"]}
{"id": "C409", "title": "Boxes grown from points in single precision", "statement": "A box that engulfed one or more points with finite coordinates contains all of them, and each of its bounds is a coordinate of one of them. The order of the points does not matter, nor whether they are first collected in two boxes of which one engulfs the other: the same points are inside.", "quantifier": "every non-empty list of finite points", "why_tests_cant": "quantifies over lists of floats and their permutations", "anchors": ["src/geometry/AABB.cpp: AABB::engulf, AABB::inside", "src/geometry/point3.hpp: min, max"]}
{"id": "C410", "title": "A point that is no number does not disturb a box", "statement": "A box that engulfed points still contains those with finite coordinates when another of the points has a coordinate that is not a number.", "quantifier": "every list of points", "why_tests_cant": "depends on where in the list the bad point is", "anchors": ["src/geometry/AABB.cpp: AABB::engulf", "src/utility/utility.hpp: min, max"]}
{"id": "C411", "title": "Smaller boxes have smaller surfaces in single precision", "statement": "For boxes with coordinates up to 2^60 the computed surface is finite and not negative, and a box that lies in another one never has a larger computed surface; so the comparison of boxes and the cost of the k-d tree and of the BVH follow inclusion.", "quantifier": "every pair of boxes, one in the other", "why_tests_cant": "monotonicity of a rounded formula over all floats", "anchors": ["src/geometry/AABB.cpp: AABB::surface"]}
{"id": "C412", "title": "The longest axis in single precision", "statement": "The axis that longest_axis returns has the greatest extent as computed; an axis that is really longer has the same extent after rounding.", "quantifier": "every box with coordinates up to 2^60", "why_tests_cant": "needs extents that differ by less than rounding", "anchors": ["src/geometry/AABB.cpp: AABB::longest_axis"]}
{"id": "C413", "title": "The center of a box lies in it in single precision", "statement": "For boxes with coordinates up to 2^126 the computed center is finite and inside the box, on its boundary included.", "quantifier": "every box with coordinates up to 2^126", "why_tests_cant": "quantifies over all floats, with denormals", "anchors": ["src/geometry/AABB.cpp: AABB::center, AABB::inside"]}
{"id": "C414", "title": "The center of every finite box lies in it", "statement": "The computed center of a box with finite bounds is inside the box.", "quantifier": "every box with finite bounds", "why_tests_cant": "needs coordinates near the largest float", "anchors": ["src/geometry/AABB.cpp: AABB::center"]}
{"id": "C415", "title": "Samples land at their place on the screen in single precision", "statement": "For images of 1 to 65535 columns and rows, raster to screen of the cameras takes a sample within the image to its own place on the screen up to a fiftieth of a pixel in each direction: columns from left to right and rows from top to bottom, over a screen whose shorter side is from -1 to 1 and whose sides have the ratio of the image.", "quantifier": "every resolution up to 65535, every float position in the image", "why_tests_cant": "quantifies over all resolutions and all floats", "anchors": ["src/cameras/camera_orthographic.cpp: CameraOrthographic::CameraOrthographic", "src/cameras/camera_perspective.cpp: CameraPerspective::CameraPerspective"]}
{"id": "C416", "title": "Samples keep their order on the screen in single precision", "statement": "Of two samples the one further right is never further left on the screen and the one further down never further up, however close they are.", "quantifier": "every resolution up to 65535, every pair of float positions in the image", "why_tests_cant": "needs pairs of neighbouring floats", "anchors": ["src/cameras/camera_orthographic.cpp: CameraOrthographic::create_ray"]}
{"id": "C417", "title": "inverse_lerp in single precision", "statement": "For a value between two different bounds, inverse_lerp is a finite number between 0 and 1, exactly 0 at the lower and 1 at the upper bound, and never decreases in between.", "quantifier": "all finite floats up to 2^126, bounds one unit in the last place apart included", "why_tests_cant": "needs neighbouring floats and denormal differences", "anchors": ["src/utility/utility.hpp: inverse_lerp"]}
{"id": "C418", "title": "lerp in single precision", "statement": "For a value in [0,1], lerp differs from the exact value by at most 4 2^-24 times the larger bound, and returns exactly the bounds for 0 and 1.", "quantifier": "all floats with bounds up to 2^120", "why_tests_cant": "quantifies over all floats", "anchors": ["src/utility/utility.hpp: lerp"]}
{"id": "C419", "title": "lerp stays between its bounds", "statement": "For a value in [0,1], lerp returns a number between the bounds, and a larger value never gives less.", "quantifier": "all floats", "why_tests_cant": "the difference is one unit in the last place for few values", "anchors": ["src/utility/utility.hpp: lerp"]}
{"id": "C420", "title": "Faces are sampled with numbers between 0 and 1 in single precision", "statement": "For every random number in [0,1], sample_point of a mesh calls sample_point of a face with a finite number between 0 and 1, if the last face adds to the rounded sum of areas.", "quantifier": "every list of at least two areas, every random number", "why_tests_cant": "quantifies over lists of floats and a search loop", "anchors": ["src/primitives/mesh.cpp: Mesh::sample_point", "src/utility/utility.hpp: inverse_lerp"]}
{"id": "C421", "title": "Distances are symmetric in single precision", "statement": "The computed distance of two points is finite and not negative, has the same value from both points, and is 0 from a point to itself.", "quantifier": "all pairs of points with coordinates up to 2^40", "why_tests_cant": "quantifies over all floats", "anchors": ["src/geometry/point3.cpp: Point3::distance", "src/geometry/vec3.cpp: Vec3::distance"]}
{"id": "C422", "title": "Distances are accurate in single precision", "statement": "The computed distance of two points that are at least 2^-45 apart has a relative error of at most 5 2^-24, however close the points are compared with their coordinates; the occlusion tester compares such a distance of the nearest hit.", "quantifier": "all pairs of points with coordinates up to 2^40", "why_tests_cant": "cancellation of nearly equal coordinates", "anchors": ["src/geometry/point3.cpp: Point3::distance", "src/utility/occlusion_tester.cpp"]}
{"id": "C423", "title": "Only equal points are at distance 0", "statement": "Two different points have a distance above 0.", "quantifier": "all pairs of points", "why_tests_cant": "needs differences below 2^-75", "anchors": ["src/geometry/point3.cpp: Point3::distance"]}
{"id": "C424", "title": "The cross product is antisymmetric in single precision", "statement": "Exchanging the vectors changes exactly the sign of every coordinate of the cross product, and the cross product of a vector with itself is 0.", "quantifier": "all pairs of vectors with coordinates up to 2^40", "why_tests_cant": "quantifies over all floats; fails when products are fused", "anchors": ["src/geometry/vec3.cpp: Vec3::cross"]}
{"id": "C425", "title": "The camera frame is orthonormal in single precision", "statement": "The camera-to-world matrix built from position, target and up vector has finite axes of length 1 and at right angles to each other, up to 3e-5, although the up axis is never normalised; forward is the direction towards the target up to 1e-5, and the up axis makes an acute angle with the given up vector.", "quantifier": "all positions, targets and up vectors whose difference and length can be computed, up at least 27 degrees off the view", "why_tests_cant": "rounding errors of two cross products and three normalisations over all floats", "anchors": ["src/geometry/matrix4.cpp: Matrix4::set_lookAt_inverse", "src/cameras/camera.cpp: Camera::Camera"]}
{"id": "C426", "title": "Perspective rays start at the position of the camera in single precision", "statement": "The origin of each ray of the perspective camera is the given position exactly, without rounding.", "quantifier": "all positions up to 2^127, targets, up vectors with a finite frame, all samples", "why_tests_cant": "quantifies over all floats", "anchors": ["src/cameras/camera_perspective.cpp: CameraPerspective::create_single_ray", "src/geometry/matrix4.cpp: Matrix4::operator*"]}
{"id": "C427", "title": "Perspective rays have length 1 and the right direction in single precision", "statement": "The direction of a perspective ray, which is not normalised after the transform to world space, has length 1 up to 1.1e-4 in the square, and its coordinates along the axes of the camera are those of the unit vector towards the point of the sample up to 1.1e-4.", "quantifier": "all cameras as in C425, all points of the camera space whose length can be computed", "why_tests_cant": "accumulated rounding errors over all floats", "anchors": ["src/cameras/camera_perspective.cpp: CameraPerspective::create_single_ray", "src/geometry/matrix4.cpp: Matrix4::set_lookAt_inverse"]}
{"id": "C428", "title": "Every camera has a usable frame", "statement": "A camera whose target differs from its position has a finite frame.", "quantifier": "all positions, targets and up vectors", "why_tests_cant": "needs an up vector along the view", "anchors": ["src/geometry/matrix4.cpp: Matrix4::set_lookAt_inverse"]}
{"id": "C429", "title": "Mirrors return the exact mirror image in single precision", "statement": "Both perfect mirrors, metal and glass, return the mirror image of the outgoing direction about the normal with density 1 and no rounding: the length is kept, and the image of the image is the direction itself.", "quantifier": "all finite directions, all coefficients of the materials", "why_tests_cant": "quantifies over all floats", "anchors": ["src/materials/reflection.cpp: ConductorReflection::sample_value", "src/materials/reflection.cpp: DielectricReflection::sample_value"]}
{"id": "C430", "title": "Bytes become channels in single precision", "statement": "A byte of a colour becomes a number from 0 to 1: 0 exactly for 0, 1 exactly for 255 although the code multiplies by the rounded reciprocal, larger for larger bytes, and the truncating conversion of the film gives the byte back.", "quantifier": "all bytes", "why_tests_cant": "the tests convert a few colours", "anchors": ["src/utility/color.cpp: ColorRGB::ColorRGB", "src/cameras/image_film.cpp: ImageFilm::save_image"]}
{"id": "C431", "title": "Pixels survive the conversion to colours in single precision", "statement": "A pixel converted to a colour and back by the truncating conversion of the film is the same pixel with full opacity.", "quantifier": "all pixel words", "why_tests_cant": "the tests convert a few colours", "anchors": ["src/utility/color.cpp: ColorRGB::ColorRGB", "src/cameras/image_film.cpp: ImageFilm::save_image", "src/utility/imageio/imageio.h"]}
{"id": "C432", "title": "Orthographic rays are parallel in single precision", "statement": "All rays of the orthographic camera have exactly the forward axis of the camera as direction, of length 1 up to 3e-5 in the square and towards the target up to 1e-5.", "quantifier": "all cameras as in C425", "why_tests_cant": "quantifies over all floats", "anchors": ["src/cameras/camera_orthographic.cpp: CameraOrthographic::create_single_ray", "src/cameras/camera_orthographic.cpp: CameraOrthographic::create_ray"]}
{"id": "C433", "title": "Panoramic rays cover the sphere in single precision", "statement": "The rays of the panoramic camera have length 1 up to 1.1e-5 in the square, and their coordinates along the axes of the camera are those of the point of the sphere with the two angles up to 2.5e-4.", "quantifier": "all cameras as in C425, all sines and cosines whose squares add up to 1 within 1e-6", "why_tests_cant": "accumulated rounding errors over all floats", "anchors": ["src/cameras/camera360.cpp: Camera360::create_single_ray"]}
{"id": "C434", "title": "Rough reflections mirror about the half vector in single precision", "statement": "The direction of a rough reflection has length 1 up to 1.1e-5 in the square and is the mirror image of the outgoing direction about the sampled half vector, up to 2e-4 in each coordinate.", "quantifier": "all outgoing directions of length 1 up to 2e-5 in the square, all half vectors whose length can be computed", "why_tests_cant": "accumulated rounding errors over all floats", "anchors": ["src/materials/microfacet.cpp: MicrofacetR::sample_value", "src/geometry/vec3.hpp: reflect"]}
{"id": "C435", "title": "Rough refractions follow Snell's law in single precision", "statement": "The refracted vector is always finite; it is the zero vector when the squared sine on the far side exceeds 1 by 4e-5, and follows Snell's law up to 4.1e-4 in each coordinate when that squared sine is at most 0.99.", "quantifier": "all directions and interfaces of length 1 up to 2e-5 in the square, all ratios of indices of at most 4", "why_tests_cant": "a root of a rounded difference, over all floats", "anchors": ["src/geometry/vec3.hpp: refract", "src/geometry/vec3.cpp: Vec3::refract"]}
{"id": "C436", "title": "Two dimensional vectors are normalised in single precision", "statement": "Normalising a two dimensional vector gives a finite vector of length 1 up to 1.4e-6 in the square whose coordinates are those of the direction up to 7e-7.", "quantifier": "all finite vectors with a squared length between 2^-100 and 2^100", "why_tests_cant": "accumulated rounding errors over all floats", "anchors": ["src/geometry/vec2.cpp: Vec2::normalize", "src/geometry/vec2.hpp: normalize"]}
{"id": "C437", "title": "What passes as a normalised two dimensional vector", "statement": "A two dimensional vector for which is_normalized holds has length 1 up to 8e-7 in the square.", "quantifier": "all finite vectors with a squared length between 2^-100 and 2^100", "why_tests_cant": "quantifies over all floats", "anchors": ["src/geometry/vec2.cpp: Vec2::is_normalized"]}
{"id": "C438", "title": "Normalised two dimensional vectors pass the test", "statement": "is_normalized holds for every two dimensional vector that was just normalised.", "quantifier": "all finite vectors with a squared length between 2^-100 and 2^100", "why_tests_cant": "the few unit vectors of a test happen to pass", "anchors": ["src/geometry/vec2.cpp: Vec2::is_normalized", "src/geometry/vec2.cpp: Vec2::normalize"]}
{"id": "C439", "title": "Clamping finds the nearest number within the bounds", "statement": "Clamping gives the number within the bounds nearest to the given one, the upper bound for plus infinity and the lower one for minus infinity, and clamping again changes nothing.", "quantifier": "all floats that are numbers, all finite bounds in order", "why_tests_cant": "quantifies over all floats, with the infinities", "anchors": ["src/utility/utility.hpp: clamp"]}
{"id": "C440", "title": "Colours of scene files convert to bytes", "statement": "A coordinate of a colour of a scene file becomes the byte obtained by cutting off the fraction, 0 below 0 and 255 above 255, without undefined behaviour.", "quantifier": "all finite floats and both infinities", "why_tests_cant": "a conversion out of range is undefined and may pass any test", "anchors": ["src/parsers/config_driver.cpp: ConfigDriver::load_texture_uniform", "src/geometry/vec3.cpp: Vec3::clamp"]}
{"id": "C441", "title": "Saturated vectors lie in the unit cube", "statement": "Every coordinate of a saturated vector is between 0 and 1, saturating again changes nothing, and vectors in the cube are left alone.", "quantifier": "all vectors whose coordinates are numbers", "why_tests_cant": "quantifies over all floats, with the infinities", "anchors": ["src/geometry/vec3.cpp: Vec3::saturate", "src/geometry/vec3.hpp: saturate"]}
{"id": "C442", "title": "Clamped values lie within the bounds", "statement": "The result of clamping lies within the bounds whatever the argument.", "quantifier": "all floats", "why_tests_cant": "tests do not clamp what is not a number", "anchors": ["src/utility/utility.hpp: clamp"]}
{"id": "C443", "title": "Normals of sampled triangles are exact up to rounding", "statement": "The normal returned with a point sampled on a triangle has length 1 up to 1.1e-5 in the square and is the exact normal, on the side to which the vertices turn, up to 1e-5 + 7e-6/q in each coordinate, where twice the area is at least q M^2.", "quantifier": "all triangles with coordinates up to M between 1 and 256, all q of at least 1e-5, all random numbers", "why_tests_cant": "accumulated rounding errors over all floats, in particular for slender triangles", "anchors": ["src/primitives/triangle.cpp: Triangle::sample_point"]}
{"id": "C444", "title": "Samples are filtered at their distance from the pixel in single precision", "statement": "The filter is evaluated at the offset of the centre of the pixel from the sample, x + 1/2 - pos, up to the rounding of two operations, and exactly at 0 for a sample in the centre.", "quantifier": "all columns or rows up to 65535, all sample positions up to 65536", "why_tests_cant": "quantifies over all floats", "anchors": ["src/cameras/image_film.cpp: ImageFilm::add_pixel"]}
{"id": "C445", "title": "Texture coordinates are scaled and shifted in single precision", "statement": "The coordinate used in a texture is uv times scale plus shift up to the rounding of two operations, and exactly uv for scale 1 and shift 0.", "quantifier": "all coordinates and scales up to 1024, all shifts up to 2^20", "why_tests_cant": "quantifies over all floats", "anchors": ["src/textures/texture_image.cpp: TextureImage::map_value"]}
{"id": "C446", "title": "An expanded box holds exactly the points close to the box", "statement": "A box expanded by v holds a point exactly when some point of the box is at most v away from it in every coordinate; the empty box stays empty.", "quantifier": "all boxes, all points, all values v that are not negative", "why_tests_cant": "quantifies over all boxes and points", "anchors": ["src/geometry/AABB.cpp: AABB::expand"]}
{"id": "C447", "title": "The surface of a mesh is the sum of the areas of its triangles", "statement": "Without a transform, the surface of a mesh is the sum of the areas of its triangles, where areas are stated by the lengths of the sides.", "quantifier": "all lists of triangles", "why_tests_cant": "quantifies over all meshes", "anchors": ["src/primitives/mesh.cpp: Mesh::surface"]}
