{"id": "C01", "title": "Bit fields are laid out back to back, most significant bit first, zero padded", "statement": "Writing any sequence of (width, value) fields through the bit writer and dropping it leaves in the sink exactly the concatenation of the low `width` bits of every value, most significant bit first, cut into bytes and padded with zero bits to the next byte boundary. Fields of width 0 contribute nothing. Nothing else is written.", "quantifier": "every finite sequence of fields with width 0..=64 and any 64-bit value", "why_tests_cant": "The alignment of a field depends on the total width of all the fields before it, so every prefix history is a different case; tests fix a few widths.", "anchors": ["src/unaligned_rw.rs: UnalignedWriter::new, write_unaligned, write_bit, Drop", "src/unaligned_rw.rs: UnalignedRWMode::precision_bits"]}
{"id": "C02", "title": "A bit read returns the next bits of the stream, however the source delivers its bytes", "statement": "Reading a field of width n (1..=63) returns the number formed by the next n bits of the byte stream and consumes exactly those bits. It fails with an unexpected-end-of-file error exactly when fewer than n bits are left. The outcome does not depend on how many bytes each underlying read call happens to return. It never panics.", "quantifier": "every byte stream, every previous history of reads, every width 1..=63, every schedule of short reads of the source", "why_tests_cant": "Short-read schedules and alignments are unbounded; a unit test uses an in-memory slice that always fills the buffer.", "anchors": ["src/unaligned_rw.rs: UnalignedReader::read_unaligned, read_bit, read_to_internal_storage"]}
{"id": "C03", "title": "Bit fields round-trip", "statement": "If a sequence of fields is written and the resulting bytes (followed by anything at all) are read back with the same widths in the same order, every value comes back unchanged.", "quantifier": "every finite sequence of fields of width 0..=63 with value below 2^width, every trailing byte string, every short-read schedule", "why_tests_cant": "Quantifies over all width sequences; the repository test uses one fixed sequence.", "anchors": ["src/unaligned_rw.rs: UnalignedWriter, UnalignedReader"]}
{"id": "C04", "title": "A paired read is two single reads, except at width 32", "statement": "Reading two fields of the same width with the paired read gives the same values and leaves the same remaining stream as two single reads, and fails when they fail, for every width 0..=63 other than 32. At width 32 the equivalence is false: the paired read returns (0,0) and consumes nothing, whatever the stream holds.", "quantifier": "every stream and position, every width 0..=63", "why_tests_cant": "Only one width out of 64 is wrong; index arrays of that width need over two billion vertices, so no test reaches it.", "anchors": ["src/unaligned_rw.rs: UnalignedReader::read2_unaligned"]}
{"id": "C05", "title": "A triple read is three single reads", "statement": "Reading three fields of the same width with the triple read gives the same values, the same remaining stream and the same failures as three single reads for every width 1..=63 other than 32. At width 0 a build with overflow checks panics; at width 32 the first two values are lost.", "quantifier": "every stream and position, every width 0..=63", "why_tests_cant": "Same reason as C04: a width-dependent fast path.", "anchors": ["src/unaligned_rw.rs: UnalignedReader::read3_unaligned"]}
{"id": "C06", "title": "A mixed-width pair read agrees with two single reads only when the widths agree", "statement": "For equal non-zero widths with sum below 64 the mixed-width pair read equals two single reads. For different widths it reads the second width first and the first one after it: for every two different widths there is a stream on which both values are wrong. With a first width of 0 it panics in builds with overflow checks.", "quantifier": "every stream and position, every pair of widths with sum below 64", "why_tests_cant": "The function is exercised by no production path and by no test with unequal widths.", "anchors": ["src/unaligned_rw.rs: UnalignedReader::read_pair_unaligned"]}
{"id": "C07", "title": "The index field width is sufficient and minimal", "statement": "For a declared largest index m the chosen field width w satisfies m < 2^w, no smaller width does, and the computation never overflows.", "quantifier": "every m from 0 to 2^64-1", "why_tests_cant": "2^64 inputs.", "anchors": ["src/vertices.rs: calc_prec"]}
{"id": "C08", "title": "Index arrays round-trip exactly", "statement": "Saving an index array whose entries do not exceed the declared largest index m and loading the produced bytes returns exactly the same array in both loaders, provided m < 2^31. For m in 2^31..2^32-1 the claim is false (an array holding only the indices m and 0 loads as zeros): every pair of entries loads as the smallest entry twice and an odd last entry as the first one.", "quantifier": "every index array of up to 2^31 entries, every m, both array decoders, both overflow modes", "why_tests_cant": "All arrays and all bounds; the failing range needs a declared index over 2^31.", "anchors": ["src/vertices.rs: save_triangles, read_triangles", "src/tmf_importer.rs: read_default_triangles, decode_triangle_seg"]}
{"id": "C09", "title": "Splitting an index array is lossless and terminates", "statement": "The exporter cuts an index array into consecutive segments whose concatenation is exactly the array; the procedure terminates and never panics, and no segment produced by a cut is empty.", "quantifier": "every index array", "why_tests_cant": "Recursive data dependent splitting; termination and losslessness need induction.", "anchors": ["src/tmf_exporter.rs: opt_tris, calc_spilt_score"]}
{"id": "C10", "title": "No element of a loaded index array is left uninitialised", "statement": "Loading an index array segment either fails or returns an array in which every element up to the declared length was written by the loader before the length was published.", "quantifier": "every byte string given to the index array loader", "why_tests_cant": "The loader uses unsafe set_len on a spare-capacity buffer; a test cannot tell a lucky uninitialised value from a written one.", "anchors": ["src/tmf_importer.rs: read_default_triangles"]}
{"id": "C11", "title": "Segment framing round-trips and keeps the stream in step", "statement": "Writing a segment of any kind with a payload below 2^31 bytes and reading it back yields the same kind, compression tag and payload and leaves the stream exactly at the byte after it, so any number of segments can follow one another. A declared length above 2^31 is refused before the payload is read. An unknown compression tag is refused.", "quantifier": "every segment sequence, every payload, every following byte string", "why_tests_cant": "All payload lengths and all segment sequences.", "anchors": ["src/tmf.rs: EncodedSegment::write, EncodedSegment::read, CompressionType, SectionType"]}
{"id": "C12", "title": "Segments of an unknown kind do not change the loaded mesh", "statement": "Inserting segments with an unassigned kind code anywhere among the segments of a mesh (with the count adjusted) does not change what is loaded.", "quantifier": "every file, every position, every unknown kind code and payload", "why_tests_cant": "Forward compatibility ranges over all future payloads.", "anchors": ["src/tmf.rs: SectionType::from_u8, EncodedSegment::decode", "src/tmf_importer.rs: import_mesh"]}
{"id": "C13", "title": "The header decides acceptance exactly", "statement": "Loading a stream reports 'not a TMF file' exactly when the first three bytes are not TMF, reports 'newer version required' exactly when the minimal version in the header is lexicographically greater than the library version 0.2, and otherwise goes on to the meshes. A stream shorter than the header gives an I/O error.", "quantifier": "every byte string", "why_tests_cant": "All headers.", "anchors": ["src/tmf_importer.rs: read_tmf_header, init_header", "src/lib.rs: TMF_MAJOR, TMF_MINOR"]}
{"id": "C14", "title": "Files in the previous framing decode to the same content", "statement": "A file whose header asks for minimal version 0.0 or 0.1 uses 16-bit segment kinds and 64-bit lengths and has no index offset field; loading it gives the same segments as the equivalent current file with offset 0.", "quantifier": "every sequence of segments and index arrays, both framings", "why_tests_cant": "No old files are in the test-suite; the framing switch depends on header data.", "anchors": ["src/tmf_importer.rs: SegLenWidth, SegTypeWidth, TMFImportContext::read_traingle_min"]}
{"id": "C15", "title": "A truncated file is rejected, trailing bytes are ignored", "statement": "If loading a byte string succeeds, it used up a definite prefix of it; loading any shorter prefix fails with an error (it never yields a partial result and never panics), and loading that prefix with anything appended gives the same result.", "quantifier": "every byte string that loads, every cut point, every suffix", "why_tests_cant": "Every cut point of every file.", "anchors": ["src/tmf_importer.rs: TMFImportContext::import, import_mesh", "src/lib.rs: TMFMesh::read_tmf"]}
{"id": "C16", "title": "A crash while saving never leaves a loadable wrong file", "statement": "If the sink fails after accepting any number of bytes, what it holds is a prefix of the complete file, the save returns an I/O error, and loading those bytes fails unless the whole file was accepted.", "quantifier": "every mesh list that saves, every byte position at which the sink fails", "why_tests_cant": "Every crash point of every save.", "anchors": ["src/tmf_exporter.rs: write_tmf, write_mesh, write_tmf_header", "src/tmf.rs: EncodedSegment::write"]}
{"id": "C17", "title": "Loading arbitrary bytes does not panic, up to the listed cases", "statement": "Loading any byte string returns a value or an error; the only panics are (a) a colour custom-data segment whose declared count overflows an allocation, (b) with overflow checks on, a colour segment with a bit width of 64 or more, an addition overflow of index and offset in an index array, or an index array with the offset field near 2^64. Each of these cases is reachable. A complete index array panics exactly when overflow checks are on and some stored value plus the offset reaches 2^64; otherwise it loads as those sums modulo 2^32.", "quantifier": "every byte string, both overflow modes", "why_tests_cant": "Fuzzing samples a few byte strings; the claim is about all of them.", "anchors": ["src/lib.rs: TMFMesh::read_tmf", "src/custom_data.rs: CustomDataSegment::read", "src/tmf_importer.rs: read_default_triangles", "fuzz/"]}
{"id": "C18", "title": "Declared sizes are bounded before allocation", "statement": "No array that a load reserves from a declared size (segment payload, vertices, normals, UVs, tangents, indices, floats) exceeds 2^31 elements; a larger declared size is answered with an error. Colour custom data is the exception.", "quantifier": "every byte string", "why_tests_cant": "All declared sizes.", "anchors": ["src/tmf.rs: EncodedSegment::read", "src/vertices.rs, src/normals.rs, src/uv.rs, src/tangents.rs, src/custom_data.rs: MAX_SEG_SIZE checks"]}
{"id": "C19", "title": "Mesh count, mesh order and mesh names survive a save/load", "statement": "Saving a list of named meshes and loading the result gives the same number of meshes in the same order with the same names, when the names are at most 65535 bytes and there are fewer than 2^32 meshes. A name of 65536 bytes or more does not survive.", "quantifier": "every list of meshes that can be saved", "why_tests_cant": "All lists, all names.", "anchors": ["src/tmf_exporter.rs: write_tmf, write_mesh, write_mesh_name", "src/tmf_importer.rs: import, import_mesh, read_string"]}
{"id": "C20", "title": "Index arrays and array lengths survive a save/load", "statement": "After saving and loading a mesh, its vertex, normal, UV and tangent index arrays are exactly the saved ones and the vertex, normal, UV and tangent arrays are present exactly when they were saved and have the same length.", "quantifier": "every mesh that saves, all presence combinations of the eight arrays", "why_tests_cant": "All meshes; segment splitting, segment sharing and segment order all have to cancel out.", "anchors": ["src/tmf_exporter.rs: write_mesh, merge_segments, MeshSegIter", "src/tmf.rs: DecodedSegment::optimize, encode, apply", "src/tmf_importer.rs: import_mesh"]}
{"id": "C21", "title": "Custom data survives a save/load by name, with the order of segments reversed", "statement": "Every custom data segment is loaded with its name and kind; index arrays inside are exact and lengths are kept. The order of the segments comes back reversed, so with two segments of the same name the lookup returns the other one.", "quantifier": "every list of custom data segments with names of 1..=255 bytes", "why_tests_cant": "All lists; order reversal is only visible with two or more segments.", "anchors": ["src/custom_data.rs: CustomDataSegment::write, read", "src/tmf_exporter.rs: merge_segments, MeshSegIter"]}
{"id": "C22", "title": "Sharing one segment between equal index arrays is invisible", "statement": "When several of a mesh's index arrays are equal they are stored once; applying the stored segments gives every array the value it would have had if each had been stored separately.", "quantifier": "every combination of index arrays, any subset of them equal", "why_tests_cant": "All equality patterns and all contents.", "anchors": ["src/tmf.rs: DecodedSegment::merge, SharedSegmentKind, apply", "src/tmf_exporter.rs: merge_segments"]}
{"id": "C23", "title": "Loading exactly one mesh", "statement": "The single-mesh loader succeeds exactly when the file holds exactly one mesh and then returns it; an empty file gives 'no meshes', two or more give 'too many meshes', and any other failure is the failure of the general loader.", "quantifier": "every byte string", "why_tests_cant": "All files.", "anchors": ["src/lib.rs: TMFMesh::read_tmf_one"]}
{"id": "C24", "title": "The result of a load does not depend on the completion order of segment decoding", "statement": "Segments are decoded by asynchronous tasks; whatever order they complete in, the loaded mesh is the one obtained by decoding the segments one after another in file order.", "quantifier": "every segment list, every completion order", "why_tests_cant": "Schedules cannot be enumerated by tests.", "anchors": ["src/tmf_importer.rs: import_mesh, runner (futures::future::join_all)"]}
{"id": "C25", "title": "Reordering data does not change what the mesh draws", "statement": "After the first-use reordering the vertex, normal and UV buffers (array looked up through its index array) are the same as before, and tangents, custom data, name-independent parts are untouched.", "quantifier": "every mesh whose indices are in range", "why_tests_cant": "All meshes.", "anchors": ["src/lib.rs: TMFMesh::reorder_data", "src/utilis.rs: optimize_triangle_indices"]}
{"id": "C26", "title": "Reordered data is compact and in order of first use", "statement": "After the reordering, the index array introduces the numbers 0,1,2,... in increasing order, every element of the data array is used, no data element appears that was unused before, and doing it again changes nothing.", "quantifier": "every mesh whose indices are in range", "why_tests_cant": "All meshes; idempotence and first-use order need induction.", "anchors": ["src/utilis.rs: optimize_triangle_indices"]}
{"id": "C27", "title": "Unifying index data does not change what the mesh draws", "statement": "After unifying, the vertices, normals, UVs and tangents that have data and indices share one index array and each buffer looked up through it equals the buffer before; custom data is untouched. Unifying returns when the index arrays are equally long and in range. If no data array is there but empty, it panics exactly when two of the attributes have different index arrays and two of the arrays differ in length or one holds an index outside its data.", "quantifier": "every mesh, all presence combinations", "why_tests_cant": "All meshes.", "anchors": ["src/lib.rs: TMFMesh::unify_index_data", "src/unify_data.rs: smart_merge_data_2, smart_merge_data_3, merge_data_2, merge_data_3, unfiy_data_common"]}
{"id": "C28", "title": "Unified data has no duplicates and unifying is idempotent", "statement": "After unifying arrays whose index arrays differ, each combination of attributes occurs at most once per distinct index combination, the new index array is in first-use order, and unifying again changes nothing.", "quantifier": "every mesh with equally long in-range index arrays", "why_tests_cant": "All meshes.", "anchors": ["src/unify_data.rs"]}
{"id": "C29", "title": "What mesh verification guarantees", "statement": "Verification succeeds exactly when vertex indices exist only together with vertices and are at most the number of vertices, likewise normals and UVs, and no stored normal has a computed length that differs from 1 by more than 0.001: a finite normal is accepted when its true length is within 0.000999 of 1 and reported when it is 0.001001 or more off. The errors reported are exactly those of the attributes that fail. It does not reject an index equal to the array length, it accepts normals with NaN components, and it never reports a UV outside 0..1, so a verified mesh can still have no buffer.", "quantifier": "every mesh", "why_tests_cant": "All meshes, including those with boundary indices.", "anchors": ["src/verify.rs: verify_tmf_mesh, verify_vertices, verify_normals, verify_uvs, indices_inside_array", "src/lib.rs: TMFMesh::verify"]}
{"id": "C30", "title": "Buffers are returned exactly when all indices are in range", "statement": "The vertex/normal/UV buffer getters return a buffer exactly when both the data and the index array are present and every index is in range; the buffer has one element per index, namely the indexed element. They never panic.", "quantifier": "every mesh", "why_tests_cant": "All meshes.", "anchors": ["src/lib.rs: TMFMesh::get_vertex_buffer, get_normal_buffer, get_uv_buffer"]}
{"id": "C31", "title": "Setters and appenders behave like a record of optional arrays", "statement": "After any sequence of set and append calls every getter returns what a plain record of optional sequences would return: set replaces and returns the old value, append concatenates, and no call affects another attribute.", "quantifier": "every finite sequence of calls", "why_tests_cant": "Histories are unbounded.", "anchors": ["src/lib.rs: set_*, get_*, append_*"]}
{"id": "C32", "title": "Custom data: insertion and lookup by name", "statement": "Names of 1..=255 bytes are accepted and all others rejected with the mesh unchanged; a name may be added twice; after any sequence of additions a lookup returns the first added data of that name, and nothing for a name that was never added. A lookup never panics.", "quantifier": "every finite sequence of additions and lookups", "why_tests_cant": "Histories are unbounded.", "anchors": ["src/lib.rs: TMFMesh::add_custom_data, lookup_custom_data", "src/custom_data.rs: CustomDataSegment::new"]}
{"id": "C33", "title": "UV error bound", "statement": "A UV coordinate in [0,1] saved with p bits (1..=24) loads within 1/(2^p-1) plus 2^-22 of its value, and loads inside [0,1]. Negative coordinates load as 0. A coordinate above 1 (up to 2^30) wraps around: it loads in [0,1], moved down by a whole number of turns of 2^p/(2^p-1) each. NaN and minus infinity load as 0, plus infinity as 1. For p of 25 or more the coordinate 1.0 loads as 0.0.", "quantifier": "every f32 in [0,1], every p in 1..=24, every array of them", "why_tests_cant": "Over a billion values times 24 widths, with floating point rounding.", "anchors": ["src/uv.rs: save_uvs, read_uvs"]}
{"id": "C34", "title": "UV pixel deviation", "statement": "With the default UV precision no coordinate in [0,1] moves by 0.1 of a pixel or more of a 1024 pixel texture. For any other resolution and deviation (and an accurate log2) a coordinate moves by at most 2.002 times the deviation, plus rounding of 2^-22 of the resolution. The documented bound itself can be exceeded: with resolution 1024 and deviation 1 some coordinate moves by more than one pixel.", "quantifier": "every f32 in [0,1]; every texture resolution and deviation", "why_tests_cant": "All coordinates and settings.", "anchors": ["src/uv.rs: UvPrecisionMode::form_texture_resolution, Default"]}
{"id": "C35", "title": "Normal error bound", "statement": "A unit normal (or tangent) saved with 1 to 24 bits loads as a vector whose cosine to the original is at least 1 - s - 2*s^2 - 2^-15 with s = 1/(2^p-1); with the default setting at least 0.9919; with a setting of d degrees s is at most 2.002*d/90, with one of r radians (up to 0.78) at most 2.002*r/1.5707. The documented guarantee of a maximal angle is false: with a setting of 1 degree some normal moves by more than 7 degrees.", "quantifier": "every unit vector, every p", "why_tests_cant": "Continuous domain.", "anchors": ["src/normals.rs: normal_to_encoding, normal_from_encoding, NormalPrecisionMode::from_deg_dev"]}
{"id": "C36", "title": "Loaded normals have unit length and keep their side", "statement": "A unit normal saved with 1 to 24 bits loads with a squared length within 2^-18 of 1, with z within 1/(2^p-1) of its value and of the same sign, and with x and y of the same sign up to 2^-19. The exact octant is not always kept (a tiny positive y can load negative). With width 0 every normal loads with length sqrt 3, with 25 bits or more z = 1 loads as 0, and with 24 bits a length of 1+2^-23 is enough to lose z.", "quantifier": "every unit vector, every precision", "why_tests_cant": "Continuous domain.", "anchors": ["src/normals.rs"]}
{"id": "C37", "title": "Tangent handedness survives", "statement": "Saving and loading tangents keeps their number and the handedness of each: positive loads as 1, negative as -1, and 1 and -1 come back exactly.", "quantifier": "every tangent array, every precision setting", "why_tests_cant": "All arrays.", "anchors": ["src/tangents.rs"]}
{"id": "C38", "title": "Stored bounding box", "statement": "The six bounds stored with a vertex array contain every vertex except possibly the x coordinate (upper side) and y coordinate (lower side) of the last vertex: the stored upper x is the greatest of all y and of all x but the last, the lower y the least of all z and of all y but the last, the upper y the greatest of all x and y, the lower z the least of all y and z, the lower x and upper z are exact. So the last vertex can load at a wrong place: (0,0,0),(10,0,0) loads as two equal points, and a single vertex (0,0,5) loads with y = 5.", "quantifier": "every array of finite vertices that saves, every precision", "why_tests_cant": "All arrays; depends on which vertex is last.", "anchors": ["src/vertices.rs: save_tmf_vertices"]}
{"id": "C39", "title": "Vertex quantisation error", "statement": "A coordinate between the stored bounds lo and hi, saved with p bits (1..=24) and loaded, is within (hi-lo)/(2^p-1) or 1.001e-6, whichever is greater, of its value, up to rounding proportional to the largest coordinate, and stays between the bounds up to rounding. Where lo = hi, or the coordinate is below lo, exactly lo is loaded. Widths of 25 bits or more lose the coordinate hi: it loads as lo.", "quantifier": "every array of vertices with coordinates up to 2^60 that saves, every precision", "why_tests_cant": "Continuous domain with floating point rounding.", "anchors": ["src/vertices.rs: save_tmf_vertices, read_tmf_vertices"]}
{"id": "C40", "title": "Documented edge length guarantee", "statement": "Saving with a precision of a fraction f of the shortest edge s moves x and y of a vertex inside the stored bounds by at most 2.003*f*s plus 1.001e-6 and rounding, and z by that much times the ratio of the z extent to the y extent, when log2 is accurate. The documented guarantee on edge lengths does not hold: z uses the width computed from the y extent, and there is a mesh whose shortest edge collapses to a point at precision 1/16.", "quantifier": "every list of meshes that saves, every precision in (0,1]; existence of a counterexample", "why_tests_cant": "All meshes.", "anchors": ["src/vertices.rs: save_tmf_vertices, VertexPrecisionMode", "src/tmf_exporter.rs: calc_shortest_edge"]}
{"id": "C41", "title": "Splitting a vertex array is lossless and terminates", "statement": "The exporter cuts a vertex array into consecutive non-empty segments whose concatenation is the array; it terminates, its internal consistency assertion never fires, and without overflow checks it never panics.", "quantifier": "every vertex array including non-finite coordinates, every behaviour of log2", "why_tests_cant": "Data dependent recursion on floats.", "anchors": ["src/tmf_exporter.rs: opt_vertices, find_best_vertex_spilt, range_to_vertex_bit_count"]}
{"id": "C42", "title": "Custom float data", "statement": "A custom float array keeps its length. If its values are finite and at most B <= 2^60 in absolute value, and its range hi-lo lies between 2^-60 and 2^23 times the requested precision q, every value loads within 2.002*q + 2^-20*B + 2^-99 of the original; if all values are equal they load exactly. A precision finer than 1.001*2^-24 of the range makes the greatest value load as the least. The precision itself is no error bound (0.9 stored with precision 1/2 loads as 0), and a loaded value can exceed the greatest stored one.", "quantifier": "every array of finite floats, every requested precision in the stated range, every platform with an accurate log2", "why_tests_cant": "All arrays and precisions; the bound rests on rounding in every operation.", "anchors": ["src/custom_data.rs: CustomData::CustomFloat, write, read"]}
{"id": "C43", "title": "Colour data", "statement": "A colour array keeps its length. With a requested precision q from 2^-23 to 1-2^-10 every channel in [0,1] loads in [0,1] and within 2.002*q + 2^-22; with the default precision within 0.008; negative channels, NaN and minus infinity load as 0, and plus infinity as 1. A channel above 1 (up to 2^30) wraps: it loads in [0,1], moved down by a whole number of turns of 2^w/(2^w-1), w being the number of bits of the array, up to one step and rounding. A precision finer than about 2^-24 makes a channel of exactly 1 load as 0, one of 1.0 or more makes every channel load as NaN, and the precision itself is no error bound (0.9 stored with precision 1/2 loads as 0).", "quantifier": "every colour array, every requested precision in the stated range, every platform with an accurate log2", "why_tests_cant": "All arrays and precisions; the bound rests on rounding in every operation.", "anchors": ["src/custom_data.rs: CustomData::CustomColorRGBA"]}
{"id": "C44", "title": "OBJ export/import round trip", "statement": "Exporting meshes with vertices, normals, UVs and equally long triangle index arrays to OBJ and importing the text gives the same number of meshes with the same names and the same vertex, normal and UV buffers, provided printing and parsing a float round-trips and names hold no separator.", "quantifier": "every list of such meshes", "why_tests_cant": "All meshes; text offsets accumulate over meshes.", "anchors": ["src/obj.rs: write_obj, save_obj, read_from_obj, parse_line", "src/model_importer.rs"]}
{"id": "C45", "title": "OBJ export of a point cloud shifts later meshes", "statement": "The exporter forgets the vertices of a mesh without faces when it numbers later meshes, so that a file with a point cloud before another mesh is imported with wrong geometry.", "quantifier": "exists a list of two meshes", "why_tests_cant": "Needs a multi-mesh history.", "anchors": ["src/obj.rs: save_obj, write_obj"]}
{"id": "C46", "title": "OBJ index parsing", "statement": "A face corner whose index text is not a positive number is never out of range silently: unparsable indices (including OBJ relative indices such as -1) are read as 1, and a zero index drops the rest of the face.", "quantifier": "every line of text", "why_tests_cant": "All texts.", "anchors": ["src/obj.rs: parse_index, load_indices, load_face"]}
{"id": "C47", "title": "Removing unused data on import does not change geometry", "statement": "The pruning applied on import keeps every lookup through the index array unchanged, keeps indices in range, removes nothing but a prefix of the data, leaves the first element used unless nothing is, and done again changes nothing.", "quantifier": "every array and in-range index array", "why_tests_cant": "All arrays.", "anchors": ["src/utilis.rs: fast_prune"]}
{"id": "C48", "title": "LZ77 coded index arrays round-trip", "statement": "Decoding what the LZ77 coder wrote gives the original values when every value, match length and distance fits the field width.", "quantifier": "every value sequence, every width of 7..=63 bits", "why_tests_cant": "Self-referential data; needs induction over the output history.", "anchors": ["src/lz77.rs"]}
{"id": "C49", "title": "Triangle reordering permutes triangles", "statement": "The triangle reordering puts whole triangles into one new order, the same for all index arrays: first the triangles whose indices all differ by less than 16 from the one before, then the others, each group in its old order. Every triangle occurs exactly as often as before with its corner order kept. Indices after the last whole triangle are dropped; arrays of different lengths, or a wrong number of them, panic.", "quantifier": "every non-empty list of index arrays of any length", "why_tests_cant": "All arrays; sizes are unbounded.", "anchors": ["src/reorder_triangles.rs"]}
{"id": "C50", "title": "Triangulation of polygons", "statement": "Triangulating an n-gon yields n-2 triangles whose corners are corners of the polygon. For n=5 a produced triangle may repeat a corner.", "quantifier": "every polygon", "why_tests_cant": "All polygons.", "anchors": ["src/triangulation.rs: triangulate"]}
{"id": "C51", "title": "Normalising", "statement": "Normalising the normal array keeps its length, leaves everything else alone and gives every normal whose components are at most 2^50, one of them at least 2^-50, length 1 up to rounding and its old direction; verification then finds no normal of wrong length. Zero, tiny, huge and NaN normals become NaN, infinite or zero vectors.", "quantifier": "every normal array", "why_tests_cant": "Continuous domain.", "anchors": ["src/lib.rs: TMFMesh::normalize", "src/normals.rs: normalize_arr"]}
{"id": "C52", "title": "Size of the written file", "statement": "An index array segment takes exactly 23 + ceil(n*w/8) bytes (6 framing, 17 header) for n indices of width w. A file takes 15 bytes, 4 bytes and the name for each mesh, 6 bytes and the payload for each segment, and nothing else.", "quantifier": "every non-empty list of index arrays of any length", "why_tests_cant": "All arrays; sizes are unbounded.", "anchors": ["src/vertices.rs: save_triangles", "src/tmf.rs: EncodedSegment::write"]}
{"id": "C53", "title": "Which meshes make a save panic", "statement": "Saving to a sink that does not fail never returns an error. It panics when a mesh's vertex array is present but empty, when a corner of a triangle does not exist, or when it has vertex indices but no edge of finite length (in particular one or two indices); so a mesh accepted by verification can panic on saving. Without overflow checks there is no other panic: every other list of meshes is saved, with any precisions. With them, meshes without vertices are always saved, with precisions of up to 30 bits, and meshes with vertices are saved as well if no coordinate is above 2^50 or above a million shortest edges times the precision and the shortest edge is not below 2^-20.", "quantifier": "every mesh", "why_tests_cant": "All meshes.", "anchors": ["src/tmf_exporter.rs: calc_shortest_edge, write_mesh", "src/vertices.rs: save_tmf_vertices"]}
{"id": "C54", "title": "Segment count limit", "statement": "A mesh is stored in at most 8 more segments than it has vertices, indices and custom data entries. With 65536 or more segments the stored count wraps and the file loads without an error as a mesh with fewer elements.", "quantifier": "every number of segments", "why_tests_cant": "Large histories.", "anchors": ["src/tmf_exporter.rs: write_mesh"]}
{"id": "C55", "title": "Saving what was loaded", "statement": "Index arrays, names, custom index data and array lengths are unchanged by any number of save/load cycles, on any machines and with any precisions; the order of custom data is reversed by every cycle.", "quantifier": "every mesh, every number of cycles", "why_tests_cant": "Unbounded number of cycles.", "anchors": ["src/lib.rs: write_tmf, read_tmf"]}
{"id": "C56", "title": "Builds with and without overflow checks agree", "statement": "For the same input, a program compiled with overflow checks and one without save the same bytes and load the same meshes or report the same error, unless the one with checks panics.", "quantifier": "every list of meshes and precisions, every byte string", "why_tests_cant": "All inputs; tests are normally run in one build mode.", "anchors": ["src/lib.rs: write_tmf, read_tmf", "src/unaligned_rw.rs", "src/vertices.rs", "src/tmf_exporter.rs"]}
{"id": "C57", "title": "OBJ import does not panic without triangulation", "statement": "With the triangulation feature off, importing any text as OBJ returns at least one mesh or an error and never panics.", "quantifier": "every text", "why_tests_cant": "All texts.", "anchors": ["src/obj.rs: read_from_obj", "src/model_importer.rs: push_face"]}
{"id": "C58", "title": "Triangulation panics exactly on missing vertices", "statement": "With the triangulation feature on, a face with more than three corners makes the import panic if and only if one of its vertex numbers is larger than the number of vertices read so far.", "quantifier": "every face, every number of corners, every state of the import", "why_tests_cant": "All polygons and files.", "anchors": ["src/triangulation.rs: triangulate", "src/model_importer.rs: push_face"]}
{"id": "C59", "title": "What the OBJ export refuses", "statement": "Exporting a list of meshes succeeds exactly when in each mesh the normal and UV index arrays are as long as the vertex index array, or there is none of the three. It does not panic, except in a build with overflow checks when an index plus the position in the file exceeds 32 bits.", "quantifier": "every list of meshes", "why_tests_cant": "All meshes.", "anchors": ["src/obj.rs: save_obj, write_obj"]}
{"id": "C60", "title": "The size of the storage word does not matter", "statement": "The values read from a bit stream, and the point where it ends, do not depend on the size of the storage word the reader keeps (usize of 1, 2, 4 or 8 bytes, as on a 32-bit target), nor on how the source delivers its bytes.", "quantifier": "every storage size of at least one byte, every source and way it delivers bytes, every history of reads", "why_tests_cant": "Tests run on one target with one word size.", "anchors": ["src/unaligned_rw.rs: UnalignedReader::read_to_internal_storage, read_unaligned, read_bit, read2_unaligned, read3_unaligned"]}
{"id": "C61", "title": "Loading hardly depends on the platform's mathematics library", "statement": "The same bytes loaded on two platforms give the same error, or a panic on both, or the same meshes: everything is the same, bit for bit, except the first two components of normals and tangents. If sine and cosine are accurate to 2^-20 on both platforms these components differ by at most 2^-18.", "quantifier": "every byte string, every pair of mathematics libraries", "why_tests_cant": "Tests run on one platform with one mathematics library.", "anchors": ["src/tmf_importer.rs", "src/lib.rs: TMFMesh::read_tmf, read_tmf_one", "src/normals.rs: normal_from_encoding", "src/tangents.rs"]}
{"id": "C62", "title": "Loaded values are in range", "statement": "Whatever the file, in every loaded mesh the texture coordinates are in [0,1], normals and tangents are finite and of unit length (or, when stored with no bits, corners of a cube), a handedness is 1 or -1, and colours are in [0,1] (or, when stored with no bits, NaN). Colours and vertices stored with no bits do load as NaN.", "quantifier": "every byte string that loads, every sine and cosine accurate to 2^-20", "why_tests_cant": "The values come from arbitrary stored codes of every width up to 63 bits.", "anchors": ["src/uv.rs: read_uvs", "src/normals.rs: normal_from_encoding", "src/tangents.rs: read_tangents", "src/custom_data.rs", "src/vertices.rs: read_tmf_vertices"]}
{"id": "C63", "title": "Loading with the fast_trig feature", "statement": "A build with the fast_trig feature loads the same bytes with the same outcome and the same meshes as a build without it, except that each normal and tangent is at most 1/256 away from the one loaded without the feature. They are finite and of unit length for every file. A unit normal saved with p bits loads at most sqrt(2(s+2s^2)+2^-14)+1/256 away from the original, with s=1/(2^p-1). The feature does not reach the accuracy of an ordinary sine.", "quantifier": "every byte string, every mathematics library accurate to 2^-20 on the other side, every width up to 63 bits (1 to 24 for the distance to the original)", "why_tests_cant": "The approximation must hold for every stored angle; close to a right angle a rounding error could make the square root NaN.", "anchors": ["src/utilis.rs: fsin", "src/normals.rs: normal_from_encoding (cfg fast_trig)", "Cargo.toml: fast_trig"]}
{"id": "C64", "title": "Programs built with another index type exchange files", "statement": "Programs built with short_indices (16-bit indices), without a feature (32 bits) and with long_indices (64 bits) read the same format. Any bytes give the same error, panic or meshes in two of them, except that the program with the narrower type cuts each index to its width. A mesh whose indices fit both types is saved as the same bytes by both, and what one saves the other loads with equal names, index arrays and custom data. Verification gives the same verdict when the array lengths fit both types, and what the narrower type accepts the wider one accepts. An index that does not fit wraps without an error.", "quantifier": "every byte string, every list of meshes within the limits of C20, every pair of index widths up to 64 bits, both overflow modes", "why_tests_cant": "No test compiles two configurations and exchanges all files; the casts only matter on particular values.", "anchors": ["src/lib.rs: IndexType", "src/tmf_importer.rs: read_default_triangles", "src/vertices.rs: read_triangles", "src/tmf_exporter.rs: opt_tris", "src/verify.rs: verify_tmf_mesh", "Cargo.toml: long_indices, short_indices"]}
{"id": "C65", "title": "Reordering and unifying with another index type", "statement": "In programs built with short_indices (16-bit indices), without a feature (32 bits) and with long_indices (64 bits), reordering a mesh keeps the corner-by-corner buffers, and gives the same mesh in all of them when the indices fit. Unifying the index arrays gives the same mesh in two of them, and keeps the buffers, if no index array has more than 2^w entries for an index type of w bits. With more entries the new indices wrap without a warning and the buffers change.", "quantifier": "every mesh, every pair of index widths", "why_tests_cant": "Tests run in one configuration, and the casts only matter on large meshes.", "anchors": ["src/utilis.rs: optimize_triangle_indices", "src/unify_data.rs: unfiy_data_common, smart_merge_data_4", "src/lib.rs: TMFMesh::reorder_data, unify_index_data", "Cargo.toml: long_indices, short_indices"]}
{"id": "C66", "title": "The same file with and without double_precision", "statement": "A program built with the feature double_precision (coordinates as f64) and one built without it (f32) agree on every file: both fail with the same error, or both panic, or both load the same number of meshes with the same names, equal index arrays and equal custom indices and integers. Custom floats and colours of the second are those of the first rounded. Texture coordinates and the last component of normals and tangents differ by at most 2^-22, the other two components by at most 2^-10, and vertex coordinates by at most 2^-19 of the largest absolute value of the box stored in a vertex segment of that mesh. The one exception is a colour array that claims to hold 2^58 or more colours, where the first panics although the second may report an error.", "quantifier": "every byte string, both overflow modes, every sine and cosine function accurate to 2^-20", "why_tests_cant": "Tests run in one configuration; which of two builds meets a given file, and what it contains, is open.", "anchors": ["src/lib.rs: FloatType, read_tmf, read_tmf_one", "src/vertices.rs: read_tmf_vertices", "src/normals.rs: normal_from_encoding, FRAC_PI_2", "src/uv.rs: read_uvs", "src/tangents.rs: read_tangents", "src/custom_data.rs: CustomDataSegment::read", "Cargo.toml: double_precision"]}
{"id": "C67", "title": "Line ends, ignored lines and surplus words in OBJ text", "statement": "Importing OBJ text depends only on the contents of the lines: a line may end with a newline or with a carriage return and a newline, and the last line need not be ended. Lines whose first word is not v, vn, vt, f or o (comments, blank lines, mtllib, s, and also indented lines) can be put in or left out anywhere. Words after the third number of a vertex or normal, or after the second of a texture coordinate, are ignored.", "quantifier": "every text around the line, every float parser, triangulation on or off", "why_tests_cant": "Tests load a few files from one exporter; other exporters use other line ends, comments and optional fields.", "anchors": ["src/obj.rs: read_from_obj, parse_line, load_vec3, load_vec2", "src/lib.rs: TMFMesh::read_from_obj"]}
{"id": "C68", "title": "What the bytes of a file mean", "statement": "A file that loads is a header, a number of meshes, and that many meshes one after another, each a name, a number of segments and the segments; the loaded meshes carry those names in that order. The bytes can be taken apart in one way only. The meshes do not depend on each other: a file with the meshes of two files (and the same version numbers) loads the meshes of the first followed by the meshes of the second, or fails as the first that fails.", "quantifier": "every file that loads, of every version; every two lists of meshes with any segments, known or unknown; bytes after the end", "why_tests_cant": "Tests load files the library itself wrote; that every accepted file has this layout, and only one such layout, is a statement about all byte strings.", "anchors": ["src/tmf_importer.rs: TMFImportContext::import", "src/tmf_importer.rs: TMFImportContext::import_mesh", "src/tmf.rs: EncodedSegment::read"]}
{"id": "C69", "title": "The order of the segments of a mesh", "statement": "Rearranging the segments of a mesh in a file changes nothing about what is loaded, and nothing about whether loading panics, as long as any two segments that add to the same part of the mesh (the same array, or custom data) keep their order. Segments of the same kind are appended in the order of the file, so exchanging those does change the mesh.", "quantifier": "every file, every mesh of it, every such rearrangement; every segment contents, valid or not", "why_tests_cant": "The writer always writes segments in one order, so tests never see another; other writers may choose any.", "anchors": ["src/tmf_importer.rs: TMFImportContext::import_mesh", "src/tmf.rs: DecodedSegment::apply"]}
{"id": "C70", "title": "Loading from a source that works in pieces or fails", "statement": "What is loaded does not depend on how the source divides its bytes into pieces, nor on interruptions. When the source reports an error, the load either returns that error (its bytes end inside the file) or has not come to the error and gives what these bytes give whatever follows; no mesh comes from a source that fails inside the file. A load takes no more from the source than the file, so files stored one behind the other load one after the other.", "quantifier": "every file and every other sequence of bytes, every division into pieces, every number and place of interruptions, every point of failure", "why_tests_cant": "Tests read from files and slices, which deliver everything at once and never fail.", "anchors": ["src/tmf_importer.rs: TMFImportContext::import", "src/tmf_importer.rs: read_string", "src/read_extension.rs: read_u16", "src/lib.rs: read_tmf, read_tmf_one"]}
{"id": "C71", "title": "Saving to a sink that works in pieces or fails", "statement": "A sink that takes the bytes in pieces of any size, with interruptions, gets the same file as a buffer in memory. Any sink either gets the whole file, and the save succeeds, or gets a proper beginning of it, and the save returns the sink's error (a sink that takes nothing counts as an error). What a sink that refused holds does not load.", "quantifier": "every list of meshes, every precision, every sequence of answers of the sink", "why_tests_cant": "Tests write to memory or to a disk that is not full.", "anchors": ["src/tmf_exporter.rs: write_tmf, write_mesh, write_tmf_header", "src/tmf.rs: EncodedSegment::write"]}
{"id": "C72", "title": "OBJ sources and sinks that work in pieces or fail", "statement": "Importing OBJ text does not depend on how the source divides it into pieces, nor on interruptions. A source that fails makes the import fail, with the source's error or with that of a bad line before it. An export goes through a buffer: the sink gets the whole text and the export succeeds, or it gets a beginning of the text and the export returns the sink's error.", "quantifier": "every text, every division into pieces, every point of failure; every size of the buffer, every cut of the text into fragments, every sequence of answers of the sink", "why_tests_cant": "Tests read whole files and write to disks that are not full.", "anchors": ["src/obj.rs: read_from_obj, parse_line, write_obj"]}
{"id": "C73", "title": "Saving with double_precision, and files exchanged between builds", "statement": "What a program built with double_precision saves, it loads again: all the meshes in order and under their names, the same index arrays, arrays as long as they were, the same custom data (in the opposite order). A program built without the feature loads the same file with the same meshes, and a file saved without the feature loads in a program built with it. A save that is cut off leaves a beginning of the file, which neither program accepts. A release build saves the same bytes as one with overflow checks, unless the checks panic.", "quantifier": "every list of meshes of f64 within the limits of the format, every precision up to 30 bits for directions, every mathematical library; every point of failure of the sink", "why_tests_cant": "Tests are built with one set of features, so no test can save with one build and load with the other.", "anchors": ["Cargo.toml: features.double_precision", "src/lib.rs: FloatType, write_tmf, read_tmf", "src/tmf_exporter.rs: write_tmf, write_mesh", "src/tmf.rs: DecodedSegment::encode, decode"]}
{"id": "C74", "title": "How accurately double_precision stores numbers", "statement": "A program built with double_precision loads every texture coordinate between 0 and 1 within one step of the requested width and a rounding error of an f64, and 0 and 1 unchanged, for every width it accepts. Vertices inside the stored box move by little more than twice the requested fraction of the shortest edge, custom floats by little more than twice their precision and colour channels likewise. Coordinates and channels above 1 (up to 2^30) wrap into [0,1], moved down by whole turns of 2^w/(2^w-1) for a width of w bits; negative ones, NaN and minus infinity load as 0 and plus infinity as 1. The feature does not repair the stored box: the last vertex, or a single one, can load elsewhere, and the documented bound on edge lengths still fails along z.", "quantifier": "every list of meshes of f64 within the limits of the format, every precision in the stated range, every mathematical library with an accurate log2; for the refuted parts, every library and precision", "why_tests_cant": "The bounds range over all f64 inputs and over the rounding of every intermediate result.", "anchors": ["Cargo.toml: features.double_precision", "src/lib.rs: FloatType, TMFPrecisionInfo", "src/vertices.rs: save_tmf_vertices, read_tmf_vertices", "src/uv.rs: save_uvs, read_uvs", "src/custom_data.rs: CustomData"]}
{"id": "C75", "title": "The numbers in OBJ text", "statement": "Every float that the export prints, the import reads back unchanged: also negative zero, infinities and NaN, in both float types. The import accepts exactly the documented number syntax (sign, digits, point, exponent, or the words inf, infinity and nan) and reads the float nearest to the number, with an error of at most 2^-24 of it. The export prints the shortest decimal that is read back, and the nearest of those. Two spellings of the same number in a vertex, normal or texture coordinate give the same meshes.", "quantifier": "every float of 32 or 64 bits; every text of up to 60000 bytes; every spelling of a number, anywhere in a file", "why_tests_cant": "There are 2^32 or 2^64 floats and unboundedly many texts; the shortest decimal is defined by comparison with all others.", "anchors": ["src/obj.rs: parse_float_type, load_vec3, load_vec2, save_obj", "src/lib.rs: FloatType"]}
{"id": "C76", "title": "Normals and tangents with double_precision", "statement": "A program built with double_precision loads every unit normal and tangent within an angle given by its width, with length 1 up to 2^-47 and every component on its own side; the handedness of a tangent keeps its sign. A setting in degrees or radians fixes how far a normal can turn. The documented guarantee that the angle asked for is the largest one is still false: with 1 degree a unit normal can turn by more than 7. Width 0 loads every normal with length sqrt 3, and a z component one step above 1 loads as 0.", "quantifier": "every list of meshes of f64 within the limits of the format, every width that saves, every setting in the stated range, every mathematical library accurate to a few units in the last place", "why_tests_cant": "The bounds range over all unit vectors of f64 and over the rounding of every intermediate result.", "anchors": ["Cargo.toml: features.double_precision", "src/normals.rs: NormalPrecisionMode, normal_to_encoding, normal_from_encoding", "src/tangents.rs: save_tangents, read_tangents", "src/lib.rs: FloatType, TMFPrecisionInfo"]}
{"id": "C77", "title": "Saving a loaded mesh again", "statement": "Whatever is loaded from a saved file and saved again with the same widths any number of times keeps its UV coordinates bit by bit (for widths up to 24; with double_precision for every width that saves), the z component of its normals and tangents, and the handedness of tangents: the error is made once. With width 0 normals do not change any more either. The x and y components do not settle: on an accurate platform a normal saved with 5 bits loads with x = 0.05 the first time and with x = 0 the second.", "quantifier": "every list of meshes within the limits of the format, every number of cycles, and for each cycle its own platform and its own other settings", "why_tests_cant": "The claim is about every code of every width and about unboundedly many cycles.", "anchors": ["src/uv.rs: save_uvs, read_uvs", "src/normals.rs: normal_to_encoding, normal_from_encoding", "src/tangents.rs: save_tangents, read_tangents", "src/lib.rs: write_tmf, read_tmf"]}
{"id": "C78", "title": "Colours and floats in repeated saves", "statement": "Every save of a loaded colour or float array takes one bit more per value than the one before and loads with half the precision: after n+1 cycles the reported precision is the first one over 2^n. While the codes have at most 24 bits the values stay within little more than four times the first precision, and 1.0 (for floats the least and the greatest value) stays exactly. When they reach 25 bits, 1.0 is loaded as 0.0 and the greatest float as the least one. A mesh with colours cannot be saved and loaded more than 31 times in a checked build. Built with double_precision, the widths grow in the same way but up to the limit of 30 bits nothing is lost: 1.0 stays 1.0, the least float is kept, the greatest stays the greatest within one rounding error per save, and the values stay within little more than four times the first precision.", "quantifier": "every list of meshes within the limits of the format, every number of cycles, every settings and every platform whose log2 is accurate to a few units in the last place", "why_tests_cant": "The damage appears after up to 25 cycles that each look harmless, and the bound holds for every value and precision.", "anchors": ["src/custom_data.rs: CustomDataSegment, write, read", "src/lib.rs: write_tmf, read_tmf"]}
{"id": "C79", "title": "OBJ files between builds", "statement": "In a build with any of the index types and with either float type, exported meshes are imported again unchanged, and a file exported by one build is read by another with the same float type as the same meshes, if both index types have the numbers of all elements. Where the index type of the reader does not have a number, the import does not fail: it silently takes the first element instead, so a build with short_indices loads a file with 65536 vertices with a corner moved to the first vertex. A checked build panics when it exports as many vertices as its index type has numbers, after all faces were written.", "quantifier": "every float type with a faithful text form, every pair of index types, every list of exportable meshes, every file", "why_tests_cant": "Tests are built with one set of features, and files at the limit of an index type are too large for most of them.", "anchors": ["Cargo.toml: features.long_indices, short_indices, double_precision", "src/obj.rs: read_from_obj, load_indices, save_obj, save_objs", "src/model_importer.rs: ModelImporter", "src/lib.rs: IndexType, FloatType, read_from_obj, write_obj"]}
{"id": "C80", "title": "Saving and loading with the default settings", "statement": "Let a list of meshes be within the limits of the format, each with at least one vertex if it has a vertex array, with triangles that name existing vertices, a shortest edge of at least 2^-20 and no coordinate above 2^50 or above 100000 shortest edges. Saved with TMFPrecisionInfo::default() by any build, it loads in any build, and every mesh comes back under its name, with the same index arrays, with the same custom data in the opposite order, every UV in the unit square within a tenth of a pixel of a texture of 1024 pixels, every unit normal and unit tangent within an angle with a cosine of at least 0.9919 (7.3 degrees), and every x and y of a vertex inside the stored bounds moved by at most 0.2003 shortest edges plus 1.001e-6 and rounding (z as in C40).", "quantifier": "every list of meshes within the stated limits, every pair of builds and maths libraries", "why_tests_cant": "All meshes, all maths libraries with the stated accuracy, with and without overflow checks on both sides.", "anchors": ["src/lib.rs: TMFPrecisionInfo, write_tmf, read_tmf", "src/vertices.rs: VertexPrecisionMode", "src/normals.rs: NormalPrecisionMode", "src/uv.rs: UvPrecisionMode", "src/tangents.rs: TangentPrecisionMode"]}
{"id": "C81", "title": "Data that needs more bits than the format has", "statement": "What a build without overflow checks has saved is, in every build, either loaded with the same meshes, names, index arrays and array lengths or refused with the error that names a width of 64 bits or more. A mesh with a triangle that has two corners in one place is refused so by every build, and a checked build panics when it is saved, although verification accepts such a mesh; the same holds for a vertex precision of zero and for custom floats with the precision zero that are not all equal. Custom colours with the precision zero are saved by an unchecked build in a file on which a checked build panics and which an unchecked build loads with all channels zero. Custom floats whose range is between 2^33 and 2^59 times their precision are saved by an unchecked build and loaded by every build, all of them as the least one up to rounding. All this holds with the feature double_precision too.", "quantifier": "every list of meshes within the stated limits, every pair of builds, every settings for normals, UVs and tangents of at most 30 bits, every platform whose log2 of infinity is infinity", "why_tests_cant": "Each case needs a build with other overflow settings for saving than for loading, and the claim that a file is loaded whole or refused is about all files of this kind.", "anchors": ["src/vertices.rs: save_tmf_vertices, read_tmf_vertices", "src/custom_data.rs: write, read", "src/tmf_exporter.rs: calc_shortest_edge", "src/verify.rs: verify_tmf_mesh", "src/lib.rs: write_tmf, read_tmf, TMFImportError, FloatType"]}
{"id": "C82", "title": "Normalising and verifying with double precision", "statement": "In a program built with the feature double_precision, normalize() changes nothing but the normals and turns every normal with components of at most 2^50, one of them at least 2^-50, into a vector of length 1 and of the same direction, both up to 2^-49; the result passes verification if the indices do. Saved and loaded, it points where the original did, up to the error of the format. Vectors with all components below 2^-538 become infinite or NaN, those with one above 2^512 become zero, and a vector with a NaN becomes zero. Verification accepts a finite normal whose true length is within 0.001 - 2^-49 of 1 and reports one that is off by 0.001 + 2^-49, reports infinite components, and accepts NaN; it reports exactly the missing arrays and the first index beyond each array, never a UV, and never panics.", "quantifier": "every mesh, every normal with f64 components, every precision setting the save accepts", "why_tests_cant": "All triples of f64, including the limits of the exponent range, where the squares overflow or vanish.", "anchors": ["Cargo.toml: features.double_precision", "src/lib.rs: FloatType, TMFMesh::normalize, TMFMesh::verify", "src/normals.rs: normalize_arr", "src/utilis.rs: magnitude, normalize", "src/verify.rs: verify_tmf_mesh"]}
{"id": "C83", "title": "Editing meshes with double precision", "statement": "In a program built with the feature double_precision, setting, appending and getting attributes and custom data follow the history of calls; the buffers are the data looked up through the indices; reordering and unifying keep every buffer, leave no unused or duplicate entries, are idempotent, and panic exactly when an index array does not fit (as C25 to C28 and C30 to C32 say without the feature). A mesh that passes verification and has no index equal to a length has all its buffers.", "quantifier": "every mesh with f64 components, every history of calls", "why_tests_cant": "All meshes and histories.", "anchors": ["Cargo.toml: features.double_precision", "src/lib.rs: FloatType, TMFMesh::reorder_data, TMFMesh::unify_index_data, TMFMesh::get_vertex_buffer, TMFMesh::set_vertices, TMFMesh::append_vertices, TMFMesh::add_custom_data, TMFMesh::lookup_custom_data", "src/unify_data.rs: smart_merge_data_4", "src/utilis.rs: optimize_triangle_indices"]}
{"id": "C84", "title": "Which saves with double precision panic", "statement": "In a program built with the feature double_precision, saving to a sink that does not fail never returns an error. It panics when a mesh's vertex array is present but empty, when a corner of a triangle does not exist, or when it has vertex indices but no edge of finite length; verification does not find this. Without overflow checks there is no other panic, whatever the precisions. With them, meshes without vertices are saved with precisions of up to 30 bits, and meshes with vertices as well if no coordinate is above 2^50 or above 2^28 shortest edges times the precision (without the feature the proved limit is 2^20) and the shortest edge is not below 2^-20. A mesh is stored in at most 8 more segments than it has vertices, indices and custom data entries.", "quantifier": "every list of meshes with f64 components, every precision setting, both overflow modes", "why_tests_cant": "All meshes.", "anchors": ["Cargo.toml: features.double_precision", "src/tmf_exporter.rs: calc_shortest_edge, write_mesh", "src/vertices.rs: save_tmf_vertices", "src/verify.rs: verify_tmf_mesh"]}
{"id": "C85", "title": "Default settings with double precision", "statement": "In a program built with the feature double_precision, let a list of meshes be within the limits of the format, each with at least one vertex if it has a vertex array, with triangles that name existing vertices, a shortest edge of at least 2^-20 and no coordinate above 2^50 or above 25 million shortest edges. Saved with TMFPrecisionInfo::default() by any build with the feature, it loads in any such build, and every mesh comes back under its name, with the same index arrays, with the same custom data in the opposite order, every UV in the unit square within a tenth of a pixel of a texture of 1024 pixels, every unit normal and unit tangent within an angle with a cosine of at least 0.9919, and vertices moved as C74 says with a tenth of the shortest edge.", "quantifier": "every list of meshes within the stated limits, every pair of builds and maths libraries", "why_tests_cant": "All meshes, all maths libraries with the stated accuracy, with and without overflow checks on both sides.", "anchors": ["Cargo.toml: features.double_precision", "src/lib.rs: TMFPrecisionInfo, write_tmf, read_tmf", "src/vertices.rs: VertexPrecisionMode", "src/normals.rs: NormalPrecisionMode", "src/uv.rs: UvPrecisionMode", "src/tangents.rs: TangentPrecisionMode"]}
{"id": "C86", "title": "Files as the published specification describes them", "statement": "A file laid out as TMF_SPEC.md (version 0.1) describes loads: the meshes in order under their names, index arrays of any width below 64 bits other than 32 exactly, coordinates of 1 to 63 bits at min + code/(2^bits-1)*(max-min) up to rounding (2^-19 of the largest bound of a box, 2^-48 with the feature double_precision), and segments that are to be ignored leaving no trace. Two things the document allows do not work: indices stored with 32 bits are lost without an error, and a file with an omitted normal triangle segment is refused.", "quantifier": "every file of that layout with box bounds up to 2^125 (2^1000 with double_precision), whatever follows it, every build", "why_tests_cant": "All files another program may have written from the document alone.", "anchors": ["TMF_SPEC.md", "src/tmf_importer.rs: import, import_mesh, init_header", "src/vertices.rs: read_tmf_vertices", "src/tmf_importer.rs: read_default_triangles", "src/tmf.rs: decode"]}
{"id": "C87", "title": "Reordering and unifying before saving", "statement": "Take a mesh within the limits of the format whose index arrays have one common length and name existing elements. Reordering and unifying may then be called any number of times in any order: no call panics, and the mesh stays within those limits. If each mesh of a list was prepared in this way, saving with the default settings and loading gives the names and custom data, and the vertex, normal and UV buffers agree entry by entry with the buffers of the mesh before the calls: UVs within a tenth of a pixel of a texture of 1024 pixels, unit normals within an angle with a cosine of at least 0.9919, points as far as C80 says. The same holds in double_precision builds with the accuracy of those.", "quantifier": "every such list of meshes, every sequence of calls on each mesh, every pair of builds and maths libraries", "why_tests_cant": "All meshes and all sequences of calls; the calls renumber and duplicate data, so only the buffers can be compared.", "anchors": ["src/reorder_triangles.rs", "src/unify_data.rs", "src/lib.rs: TMFMesh::reorder_data, TMFMesh::unify_index_data, TMFMesh::get_vertex_buffer", "src/tmf_exporter.rs: write_mesh"]}
{"id": "C88", "title": "What every OBJ text gives", "statement": "Whatever an OBJ text contains, if its import succeeds, every mesh has vertices, normals and UVs with index arrays of the same number of whole triangles (at least one, except perhaps in the last mesh), nothing else, and a name of one word of UTF-8. It can always be exported again (with overflow checks, if the numbers fit 32 bits). If all indices name existing elements, the last mesh has a face and no name ends with a carriage return, importing the exported text gives exactly the same list; without the last two conditions it need not. Such meshes can be reordered, unified, saved with the default settings and loaded with the accuracy of C87. Shape, export and second import are the same in builds with any float and index type, also when the second import is by a build with another index type.", "quantifier": "every OBJ text, every way floats are printed and parsed, with and without triangulation, every float and index type", "why_tests_cant": "All texts; a test imports the few files at hand.", "anchors": ["src/model_importer.rs", "src/obj.rs: save_obj", "src/lib.rs: TMFMesh::read_from_obj, TMFMesh::write_obj"]}
{"id": "C89", "title": "The text of an integrity error", "statement": "The text that an error of TMFMesh::verify prints (Display, Debug, unwrap) tells which errors there are: errors that print the same text are equal, with the same indices and array lengths, for single and for composite errors however nested.", "quantifier": "every pair of integrity errors and every pair of meshes that fail verification", "why_tests_cant": "All indices, lengths and nestings; texts of different errors might coincide for some numbers.", "anchors": ["src/verify.rs: TMFIntegrityStatus, write_composite_error", "src/lib.rs: TMFMesh::verify"]}
{"id": "C90", "title": "Custom floats that are not numbers", "statement": "In a custom float array NaNs do not disturb the other values: these load within the bounds of C42 (C74 in double precision builds), taken over the other values alone. No NaN survives: each loads as the least of the other values. If all values are NaN they load as f32::MAX (as NaN in double precision builds). If any value is infinite the array cannot be stored with any precision: with overflow checks the save panics, and without them the file it writes is refused by every build with an invalid precision of 64 bits or more.", "quantifier": "every float array with NaNs or infinities anywhere, every list of meshes around it, every requested precision, every platform with an accurate log2 that maps infinity to infinity", "why_tests_cant": "All arrays; special values propagate through the range, the width and the codes.", "anchors": ["src/custom_data.rs: CustomData::CustomFloat, write, read"]}
{"id": "C91", "title": "Accuracy across builds", "statement": "A file saved by a double precision build and loaded by a default build, or the other way round, brings back the numbers that were saved about as accurately as within one build: texture coordinates from 0 to 1 within one step of the width asked for and 2^-21, unit normals and tangents with the scalar product bound of C35 less 2^-8 and the third coordinate within a step, custom floats within 2.002 times the precision asked for plus a rounding error relative to the largest value, and colour channels from 0 to 1 within 2.002 times the precision plus rounding. From double to default a channel of 1 stays 1 and channels stay in the unit range. Vertices move by at most 2.003 times the requested fraction of the shortest edge (times the ratio of the z and y extents of the piece on the third axis), 0.000001002 and 2^-18 of the largest coordinate, on the first two axes for coordinates within the stored box.", "quantifier": "every list of meshes that can be stored, every width or precision asked for (up to 24 bits when saved by a default build), every pair of platforms with accurate enough functions, builds with and without overflow checks", "why_tests_cant": "The two builds compute in different types from the same bits; the error is the sum of two quantisations over all inputs.", "anchors": ["src/tmf_importer.rs", "src/uv.rs: read_uvs", "src/normals.rs: normal_from_encoding", "src/vertices.rs: read_tmf_vertices", "src/custom_data.rs", "src/lib.rs: FloatType"]}
{"id": "C92", "title": "Custom data made from a slice", "statement": "CustomData can be made directly from a slice of indices, floats or colours, without a largest index or a precision. Up to 2^27 indices below 2^31, under a name of 1 to 255 bytes, are always within the limits of the format, and load exactly and with their largest. Floats that span up to 83000 (2^53 in a double precision build) load within 0.0201 plus 2^-20 (2^-48) of the largest absolute value, equal floats exactly. Colour channels from 0 to 1 load within 0.008 and within the unit range; in a double precision build a channel of 1 stays 1.", "quantifier": "every slice, every platform with an accurate log2, builds with and without overflow checks and with and without double_precision", "why_tests_cant": "All slices; the error depends on the range of the values.", "anchors": ["src/custom_data.rs: From<&[IndexType]>, From<&[FloatType]>, From<&[Vector4]> for CustomData, new_index"]}
