{"claims": [
{"property": "C01", "status": "proved", "theorems": ["C01_lru_cache"], "note": "All capacities (including 0), all call sequences; a dangling list iterator would show up as undefined behaviour and is excluded by the theorem."},
{"property": "C02", "status": "proved", "theorems": ["C02_string_id_stable", "C02_embedded_nul_refuted"], "note": "Any 32-bit hash, any cache capacity >= 1, reopening included; NUL-free strings, < 2^32 bytes of distinct strings, and (no empty string or no lookup of an unallocated id). Strings with an embedded NUL get a new id each time (refutation theorem)."},
{"property": "C03", "status": "proved", "theorems": ["C03_string_ids_distinct_dense", "C03_empty_string_refuted", "murmur_is_32_bit"], "note": "Same conditions as C02; the empty string together with a lookup of an unallocated id breaks it (witness with the real hash function)."},
{"property": "C04", "status": "partial", "theorems": ["C04_string_lookup_partial", "C04_string_lookup_or_empty_partial", "C04_string_lookup_refuted"], "note": "False in general: a lookup before allocation caches an empty string. Proved when ids are only looked up after allocation; otherwise the answer is the string or empty."},
{"property": "C05", "status": "proved", "theorems": ["C05_element_roundtrip", "C05_long_way_is_cut"], "note": "Round trip iff all lists fit in 65535 entries; longer ways come back cut to n mod 65536."},
{"property": "C06", "status": "proved", "theorems": ["C06_elements_self_delimiting", "C06_unknown_type", "C06_reader_terminates"], "note": "Whitespace before the type byte is skipped, other unknown type bytes raise domain_error."},
{"property": "C07", "status": "proved", "theorems": ["C07_mesh_roundtrip", "C07_second_cycle_exact"], "note": "Rounding stated in the reals through Flocq; uses the axioms of Coq's real numbers."},
{"property": "C08", "status": "proved", "theorems": ["C08_file_roundtrip", "C08_search_after_load", "C08_empty_file", "C08_read_ends"], "note": "Round trip of a non-empty index for every value of the uninitialised key; an empty or missing file yields one entry under an arbitrary id (C08_empty_file)."},
{"property": "C09", "status": "partial", "theorems": ["C09_search_partial", "C09_terms", "C09_many_refuted"], "note": "Exact answer of every query, including the case where and-terms and or-terms are combined. False for tiles with more than 1048544 elements queried with not-terms (C09_many_refuted: a tile of 2^20 elements, whatever the ids): elements with the not-term are told and elements without it left out."},
{"property": "C10", "status": "partial", "theorems": ["C10_set_enumerate", "C10_set_refused", "C10_set_accepted", "C10_and_or", "C10_bitmap_algebra_partial", "C10_xor_refuted"], "note": "Word-level model of the run-length encoded bitmap. set/enumerate, and, or proved for all inputs. xor proved for operands below 32767 words; beyond that the claim is false (C10_xor_refuted): literal words pushed after the literal counter overflows are not negated."},
{"property": "C11", "status": "proved", "theorems": ["C11_search", "C11_hasData", "C11_total"], "note": "Elements are values in the model; a stored Relation shares its member objects with the caller, so mutating members after storing is outside."},
{"property": "C12", "status": "proved", "theorems": ["C12_agree", "C12_hasData", "C12_cancelled_refuted", "C12_text_refuted", "C12_hasData_refuted"], "note": "For any cache size of at least one (the code has 12). The file system works, the level directories exist, .dat and .idf come and go together; the .bmp file is C08. The three _refuted theorems show what happens outside the stated histories."},
{"property": "C13", "status": "proved", "theorems": ["C13_memory", "C13_disk"], "note": "The token is an arbitrary sequence of answers; the search ends exactly at the first positive one. On disk for the histories of C12."},
{"property": "C14", "status": "partial", "theorems": ["C14_range", "C14_box", "C14_tile", "C14_centres", "C14_success", "C14_success_writes_partial", "C14_success_refuted"], "note": "Proved except that success is reported as soon as a tile is touched: with a clipping style nothing may be written (refuted). Tile functions are parameters satisfying C16 and C20; that centres tell tiles apart is proved in exact arithmetic. Styles and the clipper are parameters."},
{"property": "C15", "status": "partial", "theorems": ["C15_tile", "C15_tile_kept", "C15_level", "C15_erase", "C15_range_refuted", "C15_box_refuted", "C15_exception_refuted"], "note": "Proved for one tile; the range and bounding-box variants throw and keep the elements, and a parser exception prevents the roll-back (refuted). The parser is an arbitrary sequence of elements."},
{"property": "C16", "status": "proved", "theorems": ["C16_valid_tile", "C16_valid_tile_exact"], "note": "Binary64 rounding of every operation; tan, cos, log may err by 2^-50 relatively. The level is unbounded, so 1..19 is included."},
{"property": "C17", "status": "proved", "theorems": ["C17_own_box", "C17_roundtrip", "C17_borders"], "note": "Exact arithmetic, as stated; coordinates beyond the clamping limits are excluded."},
{"property": "C18", "status": "proved", "theorems": ["C18_string_shape", "C18_string_unique", "C18_string_parent"], "note": "Levels up to 31; beyond that the mask overflows an int."},
{"property": "C19", "status": "proved", "theorems": ["C19_comparator", "C19_equality"], "note": ""},
{"property": "C20", "status": "proved", "theorems": ["C20_visit", "C20_visit_exact"], "note": "C20_visit holds for every projection, hence with rounding; C20_visit_exact identifies the tiles in exact arithmetic."},
{"property": "C21", "status": "proved", "theorems": ["C21_smallest", "C21_element", "C21_order", "C21_idempotent", "C21_intersects"], "note": "Outside the globe the default box shows through (C21_limits)."},
{"property": "C22", "status": "proved", "theorems": ["C22_range", "C22_default", "C22_levels"], "note": ""},
{"property": "C23", "status": "proved", "theorems": ["C23_lookup", "C23_hasTag", "C23_hasIgnore", "C23_imported", "C23_setTags", "C23_string", "C23_safe", "C23_raw_refuted", "C23_raw_tags"], "note": "Sorted tag lists; C23_imported shows that imported tags are sorted; C23_raw_refuted is the unsorted case named in the statement."},
{"property": "C24", "status": "proved", "theorems": ["C24_cascade", "C24_builders", "C24_accepts", "C24_ids"], "note": "For every string table, number reader and condition order. Identifier rules replace all others, and the first of them wins. Ids in text are in C24_ids."},
{"property": "C25", "status": "proved", "theorems": ["C25_hasStyle"], "note": "Identifier rules without declarations do not count, as in the code."},
{"property": "C26", "status": "partial", "theorems": ["C26_single_edit_partial", "C26_fingerprint_refuted", "C26_textures_refuted"], "note": "False in general: fields are concatenated without separators and textures and L-systems are not hashed. Proved: editing one declaration value of a rule covering some level changes the hashed text. Missing: all other pairs, and anything about MD5."},
{"property": "C27", "status": "proved", "theorems": ["C27_replay", "C27_paths"], "note": "Written with the cache and fetched again: the same records up to single-precision rounding of mesh numbers, in order; distinct tiles use distinct paths."},
{"property": "C28", "status": "partial", "theorems": ["C28_served_is_complete", "C28_fetch_defined_partial", "C28_empty_refuted", "C28_concurrent_refuted", "C28_abandoned"], "note": "Crash and cancellation never make an incomplete file served when a tile is built by one session at a time; missing: fetch is undefined on a zero-length file left by a crash (C28_empty_refuted), and building one tile under two styles at once serves an incomplete file (C28_concurrent_refuted)."},
{"property": "C29", "status": "partial", "theorems": ["C29_at_most_once", "C29_only_styled", "C29_built", "C29_lifecycle", "C29_styles_fit", "C29_clipped_refuted", "C29_nested_refuted"], "note": "Proved for elements that carry an id; false for clipped multi-part elements, whose parts have id 0 (built again when delivered twice, lost when nested in a relation without tags)."},
{"property": "C30", "status": "proved", "theorems": ["C30_empty", "C30_no_sharing", "C30_choice", "C30_release"], "note": ""},
{"property": "C31", "status": "proved", "theorems": ["C31_call", "C31_sequence"], "note": "Every call adds exactly the described vertices and faces to a well formed mesh and keeps the others; hence every sequence. Trusted: the triangles returned by the Triangle library index its points. Fewer than 2^30 vertices."},
{"property": "C32", "status": "partial", "theorems": ["C32_partial", "C32_refuted"], "note": "The front face is as required; the back face is degenerate (third corner twice, then the second)."},
{"property": "C33", "status": "partial", "theorems": ["C33_closed", "C33_points", "C33_open", "C33_missing_refuted", "C80_way"], "note": "Proved for every way whose nodes are in the data; counter-clockwise in exact arithmetic. A way with an unknown node is undefined behaviour (refuted). The rounded sums of doubles are in C80, which refutes the orientation of rings of a few centimetres."},
{"property": "C34", "status": "partial", "theorems": ["C34_rings", "C34_complete", "C34_lost", "C34_trailing_refuted", "C34_areas", "C34_two_levels", "C34_island_refuted", "C34_orientation", "C34_defined", "C34_simple", "C34_process", "C80_multipolygon"], "note": "Proved for all inputs: rings are closed, made of input segments used at most once; used exactly once iff every place is the end of an even number of ways (otherwise segments are lost without notice: refuted); every ring becomes one area; there always is an outer ring (no null dereference); rings are classified right without islands, and depending on order with them (refuted). Orientation is shown for exact arithmetic here and for doubles in C80, which refutes it for rings of a few centimetres."},
{"property": "C35", "status": "partial", "theorems": ["C35_resolved", "C35_added", "C35_plain_all", "C35_duplicates_refuted", "C35_cycle_refuted", "C35_self_refuted", "C35_ids_refuted"], "note": "Proved for acyclic data without ids shared between relations and node or way members, any kinds of relations, any order of the hash map: resolution ends and the elements are as specified. Refuted: cycles of three, self-references of buildings, ids shared between kinds, and members that are duplicated when a multipolygon or building is a member of another relation."},
{"property": "C36", "status": "proved", "theorems": ["C36_word", "C36_deterministic", "C36_every_word", "C36_parsed"], "note": "Random draws are an oracle returning an index of the alternatives (std::discrete_distribution with a positive sum of weights)."},
{"property": "C37", "status": "partial", "theorems": ["C37_balanced", "C37_pair", "C37_undefined", "C37_unbalanced_refuted", "C37_style_refuted"], "note": "Safety, exact characterisation of undefined behaviour and restoring of the state are proved; the drawing style is not restored (C37_style_refuted)."},
{"property": "C38", "status": "partial", "theorems": ["C38_length", "C38_product", "C38_axis", "C38_euler", "C38_rotate_refuted"], "note": "Exact real arithmetic. The in-place rotate method does not compute the product (C38_rotate_refuted)."},
{"property": "C39", "status": "partial", "theorems": ["C39_between", "C39_point", "C39_safe", "C39_single_refuted", "C39_step_refuted", "C39_outside_refuted"], "note": "Exact rationals for doubles, checked 32-bit int. Proved for grids of at least 2x2 heights whose step is at least one unit of 1e-7 degrees (goodTile). Refuted: a grid with one height and a step below 1e-7 degrees are undefined; positions west or south of the tile are extrapolated without bound."},
{"property": "C40", "status": "partial", "theorems": ["C40_decode", "C40_decode_refuted", "C40_cell_partial", "C40_south_refuted", "C40_west", "C40_key", "C40_file", "C40_file_refuted", "C40_neighbour_refuted", "C40_found"], "note": "C40_decode characterises the decoding of all byte pairs; wrong exactly for low bytes of 128 and more with a high byte other than 255. Missing from the full claim: positions south or west of zero read past the data or from the wrong file, the first degrees north and east use a wrong file name, and a position outside of the degrees of the tile is undefined. C40_cell_partial holds north and east of zero for samples with low bytes below 128."},
{"property": "C41", "status": "partial", "theorems": ["C41_inside", "C41_small_relations_refuted", "C41_id", "C41_tags", "C41_coordinates", "C41_idempotent", "C41_outside", "C41_crossing_refuted", "C41_parts", "C41_rectangle", "C41_faithful"], "note": "Proved over any clipping library; false for relations with fewer than two members (replaced by the member or dropped), and a way that crosses the tile without a vertex in it is dropped."},
{"property": "C42", "status": "proved", "theorems": ["C42_string_table_crash", "C42_unordered_crash_refuted", "C42_torn_index_refuted"], "note": "Crashes that keep whole index entries and lose data only of strings whose entry is lost; both other kinds are refuted by witnesses."},
{"property": "C43", "status": "proved", "theorems": ["C43_cut_record_accepted"], "note": "Exact behaviour of the reader on cut node, way and area records."},
{"property": "C44", "status": "partial", "theorems": ["C44_add_after_load_partial", "C44_single_marker_partial", "C44_add_after_load_refuted"], "note": "False in general (refuted with a concrete tile of 96 elements): loading does not restore lastRLW. Holds for loaded tiles of at most 32 elements and for bitmaps with a single marker."},
{"property": "C45", "status": "proved", "theorems": ["C45_register", "C45_search", "C45_unknown"], "note": "Over in-memory stores."},
{"property": "C46", "status": "proved", "theorems": ["C46_canvas"], "note": ""},
{"property": "C47", "status": "proved", "theorems": ["C47_texture", "C47_random"], "note": ""},
{"property": "C48", "status": "proved", "theorems": ["C48_write", "C48_copy", "C48_unwritten_refuted"], "note": "Includes merged records; the gap case is shown by a witness."},
{"property": "C49", "status": "partial", "theorems": ["C49_rings", "C49_found", "C49_hole_refuted"], "note": "Rings hold when an inner point is given for every hole; a slim rhombus is a hole for which none is found."},
{"property": "C50", "status": "partial", "theorems": ["C50_arc", "C50_ends", "C50_roof", "C50_far_refuted", "C50_opposite_refuted"], "note": "Exact real arithmetic; refuted for quaternions more than a right angle apart."},
{"property": "C51", "status": "partial", "theorems": ["C51_forward", "C51_scale", "C51_turns", "C51_undo", "C51_plane_refuted", "C51_locked_refuted"], "note": "Exact real arithmetic; pitch and roll are refuted."},
{"property": "C52", "status": "partial", "theorems": ["C52_pack", "C52_unpack", "C52_add", "C52_hex", "C52_short_refuted"], "note": "Packing, sums and six-digit colours proved for all inputs; shorter hexadecimal colours refuted. Texts of gradients are in C76."},
{"property": "C53", "status": "partial", "theorems": ["C53_evaluate", "C53_stop", "C53_constant", "C53_dark_refuted", "C53_after_refuted", "C53_same_time_refuted"], "note": "Exact rationals for doubles. Refuted after the last stop (extrapolation, characterised exactly), for equal times and for equal neighbouring colours (one darker). Rounding is in C85."},
{"property": "C54", "status": "partial", "theorems": ["C54_language", "C54_left", "C54_precedence_refuted", "C54_text", "C54_evaluated", "C54_raw", "C54_letters_refuted", "C54_empty_refuted", "C54_missing_refuted", "C54_tag"], "note": "The grammar is modelled with the semantics of Boost.Spirit (Peg.v); qi::double_ and boost::lexical_cast are parameters, the former under goodNumber, shown satisfiable."},
{"property": "C55", "status": "partial", "theorems": ["C55_dense_exact", "C55_dense_partial", "C55_dense_refuted", "C55_node", "C55_way", "C55_relation", "C55_block", "C55_file", "C55_cut", "C55_ends", "C55_raw_refuted", "C55_big_refuted", "C55_size", "C55_negative_refuted"], "note": "Round trips are proved for plain nodes, ways, relations and, with zero offsets, dense nodes; files and cuts are covered. Refuted: with an offset every dense node after the first is misplaced; raw blobs always fail; data over 32 MB and negative sizes are undefined; a cut leaving fewer than four bytes goes unnoticed."},
{"property": "C56", "status": "partial", "theorems": ["C56_polygon_partial", "C56_polygon_refuted", "C56_start_refuted", "C56_arc", "C56_file", "C56_broken", "C56_open_refuted", "C56_elements"], "note": "Polygons are split right if reading one entry beyond the starts is harmless. Refuted: that entry is read for every polygon whose last ring has two vertices or more; a first start other than 0 is undefined; arcs of several parts are dropped; files stay open after a failure."},
{"property": "C57", "status": "partial", "theorems": ["C57_document_partial", "C57_broken", "C57_height_refuted", "C57_kinds_refuted", "C57_point_refuted", "C57_twice_refuted", "C57_sign_refuted", "C57_closed_refuted"], "note": "Proved for distinct names without points. Refuted: a name with a point makes the import fail, a repeated name is told twice, ids n and -n collide, a closed line of a MultiLineString becomes an area, heights and other kinds of geometry are refused."},
{"property": "C58", "status": "partial", "theorems": ["C58_written_partial", "C58_explained", "C58_depth", "C58_unnoticed", "C58_reported", "C58_missing_file", "C58_lost_refuted", "C58_semicolon_refuted", "C58_blank_refuted", "C58_level_refuted", "C58_letters_refuted", "C58_import_refuted", "C58_cycle_refuted"], "note": "Proved: cleanly written sheets give what they write, every accepted sheet is explained by a prefix written with laxer words, depth does not matter once enough, missing textures and L-systems throw, rules which go wrong behind their beginning throw. False in general: text from the first item that is not understood is dropped silently, missing imports are ignored, cyclic imports recurse for ever, levels are cut to eight bits, blanks become part of keys, letters outside ASCII throw."},
{"property": "C59", "status": "partial", "theorems": ["C59_document_partial", "C59_explained", "C59_told", "C59_range", "C59_nodeless_refuted", "C59_order_refuted", "C59_empty_refuted", "C59_attributes_refuted", "C59_bounds_refuted", "C59_entities_refuted", "C59_members_refuted"], "note": "Proved for all texts: documents of the stated form are told exactly, everything told (also before an exception) comes from the text, and the maps which can be imported are characterised exactly. Missing: false for documents which are valid OSM XML but have no node or bounds, ways before nodes (lost silently), ways without nodes, relations without members, empty or oddly named attributes, another order of attributes, negative identifiers or entities."},
{"property": "C60", "status": "partial", "theorems": ["C60_understood_partial", "C60_explained", "C60_told", "C60_written", "C60_empty_line_refuted", "C60_unknown_refuted", "C60_comment_refuted", "C60_head_comment_refuted", "C60_names_refuted", "C60_blanks_refuted"], "note": "Parsing succeeds exactly on the texts of the grammar in LsysParseSpec followed by something which cannot continue them, with the meaning given there; everything else is reported, and every system with proper names can be written. Missing because it is false: lines behind an empty line or an unknown character are dropped silently, a comment at the end of a line joins the next line, names beginning with F or G are split, tabulators, carriage returns and empty lines below the axiom are rejected."},
{"property": "C61", "status": "partial", "theorems": ["C61_read_partial", "C61_explained", "C61_told", "C61_random", "C61_default_refuted", "C61_rest_refuted", "C61_broken_refuted", "C61_names_refuted", "C61_wide_refuted", "C61_overflow_refuted"], "note": "For every conversion of doubles which keeps numbers that fit, texts of the grammar in AtlasSpec with such numbers are read as written, everything read is written, and exactly the other texts are reported. Missing because it is false: by the standard every construction is undefined (the default rectangle), what follows a broken line is dropped silently, lines without a comma and blanks become parts of names, sizes are cut to 16 bits."},
{"property": "C62", "status": "partial", "theorems": ["C62_taken", "C62_one_partial", "C62_many_partial", "C62_sphere_partial", "C62_centroid", "C62_west_refuted", "C62_south_refuted"], "note": "With exact arithmetic, for footprints which reach the quarter of the map with positive longitudes and latitudes. Missing because it is false: to the west of the prime meridian or the south of the equator the default rectangle (maximum = least positive number) stretches the footprint to the meridian or the equator, so the part is put half-way there. The centroid is right everywhere. Rounding of the divisions is not modelled."},
{"property": "C63", "status": "partial", "theorems": ["C63_sphere_closed", "C63_sphere_shape", "C63_level_refuted", "C63_half_partial", "C63_half_refuted", "C63_cylinder_closed", "C63_cone_closed", "C63_cylinder_shape", "C63_cylinder_outward", "C63_cylinder_segments"], "note": "Closedness of spheres and capped cylinders holds for any arithmetic; shape and orientation in exact reals. Refuted: every recursion level from 1 on gives the same 80 triangles, and half of a sphere reaches below its centre by more than half of its height. Vertex noise (0 in all builders) and NaN are left out."},
{"property": "C64", "status": "partial", "theorems": ["C64_split", "C64_exact_partial", "C64_cells_partial", "C64_reverse_partial", "C64_contour_partial", "C64_reverse_refuted", "C64_negative_refuted", "C64_empty_refuted"], "note": "In exact arithmetic. The points are nodes of the side in strict order and every node is within the epsilon of double of one of them; they are exactly the nodes, the same in both directions, if different nodes are not so near to each other. Refuted without that: the end may be left out for a grid line just before it. A negative cell size never ends; a contour without points is undefined. Rounding is in C82."},
{"property": "C65", "status": "partial", "theorems": ["C65_highest_partial", "C65_alone_partial", "C65_background_partial", "C65_once_partial", "C65_total_partial", "C65_parts", "C65_null_refuted", "C65_orientation_refuted", "C65_layer_refuted", "C65_area_refuted", "C65_extras_refuted", "C65_walls_refuted"], "note": "Proved for elements which run the right way round, any nesting of relations and any clipper with exact results: the highest sort order gets a point, surfaces do not overlap, the background has the rest. Refuted: areas in opposite directions overlap or leave holes, regions without layer are not sorted by area, an empty terrain-layer reads a null pointer, unknown extras throw, walls of a named mesh go to the terrain's. Rounding of the clipper library and simplification of nearly straight corners are not modelled."},
{"property": "C66", "status": "partial", "theorems": ["C66_trees", "C66_lamps", "C66_lamps_narrow", "C66_spacing", "C66_wall", "C66_parts", "C66_covered", "C66_box", "C66_style", "C66_pillars_partial", "C66_short_refuted", "C66_empty_refuted", "C66_step_refuted", "C66_zero_refuted", "C66_area_refuted", "C66_elevation_refuted"], "note": "Proved for any distance and elevation in exact arithmetic: number, places and spacing of copies, the pieces of walls and their boxes, styles of relations. Refuted: pillars of a way are raised by the elevation of its first point once more; a wall around an area is open; ways whose sides are shorter than the step get nothing; a way without coordinates is read beyond its end; a step or length of zero is undefined."},
{"property": "C67", "status": "partial", "theorems": ["C67_distance", "C67_metric", "C67_triangle_partial", "C67_triangle_refuted", "C67_radius", "C67_parallel_refuted", "C67_offset", "C67_offset_equator", "C67_east_refuted", "C67_world_north", "C67_world_east", "C67_evenly", "C67_scaled"], "note": "Proved in exact arithmetic: the distance is an arc of a great circle with a radius between polar and equatorial, symmetric and zero for the same place only; the triangle inequality up to 0.34 percent; offsets north and world positions with their error. Refuted: the radius used is that of the difference of latitudes, so on a parallel it is the equator's, and the triangle inequality fails by up to that ratio; an offset in degrees is only half as far to the east at 60 degrees."},
{"property": "C68", "status": "partial", "theorems": ["C68_tile", "C68_closed", "C68_element_closed", "C68_faces", "C68_upside_down_refuted", "C68_clockwise_refuted", "C68_courtyard_refuted", "C68_type_refuted", "C68_nothing_refuted", "C68_member_refuted", "C68_empty_refuted"], "note": "One mesh per element, its contents, closed bodies and facing are proved for parts with flat walls and flat or pyramidal roofs (other roofs take part as any calls on the mesh). Refuted: an unknown roof or facade type and a part without points are undefined behaviour, a node or way in a multipolygon throws, a relation of other things gets an empty mesh, a height below min-height or a clockwise area turns walls inside out, a pyramidal roof leaves a courtyard open."},
{"property": "C69", "status": "partial", "theorems": ["C69_mansard", "C69_mansard_closed", "C69_nearest_refuted", "C69_round", "C69_round_hole", "C69_round_closed", "C69_more_points_refuted", "C69_ends_refuted", "C69_skillion", "C69_front_unique", "C69_heights", "C69_skillion_closed", "C69_outlines_refuted"], "note": "Proved: what each roof draws, that mansard and skillion roofs close every part of one outline with flat walls, and round roofs every part of four points with parallel ends (but for two triangles without area). Refuted: the first point of a mansard roof is only searched in the first half of the outline, so slopes may face down; a round roof does not reach the other points of an outline of more than four, nor a corner if its ends are not parallel; a skillion roof is drawn once per outline over all of them."},
{"property": "C70", "status": "partial", "theorems": ["C70_protocol", "C70_errors_partial", "C70_errors_refuted", "C70_arrays_refuted", "C70_element", "C70_search", "C70_tile", "C70_roundtrip", "C70_styles", "C70_unread", "C70_loaded", "C70_style_directory", "C70_directories_partial", "C70_directories_refuted"], "note": "Proved: exactly the sequences of calls within connect and disconnect are defined; errors are told once and last; elements by arrays, searches and tiles tell what was stored; stylesheets are read once and failures retried. Refuted: levels out of range leave the functions as an exception, as does an unreadable stylesheet on registration; an element without points or a key without a value is read beyond the arrays; directories of the levels 17 to 19 are not announced."},
{"property": "C71", "status": "partial", "theorems": ["C71_segment", "C71_reach", "C71_outside", "C71_convex", "C71_agree", "C71_ring", "C71_chord", "C71_border_refuted", "C71_nested", "C71_rings", "C71_triangle", "C71_rectangle"], "note": "Proved in exact arithmetic: the parity of crossings along any segment, its consequences for reachable points, points beside a ring, convex rings, rotation, reversal, added corners, chords and nested rings; the points found in triangles and rectangles. Refuted: that the border is inside; each test takes some border points and leaves others. Rounding is in C81."},
{"property": "C72", "status": "partial", "theorems": ["C72_split", "C72_short", "C72_looks", "C72_looks_some", "C72_looks_throws", "C72_missing_refuted", "C72_gradient_refuted", "C72_brackets_refuted", "C72_tree", "C72_tree_only", "C72_node", "C72_seen", "C72_solid", "C72_reachable", "C72_pitched_refuted", "C72_place"], "note": "Proved: the exact parts and appearances, the mesh after a tree for any arithmetic, closed outward solids without pitch and roll (exact reals), the place of the tree. Refuted: that gradients of several stops can be given, that brackets put the style back, and that cylinders keep their width after pitch. Cylinders must not be smaller than the epsilon below which they are taken for cones."},
{"property": "C73", "status": "partial", "theorems": ["C73_forest", "C73_count", "C73_none", "C73_inside", "C73_height_refuted"], "note": "Proved: which triangles get a tree, where it stands, the cut into meshes and the numbers of both. Refuted: that trees follow the surface of the region; its height offset and noise are ignored. Meshes must be countable by int."},
{"property": "C74", "status": "partial", "theorems": ["C74_cells", "C74_defined", "C74_range", "C74_time", "C74_sharp", "C74_smooth", "C74_lattice", "C74_period", "C74_walls", "C74_walls_refuted"], "note": "Proved: the formula, where it is undefined, the exact range, the Lipschitz bound, zeros and the period. Refuted: that walls are shaded by their place; the noise of their color is taken at longitude and elevation. Rounding is in C83."},
{"property": "C75", "status": "partial", "theorems": ["C75_border", "C75_walls", "C75_outside", "C75_meet", "C75_corner_refuted", "C75_near_refuted", "C75_rounded_refuted", "C75_width_refuted"], "note": "Proved: which points count as on the border, the exact walls, from where they are seen, that they meet the surface. Refuted: that sides inside of the tile have a wall (sides cutting a corner, sides near the border), that sides on the border as rounded have none, that every wall has a width."},
{"property": "C76", "status": "partial", "theorems": ["C76_parse", "C76_nothing", "C76_total", "C76_names", "C76_evaluate", "C76_provider", "C76_short_refuted", "C76_load_refuted", "C76_prefix_refuted", "C76_upper_refuted", "C76_rgb_refuted", "C76_unit_refuted", "C76_px_refuted", "C76_alpha_refuted", "C76_blank_refuted"], "note": "Proved: round trip of written stops, totality and the only kinds of failure, all names but two, colors at stops, independence of the cache. Refuted with general statements: short hexadecimal colors (which also keep a stylesheet from loading), the two names beginning with gradient, capitals, rgb(...), missing and detached units, px, opacity digits."},
{"property": "C77", "status": "proved", "theorems": ["C77_strings_one_by_one", "C77_strings_no_race", "C77_strings_end", "C77_string_ids", "C77_pool_one_by_one", "C77_pool_no_race", "C77_pool_end", "C77_pool_apart"], "note": "For all schedules of single accesses with sequentially consistent memory, which C++ guarantees for programs without races. The loop over the ids of a bucket and the body of getString are one access each."},
{"property": "C78", "status": "partial", "theorems": ["C78_gradients_race", "C78_elevation_race", "C78_answers_if_atomic_partial", "C78_gradients_refuted"], "note": "Refuted: exactly when there is a race is proved, and two threads with two new gradients have one. What is missing for the answers is what the code does in a race, which the language leaves undefined; they are proved for atomic searches."},
{"property": "C79", "status": "partial", "theorems": ["C79_alone", "C79_alone_is_store", "C79_race", "C79_lost_refuted", "C79_save_refuted", "C79_mixed_refuted", "C79_torn_refuted", "C79_flush_race"], "note": "Refuted: exactly when threads race is proved, and what goes wrong even with atomic stream operations, for every tile (a search finds nothing, a save records the place of another element, two saves mix the halves of their index entries). A call alone is proved to do what the sequential model of C12 does. The bitmap index of a tile and tiles which are evicted while in use are not part of this."},
{"property": "C80", "status": "partial", "theorems": ["C80_area", "C80_direction", "C80_tolerance", "C80_buildings", "C80_way", "C80_multipolygon", "C80_same", "C80_small_refuted"], "note": "Proved for IEEE 754 double with every operation rounded to nearest even. Refuted without the tolerance: a square of eight ten-millionths of a degree in Wellington is turned the wrong way."},
{"property": "C81", "status": "partial", "theorems": ["C81_clear", "C81_digits", "C81_convex", "C81_contains", "C81_long_refuted"], "note": "Proved for IEEE 754 double with every operation rounded to nearest even, for sides up to a twentieth of a degree or points clear of the sides. Refuted for sides of a degree: a point inside a triangle by Wellington is put outside by all three tests."},
{"property": "C82", "status": "partial", "theorems": ["C82_lines", "C82_ends", "C82_line", "C82_corner", "C82_end_refuted", "C82_crossing_refuted", "C82_back_refuted", "C82_first_refuted", "C82_order_refuted"], "note": "Proved for IEEE 754 double with every operation rounded to nearest even: the loops end, accumulated lines stay near the grid and are complete, points stay near the side. Refuted with cells of 0.0003: corners on a line and crossings of two lines get two points a unit in the last place apart (the epsilon for merging is smaller than that unit), a side backwards gets other points, the first point need not be the corner, a side may step back at its end."},
{"property": "C83", "status": "proved", "theorems": ["C83_near", "C83_exact", "C83_defined", "C83_range", "C83_time", "C83_smooth"], "note": "Proved for IEEE 754 double with every operation rounded to nearest even and a correctly rounded square root. Undefined exactly where the conversion to int is."},
{"property": "C84", "status": "partial", "theorems": ["C84_cells", "C84_defined", "C84_range_partial", "C84_range_refuted", "C84_smooth", "C84_lattice", "C84_period"], "note": "Proved in exact arithmetic, except for the range: it is within 5/4, but more than 1.035 in the cell (12, 187, 5) and less than -1.008 in (0, 113, 83). The least bound is not proved."},
{"property": "C85", "status": "proved", "theorems": ["C85_mix", "C85_evaluate", "C85_stop", "C85_last", "C85_shade"], "note": "Proved for IEEE 754 double with every operation rounded to nearest even. What is refuted of C53 (far beyond the last stop, equal times) is so with doubles too and left out of the statement."},
{"property": "C86", "status": "partial", "theorems": ["C86_format", "C86_tail", "C86_reader", "C86_registered", "C86_unknown", "C86_osm_refuted"], "note": "Proved but for the last clause, which is refuted: a path that ends in .osm, or in capital letters, is given to the parser of shape files. C86_unknown: a failed or empty import into a name which is not registered makes later searches undefined."},
{"property": "C87", "status": "partial", "theorems": ["C87_compass", "C87_vector", "C87_other", "C87_round", "C87_exact_refuted", "C87_case_refuted", "C87_ground_refuted"], "note": "Proved in exact arithmetic but for the clauses on the ground and on small letters, which are refuted: at 60 degrees of latitude a roof to the north east deviates by more than 18 degrees, and a roof to the s faces north."}
]}
