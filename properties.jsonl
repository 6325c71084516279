{"id": "C01", "title": "LRU cache keeps exactly the most recently used entries", "statement": "For a cache of capacity N>=1, after any sequence of put/get/peek/promote/exists/clear calls the cache holds exactly the N most recently used distinct keys (all of them if fewer), each with the value of its last put. get/peek of a held key returns that value, get/peek/promote of any other key throws range_error and changes nothing, peek never changes the recency order, and the size never exceeds N.", "quantifier": "every capacity, every key/value type with decidable key equality, every finite sequence of calls", "why_tests_cant": "Unit tests run a handful of fixed call sequences on one capacity; the claim is about every interleaving of hits, overwrites, misses and evictions.", "anchors": ["core/src/utils/LruCache.hpp: LruCache::put, peek, get, promote, exists, size, clear"]}
{"id": "C02", "title": "A string always gets the same id", "statement": "For strings without embedded NUL, once getId(s) has returned i, every later getId(s) on the same data directory returns i, whatever other getId/getString calls happen in between, whatever the internal cache has evicted, and also after the table is destroyed and reopened.", "quantifier": "every history of getId/getString/reopen, every set of strings, every hash function (including one with collisions), every cache capacity >= 1", "why_tests_cant": "Depends on the entire call history, on cache eviction and on hash collisions that tests never produce.", "anchors": ["core/src/index/StringTable.cpp: StringTableImpl, getId, readString, writeString", "core/src/utils/LruCache.hpp"]}
{"id": "C03", "title": "Different strings get different ids", "statement": "For strings without embedded NUL, two different strings never share an id, even when their 32 bit hashes collide; ids are handed out densely: the k-th distinct new string gets id k (counting from 0) until 2^32 strings or 2^32 data bytes are reached.", "quantifier": "every history of getId/getString/reopen calls and every hash function", "why_tests_cant": "Hash collisions and long histories cannot be enumerated by tests.", "anchors": ["core/src/index/StringTable.cpp: getId, writeString"]}
{"id": "C04", "title": "String lookup inverts id allocation", "statement": "getString(getId(s)) = s at any later time for NUL-free s, provided getString was never called with an id that had not been allocated yet; with such a call the code caches an empty string and later returns it for the id once allocated (refuted in general).", "quantifier": "every history of getId/getString/reopen calls", "why_tests_cant": "The poisoning needs a getString of a not yet allocated id followed much later by its allocation; tests only look up allocated ids.", "anchors": ["core/src/index/StringTable.cpp: getString, readString"]}
{"id": "C05", "title": "Element serialisation round-trips", "statement": "Reading back what the element writer wrote, with the same id, yields an equal element (kind, tags in order, coordinates bit for bit, nested relations in order with their ids) and consumes exactly the bytes written, if and only if every tag list, coordinate list and member list in it has at most 65535 entries; longer lists are silently truncated in the count and desynchronise the stream.", "quantifier": "every element, nested to any depth, any trailing bytes", "why_tests_cant": "Elements are recursive and unbounded; tests cover a few small ones and never the 65536 boundary.", "anchors": ["core/src/index/ElementStream.cpp: ElementWriter, read, readNode, readWay, readArea, readRelation"]}
{"id": "C06", "title": "Serialised elements are self-delimiting", "statement": "A file containing any number of written elements one after another is read back as exactly that sequence, starting at any record offset; a record whose type byte is neither 0..3 nor whitespace is reported as domain_error, never as an element; whitespace bytes before the type byte are skipped; the reader terminates on every byte sequence.", "quantifier": "every list of (id, element), every preceding and following byte sequence", "why_tests_cant": "Unbounded sequences of unbounded records.", "anchors": ["core/src/index/ElementStream.cpp", "core/src/index/PersistentElementStore.cpp: search, notify"]}
{"id": "C07", "title": "Mesh serialisation round-trips up to single precision", "statement": "Reading back a written mesh gives the same name (for NUL-free names), the same triangles, colors and uvMap, and vertices and uvs rounded once to the nearest single precision value; a second write/read cycle changes nothing further.", "quantifier": "every mesh with fewer than 2^32 entries per vector, any following bytes", "why_tests_cant": "Unbounded vectors and all doubles.", "anchors": ["core/src/index/MeshStream.cpp: write, read"]}
{"id": "C08", "title": "Text index survives saving and loading", "statement": "Writing a non-empty term/bitmap index to a stream and reading it back yields the same mapping from terms to element positions.", "quantifier": "every index, any number of terms and positions", "why_tests_cant": "Unbounded data, end-of-file behaviour of the read loop.", "anchors": ["core/src/index/BitmapStream.cpp: write, read"]}
{"id": "C09", "title": "Text search evaluates the boolean query", "statement": "For a tile index built by adding documents in order, a search with and/or/not term lists notifies exactly the positions p (once each, ascending) such that p's terms contain every and-term, p has none of the not-terms, and (when there are no and-terms) p has some or-term; the code's deviation when and-terms and or-terms are combined is stated exactly.", "quantifier": "every sequence of added documents and every query", "why_tests_cant": "Boolean combinations over arbitrary document sets; tests try a few.", "anchors": ["core/src/index/BitmapIndex.cpp: add, search, tokenize"]}
{"id": "C10", "title": "Compressed bitmap represents exactly the set of positions", "statement": "Calling set(i) for strictly increasing positions and then enumerating yields exactly those positions in order; and/or/xor enumerate exactly the intersection/union/symmetric difference; set of a position below the current size is refused and changes nothing.", "quantifier": "every increasing sequence of positions below 2^32, every pair of bitmaps built this way", "why_tests_cant": "Run-length encoding has many word-boundary cases (runs of ones, run-counter overflow) that tests sample only.", "anchors": ["core/lib/ewah/ewah.h: EWAHBoolArray::set, toArray, logicaland, logicalor, logicalxor", "core/lib/ewah/runninglengthword.h"]}
{"id": "C11", "title": "In-memory store returns exactly what was stored, per tile and in order", "statement": "A tile search reports exactly the elements stored for that tile since it was last erased, in storage order, with equal content; storing to or erasing one tile never affects another; hasData(tile) is true iff something was stored there since the last erase.", "quantifier": "every interleaving of store/search/erase over every set of tiles", "why_tests_cant": "Arbitrary histories.", "anchors": ["core/src/index/InMemoryElementStore.cpp: store, search, erase, hasData"]}
{"id": "C12", "title": "Persistent store agrees with the in-memory store", "statement": "For every history of store, tile search, text search hit, flush, reopen and erase calls in which a tile is not stored to or searched again after a text search hit or a cancelled search in it before a flush, reopen or erasure, every call on the on-disk store answers as on the in-memory store (elements, order, position handed to the text index), independently of which tile files are currently held open; hasData is true exactly for the tiles accessed since they were last erased. (Without the restriction a file position is left in the middle and stored records get wrong offsets: refuted with concrete histories. hasData differs from the in-memory store after searching an empty tile: refuted as well.)", "quantifier": "every history, every number of tiles relative to the open-file cache, every element serialisable by the stream, data files below 4 GB", "why_tests_cant": "File position, cache eviction and history interact; tests use one or two tiles and fresh stores.", "anchors": ["core/src/index/PersistentElementStore.cpp: store, search, notify, erase, flush, getQuadKeyData", "core/src/index/ElementStream.cpp", "core/src/index/InMemoryElementStore.cpp"]}
{"id": "C13", "title": "Cancelling a tile search yields a prefix", "statement": "If cancellation is requested at any moment during a tile search, the elements already reported are a prefix of the full result and nothing is reported afterwards.", "quantifier": "every store content and every cancellation point", "why_tests_cant": "The cancellation instant is a schedule, not an input.", "anchors": ["core/src/index/InMemoryElementStore.cpp: search", "core/src/index/PersistentElementStore.cpp: search", "core/src/CancellationToken.hpp"]}
{"id": "C14", "title": "An element is stored in exactly the tiles it touches", "statement": "Storing an element for a level range writes it once into every tile of each level of the range whose index rectangle covers the element's bounding box and for which the style asks for it, into no other tile, and reports success iff at least one write happened.", "quantifier": "every element bounding box, level range and style", "why_tests_cant": "Quantifies over all tile coordinates and all levels.", "anchors": ["core/src/index/ElementStore.cpp: store", "core/src/utils/GeoUtils.hpp: visitTileRange"]}
{"id": "C15", "title": "Cancelled import leaves the tile unchanged or empty", "statement": "Importing data into one tile with a cancellation token that becomes cancelled leaves that tile without any element from the cancelled import; the range and bounding-box variants of the same call must roll back too (they throw instead: refuted).", "quantifier": "every data file content and every cancellation point", "why_tests_cant": "Cancellation instant is a schedule.", "anchors": ["core/src/index/GeoStore.cpp: add", "core/src/index/ElementStore.hpp: erase"]}
{"id": "C16", "title": "Every coordinate falls into a valid tile", "statement": "For every pair of doubles given as latitude/longitude (infinities and NaN included) and every level the tile computed in binary64 arithmetic has 0 <= x,y < 2^level.", "quantifier": "every coordinate, every level of detail, every mathematical library with relative error at most 2^-50", "why_tests_cant": "All doubles; edge cases at the poles and antimeridian.", "anchors": ["core/src/utils/GeoUtils.hpp: GeoCoordinateToQuadKey, lonToTileX, latToTileY, clamp"]}
{"id": "C17", "title": "A tile's bounding box contains the coordinates mapped to it", "statement": "In exact arithmetic a coordinate inside the projection limits lies in the half-open bounding box of its own tile, neighbouring tiles share their border, and tile -> box -> tile of an interior point is the identity.", "quantifier": "every coordinate and level", "why_tests_cant": "Continuous domain.", "anchors": ["core/src/utils/GeoUtils.hpp: GeoCoordinateToQuadKey, quadKeyToBoundingBox, tileXToLon, tileYToLat"]}
{"id": "C18", "title": "Tile strings are unique and hierarchical", "statement": "The textual tile key has one character 0..3 per level, two different tiles of valid coordinates never share a string, and the string of a tile is the string of its parent plus one digit.", "quantifier": "every level and every tile coordinate pair", "why_tests_cant": "Infinite family of tiles; files on disk are named by it.", "anchors": ["core/src/utils/GeoUtils.hpp: quadKeyToString", "core/src/index/PersistentElementStore.cpp: getFilePath"]}
{"id": "C19", "title": "Tile keys are strictly ordered and hash compatible", "statement": "The tile comparator is a strict total order (irreflexive, transitive, total on distinct tiles) so ordered containers never merge or lose tiles, and equality agrees with it.", "quantifier": "every triple of tile keys", "why_tests_cant": "Quantifies over triples of keys.", "anchors": ["core/src/QuadKey.hpp: QuadKey::Comparator, operator=="]}
{"id": "C20", "title": "Tile enumeration covers the box exactly once", "statement": "Enumerating tiles for a valid bounding box visits, in row order, every tile of the spanned index rectangle whose own bounding box shares a point with the given box, exactly once, and no other tile; an invalid box visits none.", "quantifier": "every bounding box and level", "why_tests_cant": "All rectangles.", "anchors": ["core/src/utils/GeoUtils.hpp: visitTileRange"]}
{"id": "C21", "title": "Bounding box is the smallest box of its points", "statement": "Expanding an empty box by any non-empty sequence of coordinates of the globe gives min/max bounds that enclose all of them and are attained (so does the box of an element); the result does not depend on order; expand is idempotent; box intersection of NaN-free boxes is symmetric and true exactly when the closed boxes share a point.", "quantifier": "every sequence of coordinates with latitude in -90..90 and longitude in -180..180 (order independence and idempotence: every sequence of doubles, NaN included); every pair of NaN-free boxes", "why_tests_cant": "All sequences.", "anchors": ["core/src/BoundingBox.hpp: expand, contains, intersects, isValid"]}
{"id": "C22", "title": "Level range accepts exactly endpoints in 1..19", "statement": "Constructing a level range succeeds iff both end points are in 1..19 and throws domain_error otherwise; in particular the default-constructed range always throws. An accepted range may be reversed (start > end): storing or searching over a reversed range visits no level at all.", "quantifier": "all pairs of ints", "why_tests_cant": "All pairs.", "anchors": ["core/src/LodRange.hpp: LodRange", "core/src/utils/GeoUtils.hpp: MinLevelOfDetails, MaxLevelOfDetails", "core/src/index/ElementStore.cpp: store"]}
{"id": "C23", "title": "Tag lookup finds a tag iff it is present", "statement": "For an element whose tags are sorted by key without duplicates, has/get by key returns exactly the stored value or the default; on unsorted tags (as created by the raw element API) a present tag can be missed.", "quantifier": "every sorted tag list and key", "why_tests_cant": "All lists; the binary search has boundary cases.", "anchors": ["core/src/utils/ElementUtils.hpp: getTagValue, hasTag, setTags, convertTags", "core/shared/Storage.hpp: addToStore"]}
{"id": "C24", "title": "Style is the ordered cascade of all matching rules", "statement": "The style computed for an element at a level contains, for each declared key, the value from the last matching rule in stylesheet order, where a rule matches iff the element kind and level are covered and all conditions hold; rules not matching contribute nothing; identifier rules take precedence.", "quantifier": "every stylesheet, element and level", "why_tests_cant": "All stylesheets.", "anchors": ["core/src/mapcss/StyleProvider.cpp: StyleBuilder, matchTags, addConditionRule, addIdentifierRule, forElement"]}
{"id": "C25", "title": "An element has a style iff some rule matches", "statement": "hasStyle(element, level) is true exactly when at least one rule of the stylesheet matches the element at the level.", "quantifier": "every stylesheet, element and level", "why_tests_cant": "All stylesheets.", "anchors": ["core/src/mapcss/StyleProvider.cpp: hasStyle, StyleBuilder::canBuild"]}
{"id": "C26", "title": "Stylesheet fingerprint separates stylesheets", "statement": "Two stylesheets that style some element differently have different fingerprints (used to separate cached meshes). Refuted: the hashed text concatenates fields without separators so different stylesheets collide before hashing.", "quantifier": "every pair of stylesheets", "why_tests_cant": "All pairs.", "anchors": ["core/src/mapcss/StyleProvider.cpp: getHashTag, addTo", "core/src/builders/MeshCache.cpp: getFilePath"]}
{"id": "C27", "title": "Mesh cache replays exactly what was built", "statement": "If building a tile completed without cancellation, a later fetch of the tile calls the callbacks with the same sequence of meshes and elements (mesh numbers rounded to single precision), and reports a hit.", "quantifier": "every sequence of produced meshes/elements, every interleaving of other tiles", "why_tests_cant": "All sequences and schedules.", "anchors": ["core/src/builders/MeshCache.cpp: wrap, fetch, unwrap, readCache", "core/src/builders/CacheBuilder.hpp"]}
{"id": "C28", "title": "A crashed or cancelled build is never served from cache", "statement": "At every point between starting to cache a tile and completing it, a process crash (any prefix of the pending writes reaching disk) or a cancellation leaves the cache in a state in which a later fetch does not report a hit.", "quantifier": "every crash point and every cancellation point", "why_tests_cant": "Crash points cannot be unit tested.", "anchors": ["core/src/builders/MeshCache.cpp: wrap, unwrap, isCacheHit, isGood"]}
{"id": "C29", "title": "Each element is built once per tile", "statement": "While building a tile every element with a non-zero id is passed to each builder named by its style at most once even when several stores return it; builders are created once, prepared before their first element and completed exactly once at the end. (Clipped multi-part elements bypass the check: refuted.)", "quantifier": "every sequence of elements returned by the stores", "why_tests_cant": "All sequences.", "anchors": ["core/src/builders/QuadKeyBuilder.cpp: BuilderElementVisitor"]}
{"id": "C30", "title": "Pooled meshes are handed out empty", "statement": "A mesh obtained from the pool is empty and carries the requested name, whatever was released before.", "quantifier": "every history of obtain/release calls", "why_tests_cant": "All histories.", "anchors": ["core/src/builders/MeshPool.hpp: getSmall, getLarge, release"]}
{"id": "C31", "title": "Generated meshes are well formed", "statement": "After any sequence of polygon/plane/triangle additions and texture-info writes, the mesh has three coordinates, one color and two texture coordinates per vertex, the index list is a multiple of three and all indices are in range.", "quantifier": "every sequence of mesh-building calls", "why_tests_cant": "All sequences.", "anchors": ["core/src/builders/MeshBuilder.cpp: addPolygon, addPlane, addTriangle, addVertex, fillMesh", "core/src/utils/MeshUtils.hpp: copyMesh"]}
{"id": "C32", "title": "Two-sided triangles have two faces", "statement": "A triangle requested with a back side produces a front face with the three corners in order and a back face with the same three corners reversed. Refuted: the back face reuses an index and is degenerate.", "quantifier": "every triangle", "why_tests_cant": "Claim over all inputs about indices.", "anchors": ["core/src/builders/MeshBuilder.cpp: addTriangle"]}
{"id": "C33", "title": "Closed ways become counter-clockwise areas", "statement": "An imported way whose first and last node coincide and with more than three nodes becomes an area without the repeated point and in counter-clockwise order; any other way keeps its nodes in order.", "quantifier": "every way and node table", "why_tests_cant": "All inputs.", "anchors": ["core/src/formats/osm/OsmDataVisitor.cpp: visitWay", "core/src/utils/GeometryUtils.hpp: isClockwise"]}
{"id": "C34", "title": "Multipolygon assembly yields closed rings using every segment", "statement": "When ring assembly succeeds each ring is closed, consecutive points come from input segments, each input segment is used exactly once, every ring ends up exactly once as an outer or inner area, outer areas counter-clockwise and inner clockwise, and assembly never dereferences a missing outer. (A trailing unclosed ring is dropped silently: refuted.)", "quantifier": "every list of member ways", "why_tests_cant": "All lists; combinatorial joins.", "anchors": ["core/src/formats/osm/MultipolygonProcessor.cpp: createRings, fillRelation, insertCoordinates, CoordinateSequence::tryAdd"]}
{"id": "C35", "title": "Relation resolution terminates and resolves once", "statement": "Importing relations terminates for every member graph and each relation gets each member once. Refuted for member cycles of length three (unbounded recursion) and for relations referenced before their own turn (members duplicated); proved for acyclic graphs.", "quantifier": "every relation graph", "why_tests_cant": "All graphs.", "anchors": ["core/src/formats/osm/OsmDataVisitor.cpp: resolve, complete", "core/src/formats/osm/RelationProcessor.hpp", "core/src/formats/osm/BuildingProcessor.hpp"]}
{"id": "C36", "title": "L-system expansion is parallel rewriting", "statement": "Running an L-system for n generations executes exactly the word obtained by n rounds of replacing every symbol by its production in parallel (symbols without production stay).", "quantifier": "every axiom, production set and generation count", "why_tests_cant": "All grammars.", "anchors": ["core/src/lsys/Turtle.cpp: run"]}
{"id": "C37", "title": "Balanced L-systems restore the turtle", "statement": "If axiom and productions are bracket-balanced, brackets themselves are not rewritten and only the known words are used, the state stack never underflows during interpretation at any generation, and each bracket pair restores position, orientation, sizes and texture index exactly; undefined behaviour is reached exactly when a prefix of the executed word closes more brackets than are open. Not restored (refuted): the style used for drawing, which stays the one switched to inside the brackets.", "quantifier": "every balanced grammar, word and generation count", "why_tests_cant": "All grammars, all depths.", "anchors": ["core/src/lsys/Turtle3d.cpp: save, restore", "core/src/lsys/Turtle.cpp", "core/src/builders/generators/LSystemGenerator.cpp: updateStyles"]}
{"id": "C38", "title": "Rotations preserve length", "statement": "Rotating a vector by a non-zero quaternion preserves its length (exact arithmetic), composition of rotations equals rotation by the product; the in-place quaternion rotate method does not compute the product (refuted).", "quantifier": "every quaternion and vector", "why_tests_cant": "Continuous domain.", "anchors": ["core/src/math/Quaternion.hpp: operator*, rotate, fromAngleAxis, slerp"]}
{"id": "C39", "title": "Elevation lookup stays inside the grid", "statement": "For a grid file with at least 2x2 heights every lookup reads only valid cells, returns the stored height at grid points, and returns a value between the smallest and largest of the four surrounding heights for positions inside the tile (exact arithmetic).", "quantifier": "every grid and position", "why_tests_cant": "All grids.", "anchors": ["core/src/heightmap/GridElevationProvider.hpp: getElevation, preload"]}
{"id": "C40", "title": "SRTM samples decode as signed big-endian heights", "statement": "A sample with bytes hi, lo denotes the signed 16 bit height hi*256+lo. Refuted: low bytes >= 128 are sign extended. Lookups for negative coordinates read outside the cell (refuted).", "quantifier": "every byte pair / every coordinate", "why_tests_cant": "All byte pairs and coordinates.", "anchors": ["core/src/heightmap/SrtmElevationProvider.hpp: readPx, getElevationImpl"]}
{"id": "C41", "title": "Clipping keeps identity and drops the outside", "statement": "Clipping an element to a box keeps it unchanged if all its coordinates are inside, drops nodes outside, keeps the id, and a clipped multi-part element is a group of parts that each carry the original tags.", "quantifier": "every element and box", "why_tests_cant": "All elements.", "anchors": ["core/src/index/ElementGeometryClipper.cpp: clipAndCall, clipElement, clipRelation"]}
{"id": "C42", "title": "String table survives a process crash", "statement": "If a crash leaves a whole number of index entries on disk and only loses data bytes of strings whose index entry is lost too, the reopened table answers every later call as if exactly the strings with surviving entries had been registered, in the same order with the same ids, across any number of crashes. A crash that keeps an index entry but loses its string, or that tears an index entry, permanently breaks the table.", "quantifier": "every history of getId/getString/reopen calls interleaved with any number of crashes at any byte positions satisfying the ordering condition", "why_tests_cant": "Crash positions are byte offsets in two files at arbitrary points of arbitrary histories; a unit test would have to kill the process at each of them.", "anchors": ["core/src/index/StringTable.cpp: StringTableImpl, writeString, readString"]}
{"id": "C43", "title": "Cut records are read as elements", "statement": "A node, way or area record that ends anywhere after its type byte is not reported as an error: the reader returns an element whose missing fields are filled with zeros or infinities.", "quantifier": "every node, way and area, every position of the cut", "why_tests_cant": "All cut positions of all elements.", "anchors": ["core/src/index/ElementStream.cpp: read, readNode, readWay, readArea"]}
{"id": "C44", "title": "Text index keeps working when a loaded tile grows", "statement": "After a tile's text index has been saved and loaded, adding further elements and searching gives the answers of an index built in one go.", "quantifier": "every sequence of documents before and after the reload, every query", "why_tests_cant": "Depends on the internal position of the last run-length marker, which small fixtures never exercise.", "anchors": ["core/src/index/BitmapStream.cpp: read", "core/lib/ewah/ewah.h: EWAHBoolArray::read, set"]}
{"id": "C45", "title": "Stores are searched by name, and none replaces another", "statement": "Registering a store under a name that is taken keeps the first one; a tile search reports, store by store in the order of the names, what each store reports for the tile, and hasData is true iff some store has data. Importing into a name that was never registered is undefined behaviour, and so is every tile search after it.", "quantifier": "every set of names, every content, every tile", "why_tests_cant": "Quantifies over sets of stores and their contents; tests register one or two stores.", "anchors": ["core/src/index/GeoStore.cpp: registerStore, add, search, hasData"]}
{"id": "C46", "title": "Canvas style is the cascade of the canvas rules of the level", "statement": "The style of the canvas at a level holds for every key exactly the last value among the declarations of all canvas rules covering the level; conditions on canvas selectors have no influence.", "quantifier": "every accepted stylesheet, level and key", "why_tests_cant": "All stylesheets and levels; tests use a few rules.", "anchors": ["core/src/mapcss/StyleProvider.cpp: forCanvas, addRule"]}
{"id": "C47", "title": "Texture lookup is total and answers from the first atlas with the index", "statement": "Looking up a texture group never fails: it answers from the first atlas of the stylesheet with the requested index, and with an empty region when index or key are unknown or the index is the reserved 65535; a random choice from a non-empty group is one of its regions for every seed.", "quantifier": "every stylesheet, index, key and seed", "why_tests_cant": "All atlas lists, including duplicate and reserved indices.", "anchors": ["core/src/mapcss/StyleProvider.cpp: getTexture", "core/src/mapcss/StyleSheet.hpp: TextureAtlas, TextureGroup"]}
{"id": "C48", "title": "Texture information covers the coordinates it was written for", "statement": "Writing texture information covers exactly the texture coordinates added since the last write; earlier ones keep their texture, also when neighbouring records are merged. A copied mesh brings its textures along and those of the destination stay. Coordinates whose texture was not written before another mesh is copied behind them take the first texture of that mesh.", "quantifier": "every mesh with a sorted texture map, every texture, every copied mesh", "why_tests_cant": "All histories of writes, merges and copies.", "anchors": ["core/src/builders/MeshBuilder.cpp: writeTextureMappingInfo", "core/src/utils/MeshUtils.hpp: copyMesh"]}
{"id": "C49", "title": "Contours become closed rings", "statement": "Every contour and hole given to a polygon becomes a closed ring of segments over its own points (a repeated last point left out) with indices in range. Refuted for holes in which the search finds no inner point: a slim hole with area is dropped silently.", "quantifier": "every sequence of contours and holes", "why_tests_cant": "All contours and combinations.", "anchors": ["core/src/math/Polygon.hpp: addContour, findPointInPolygon, isPointInPolygon"]}
{"id": "C50", "title": "Spherical interpolation of rotations", "statement": "Interpolating between two unit quaternions at most a right angle apart yields unit quaternions that move along the arc at constant speed and meet both ends exactly; the points of a round roof therefore lie on a half circle. Refuted beyond a right angle: the factors are both negated, the result is not of unit length, and between opposite quaternions it is zero.", "quantifier": "every pair of unit quaternions and every parameter (exact arithmetic)", "why_tests_cant": "Continuous domain.", "anchors": ["core/src/math/Quaternion.hpp: slerp", "core/src/builders/buildings/roofs/RoundRoofBuilder.hpp: buildRoundShape"]}
{"id": "C51", "title": "Where the turtle of an L-system moves", "statement": "Moving forward m times draws m cylinders one length apart along the direction; turns rotate direction and right hand by the given angle, keep them perpendicular unit vectors and add up, so left undoes right; scaling multiplies by powers of the scale. Pitch and roll should leave the plane (refuted): everything is drawn in the plane z = 0 for every word, and after pitching by a right angle nothing turns any more.", "quantifier": "every word, angle, scale and state (exact arithmetic)", "why_tests_cant": "All words and angles.", "anchors": ["core/src/lsys/Turtle3d.cpp", "core/src/builders/generators/LSystemGenerator.cpp: DickTurtle"]}
{"id": "C52", "title": "Colours survive packing and parsing", "statement": "The 32-bit form of a colour holds its four channels and packing and unpacking are inverse both ways; sums of colours saturate per channel; a text # followed by six hexadecimal digits denotes the colour of that number, opaque. Refuted for shorter hexadecimal forms, which the gradient grammar accepts (3 to 6 digits) but which always fail.", "quantifier": "every colour, every 32-bit number, every text", "why_tests_cant": "2^32 colours and unboundedly many texts.", "anchors": ["core/src/mapcss/Color.hpp", "core/src/utils/GradientUtils.cpp: hexToInt, fromHex, parseColor"]}
{"id": "C53", "title": "Gradients interpolate between their stops", "statement": "At the time of a stop a gradient with increasing times has the colour of the stop; between two stops each channel lies between the channels of the two stops or at most one below; the result is always a valid colour. Refuted: after the last stop colours are extrapolated instead of kept, between equal colours the colour is darkened, equal last times are undefined.", "quantifier": "every gradient and time", "why_tests_cant": "All gradients and times.", "anchors": ["core/src/mapcss/ColorGradient.hpp: evaluate, interpolate", "core/src/mapcss/Color.hpp: operator*, operator+"]}
{"id": "C54", "title": "Evaluated declarations", "statement": "Exactly the texts of the language eval(\"operand (op operand)*\") are evaluated, each as the expression it is written for; numbers combine strictly from left to right, texts are joined by + and any other operation on texts is an error; every other value is used as it stands, as a number with a unit, or as a number. Refuted: usual precedence, missing tags being an error, non-ASCII tag keys, empty texts, empty values.", "quantifier": "every declaration text, tag list and number parser", "why_tests_cant": "Unboundedly many expressions.", "anchors": ["core/src/mapcss/StyleEvaluator.hpp", "core/src/mapcss/StyleEvaluator.cpp: EvalGrammar, parse", "core/src/mapcss/Style.hpp: getString, getValue"]}
{"id": "C55", "title": "Importing a PBF file tells every element it holds, and reports damage", "statement": "For a PBF file whose blobs are zlib data, the visitor receives exactly the nodes, ways and relations written, in order, with identifiers restored from differences, tags and roles from the string table and coordinates (offset + granularity * value) / 10^9. A file cut within a part makes the import throw. Blobs may be stored raw or packed, offsets may be any, and no input leads to undefined behaviour.", "quantifier": "all blocks, all encodings of elements (dense or plain), all files and all places of a cut, for all protobuf and zlib decoders meeting the stated laws", "why_tests_cant": "The repository tests one small file; offsets, raw blobs, cuts and oversized data do not occur in it, and the numbers of nodes, tags and parts are unbounded.", "anchors": ["core/src/formats/osm/pbf/OsmPbfParser.hpp:32-241"]}
{"id": "C56", "title": "Importing a shape file tells every record with its geometry and attributes", "statement": "For a readable pair of .shp and .dbf files every record becomes one element: points nodes, arcs ways (areas when closed), polygons relations of their rings with all vertices in order; attributes which are not null become tags. Otherwise the import throws, having told the records before the broken one, with no file left open and no undefined behaviour.", "quantifier": "all lists of shapes that shapelib can return, all part layouts, all tables", "why_tests_cant": "Tests count elements of three files; the loop over parts and vertices reads one entry too many for every polygon, which a test passes by luck, and layouts and failures are unbounded.", "anchors": ["core/src/formats/shape/ShapeParser.hpp:23-152", "core/src/formats/shape/ShapeDataVisitor.hpp:42-104"]}
{"id": "C57", "title": "Importing GeoJSON tells every feature once, with its identifier, tags and geometry", "statement": "For every GeoJSON document, a map from names to feature collections, the visitor receives one element for each feature, in order: the identifier from the property id, the other properties and the collection's name as tags, and the geometry as node, way, area or relation. A malformed feature makes the import throw after the features before it.", "quantifier": "all documents, names, properties and geometries, all string tables and number formats meeting the stated laws", "why_tests_cant": "Tests run a few fixed documents; names with points, repeated names, signs, closed lines and nesting depths are unbounded combinations.", "anchors": ["core/src/formats/osm/json/OsmJsonParser.hpp:52-205"]}
{"id": "C58", "title": "A stylesheet's text gives exactly its rules, textures and L-systems", "statement": "Parsing a stylesheet returns the rules it writes, in order and with imported sheets in place of their imports, the textures and the L-systems under their file names; blanks and comments between tokens do not matter. Text that is not a stylesheet, a missing file and a cyclic import are reported as errors, and nothing that is not written gets into the result.", "quantifier": "all texts, comments, file systems and nesting depths of imports", "why_tests_cant": "Tests parse about twenty fixed sheets; where blanks, comments, separators and unknown words may occur is unbounded, and the parser stops silently at the first item it does not understand.", "anchors": ["core/src/mapcss/MapCssParser.cpp:56-311", "core/src/utils/CoreUtils.hpp:20-30"]}
{"id": "C59", "title": "Importing OSM XML tells exactly the elements of the document", "statement": "Importing an OSM XML document reports its bounds, nodes, ways and relations, each with its identifier, coordinates, references, members and tags, in the order of the document and independent of blanks and of attributes which have no meaning here. Text which is not such a document is reported as an error, and nothing is reported which the document does not contain.", "quantifier": "all texts; all documents with any attributes, blanks, tags and numbers of elements", "why_tests_cant": "Tests import a few files written by one exporter; the order of attributes and elements, empty values, unknown attributes and elements without parts are unbounded, and parts of the text are skipped silently.", "anchors": ["core/src/formats/osm/xml/OsmXmlParser.cpp:43-292"]}
{"id": "C60", "title": "A text of an L-system is read as it is written", "statement": "Parsing the text of an L-system returns its generations, angle, scale and axiom, and for every rule the productions written for it, in their order and with their probabilities (1 if none is given). Blanks and comments do not matter, and text which is not an L-system is reported as an error.", "quantifier": "all texts; all L-systems, blanks and comments", "why_tests_cant": "Tests parse a handful of small systems; where comments, blanks, line ends and unknown characters occur is unbounded, and the parser stops silently at the first thing it does not understand.", "anchors": ["core/src/lsys/LSystemParser.cpp:44-184", "core/src/lsys/LSystem.hpp:15-36"]}
{"id": "C61", "title": "A texture atlas has the groups and regions of its text", "statement": "Parsing the text of a texture atlas returns its index, and for every name the regions written for it with the size of the atlas, in their order, or the empty group if there is none; choosing from a group by any seed gives one of its regions. Text which is not an atlas is reported as an error, and no text makes the parser behave in an undefined way.", "quantifier": "all texts; all atlases, names, blanks, numbers and seeds", "why_tests_cant": "Tests parse one well formed atlas; sizes, blanks, missing numbers and lines which are not regions are unbounded, and the undefined conversion in every construction shows no effect on the compiler at hand.", "anchors": ["core/src/mapcss/TextureAtlasParser.cpp:52-112", "core/src/mapcss/StyleSheet.hpp:15-92", "core/src/math/Rectangle.hpp:19-24"]}
{"id": "C62", "title": "Round parts of buildings stand on their footprints", "statement": "Domes and cylinders of a building have the centre and the half sizes of the bounding box of its outer contour, or of each of its outer contours if there are more; a sphere has those of all contours together; the apex of a pyramidal roof is the average of the points of the outer contour and lies above its bounding box. This holds wherever on the earth the building is.", "quantifier": "all sequences of contours and holes of a building, with any number of points, anywhere on the earth", "why_tests_cant": "Tests build footprints with positive coordinates, where the wrong initial maximum of a rectangle cannot be seen; contours, holes and places are unbounded.", "anchors": ["core/src/math/Rectangle.hpp:14-48", "core/src/math/Polygon.hpp:41-72", "core/src/utils/GeometryUtils.hpp:57-113", "core/src/builders/buildings/roofs/DomeRoofBuilder.hpp:21-25", "core/src/builders/buildings/facades/CylinderFacadeBuilder.hpp:19-23", "core/src/builders/buildings/facades/SphereFacadeBuilder.hpp:21-24"]}
{"id": "C63", "title": "Spheres and cylinders are closed, round and face outwards", "statement": "The triangles given to the mesh builder for a sphere, cylinder, truncated cone or cone enclose a body: every side of a triangle is met by a side in the other direction, so there are no holes. In exact arithmetic the corners of a sphere lie on the ellipsoid of the given centre and size, each side belongs to exactly two triangles, and all triangles face outwards. Corners of an upright cylinder lie on its wall or are centres of its bottom and top, no triangle is higher than the maximal segment height, and all triangles which are no line face outwards. A higher recursion level gives a finer sphere, and half of a sphere is the part above its centre.", "quantifier": "all centres, sizes, recursion levels, numbers of radial segments, segment heights and (for closedness) all arithmetics, directions and translations", "why_tests_cant": "Tests only count vertices; a hole or an inverted triangle between two of the unbounded number of segments is not counted.", "anchors": ["core/src/builders/generators/IcoSphereGenerator.cpp:8-152", "core/src/builders/generators/IcoSphereGenerator.hpp:16-65", "core/src/builders/generators/CylinderGenerator.hpp:60-119", "core/src/builders/buildings/roofs/DomeRoofBuilder.hpp:31-39", "core/src/builders/buildings/facades/SphereFacadeBuilder.hpp:30-37"]}
{"id": "C64", "title": "Sides of surfaces are split exactly at the lines of the terrain grid", "statement": "Splitting a side of a surface gives its two corners and the points where it crosses a line of the grid, in order and none twice, whatever its direction; so no line of the grid lies between two neighbouring points, and two surfaces which share a side get the same points on it. The points of a contour are those of its sides, closed by its first point. Splitting always ends.", "quantifier": "all corners with whole coordinates (difference of x up to 2^52), scales, cell sizes, contours of any length and any correct sort, in exact arithmetic", "why_tests_cant": "Tests split a few lines; slopes, cell sizes and the number of crossings are unbounded, and cracks between surfaces appear only if two directions differ.", "anchors": ["core/src/builders/terrain/LineGridSplitter.hpp:46-162", "core/src/builders/terrain/TerraGenerator.cpp:86-94"]}
{"id": "C65", "title": "Every point of a tile belongs to one surface of the terrain", "statement": "Elements of the terrain (ways widened and cut to the tile, areas, relations with their holes) ask for points of the tile, for a layer of a sort order or for a surface of their own. The surfaces drawn do not overlap, a point belongs to the highest sort order it is asked for, and the background gets the rest of the tile, with the pieces too small to be drawn; so nothing is drawn twice and nothing is left out. Each surface goes into the mesh its style names, and building the terrain of any elements does not fail.", "quantifier": "all elements (relations nested to any depth), styles, layers, tiles and point sets, any correct sort, for a clipper library without rounding", "why_tests_cant": "Tests build a few elements and look for an empty mesh; which region gets a point depends on all earlier ones, their directions and the order of layers.", "anchors": ["core/src/builders/terrain/TerraBuilder.cpp:26-258", "core/src/builders/terrain/SurfaceGenerator.cpp:14-106", "core/src/builders/terrain/TerraGenerator.cpp:34-84", "core/src/builders/terrain/RegionTypes.hpp:15-124", "core/lib/clipper/clipper.cpp:4459-4495"]}
{"id": "C66", "title": "Trees, lamps, pillars and walls follow ways evenly and stand on the ground", "statement": "A row of trees, lamps or pillars along a way has between one and two steps from one place to the next, from the first point of each side on, and each place gets a copy of the thing standing on the ground there. Lamps of a wide way stand on both sides in turn at the given distance. A wall covers its way but for the gaps asked for; each piece is a closed box on the ground, facing outwards, and a wall around an area goes all around it. All members of a relation are built in its style and no style is kept for the next element. Building does not fail.", "quantifier": "all ways, distances, elevations, styles, source meshes and relations of any depth, in exact arithmetic", "why_tests_cant": "Tests build one element and look for a mesh that is not empty; how many copies there are and where they stand depends on lengths of sides and elevations without bound.", "anchors": ["core/src/builders/generators/WallGenerator.hpp:23-111", "core/src/builders/generators/AbstractGenerator.hpp:70-108", "core/src/utils/MeshUtils.hpp:45-61", "core/src/builders/misc/BarrierBuilder.cpp:23-127", "core/src/builders/misc/LampBuilder.cpp:38-93", "core/src/builders/poi/TreeBuilder.cpp:44-59"]}
{"id": "C67", "title": "Distances in metres are those of the earth", "statement": "The distance of two coordinates is the length of the great circle between them for a radius of the earth (the radius of the latitude they have), so it is symmetric, zero for the same place only, works across the poles and the 180th meridian, and a detour is never shorter. An offset in metres converted to degrees leads that far from the coordinate in any direction, and so do metres of a world around a coordinate.", "quantifier": "all coordinates, offsets up to half of a meridian and world positions up to half of a parallel, in exact arithmetic", "why_tests_cant": "Tests compare a few distances with a tolerance; symmetry, the triangle inequality and the error of the radius concern all pairs and triples of coordinates.", "anchors": ["core/src/utils/GeoUtils.hpp:17-40", "core/src/utils/GeoUtils.hpp:104-140", "core/src/utils/GeoUtils.hpp:163-174", "core/src/utils/MathUtils.hpp:10-32", "core/src/mapcss/Style.hpp:143-147"]}
{"id": "C68", "title": "Buildings are drawn whole and closed", "statement": "While a tile is built, every building area and every relation which is not ignored gets exactly one mesh, in the order of the elements, with the roof, the floor (if it begins above the ground) and the walls of each of its parts and nothing of other elements. A part with flat walls and a flat roof (or a pyramidal one and no courtyard) is a closed body but for the floor of a house on the ground; walls face outwards, the roof up and the floor down. Styles or elements which cannot be built never lead to undefined behaviour.", "quantifier": "all lists of elements, relations of any depth, outlines, styles and triangulations which fill the plan, in exact arithmetic", "why_tests_cant": "Tests build a handful of buildings and look for meshes which are not empty; closed bodies and one mesh per element concern all outlines and nestings of relations, and the undefined cases do not fail visibly.", "anchors": ["core/src/builders/buildings/BuildingBuilder.cpp:55-367", "core/src/builders/buildings/roofs/FlatRoofBuilder.hpp:23-32", "core/src/builders/buildings/roofs/PyramidalRoofBuilder.hpp:19-44", "core/src/builders/buildings/facades/FlatFacadeBuilder.hpp:18-46", "core/src/utils/GeometryUtils.hpp:73-88", "core/src/math/Polygon.hpp:32-70"]}
{"id": "C69", "title": "Mansard, round and skillion roofs close the building", "statement": "A mansard roof joins the outline to the outline moved inwards by a tenth of its shortest side, point by point, with a flat top; a round roof is a barrel over the longest side (or across it); a skillion roof is one slope from the side in the given direction to the point at the back, between the bottom and the top of the roof. Each of them closes a building of one outline with flat walls, or falls back to a flat roof.", "quantifier": "all outlines, heights, directions and results of the offset and triangulation libraries, in exact arithmetic", "why_tests_cant": "Tests build one building per roof and look for a mesh which is not empty. Holes between roof and walls depend on the shape of the outline, on which point it begins with and on the direction.", "anchors": ["core/src/builders/buildings/roofs/MansardRoofBuilder.hpp:24-135", "core/src/builders/buildings/roofs/RoundRoofBuilder.hpp:31-133", "core/src/builders/buildings/roofs/SkillionRoofBuilder.hpp:37-161", "core/src/builders/buildings/roofs/RoofBuilder.hpp:51-60", "core/src/utils/GeometryUtils.hpp:116-144"]}
{"id": "C70", "title": "The exported functions keep their contract", "statement": "Between a successful connect and disconnect the exported functions can be called in any order without undefined behaviour; an exception in a function with an error callback is told by it, once; an element given by arrays arrives at the store with the same keys, values and points and is told again by searches with the same arrays; a stylesheet is read once, and again after a failure; the directories of all files written are announced.", "quantifier": "all sequences of calls, all arrays, all stylesheets and stores, all contents of the disk at the time of each call", "why_tests_cant": "Tests of the library connect once in a fixture and call one function with good arguments. Orders of calls, failures and retries, dangling pointers to strings handed to callbacks and levels at the border are not reached.", "anchors": ["core/shared/ExportLib.cpp:11-93", "core/shared/Application.hpp:18-71", "core/shared/Common.hpp:12-69", "core/shared/Configuration.hpp:19-61", "core/shared/Storage.hpp:10-135", "core/shared/Search.hpp:16-204"]}
{"id": "C71", "title": "Points in polygons are found by the even-odd rule", "statement": "The three tests for a point in a polygon give, off the border, the same answer: two points differ exactly if the way between them crosses the ring an odd number of times, what can be reached without touching the ring has the same answer, what is beside the ring is outside, and in a convex ring the answer is exact. The answer does not depend on the first corner, the direction or extra corners on edges; a ring cut in two covers each point once; containment of rings that do not touch is transitive and decided by any corner. The point that stands for a triangular or rectangular hole is inside it. The border is inside (as the comment of one test says).", "quantifier": "all rings, also those that cross themselves, all points; exact real arithmetic", "why_tests_cant": "Three points and one square are tested. The rule is about all rings and all points, and its consequences (no gaps between neighbours, nesting) are about pairs of rings.", "anchors": ["core/src/math/Polygon.hpp:73-134", "core/src/utils/GeometryUtils.hpp:164-177", "core/src/utils/GeoUtils.hpp:90-101", "core/src/formats/osm/MultipolygonProcessor.cpp:63-67"]}
{"id": "C72", "title": "A tree of an L-system is put into the mesh as drawn, in the appearances of the style, as closed solids", "statement": "The appearances of a tree are those of the parts of its comma separated lists, place by place, or an exception is thrown. Adding a tree keeps what is in the mesh and appends, for every drawing of the turtle in order, the triangles of its shape in the appearance of its number (counted round and round) with the texture of it. Without pitch and roll every cylinder, cone and sphere is closed, has 28, 21 or 80 triangles and is seen from outside, in every direction and place but at the poles; the same tree elsewhere is as many metres away. A tree of a node stands on the ground below it.", "quantifier": "all styles, systems, random choices, meshes, places; any arithmetic for the mesh, exact real arithmetic for shapes", "why_tests_cant": "A test counts the vertices of one tree. Closedness, orientation and the appearance of every part are about all words and all attitudes of the turtle.", "anchors": ["core/src/builders/generators/LSystemGenerator.cpp:14-196", "core/src/utils/CoreUtils.hpp:32-47", "core/src/builders/poi/TreeBuilder.cpp:22-32", "core/src/lsys/Turtle3d.cpp:11-87"]}
{"id": "C73", "title": "A forest has a tree in the middle of every so many triangles of its region, in chunks", "statement": "A copy of the tree stands on the ground at the centroid of the first triangle of the region and of every f-th one after it, where f is the whole part of the frequency and at least 1. The copies are given to the callback in order, in meshes of exactly c trees (the whole part of the chunk size, at least 1) but for the last one, which has at least one; nothing is given for a region without triangles. Every centroid is strictly inside its triangle. The trees stand on the surface of the region.", "quantifier": "all meshes, trees, regions, frequencies and chunk sizes; exact real arithmetic, any elevation", "why_tests_cant": "There is no test of forests. Which triangles get a tree and how they are cut into meshes is about all numbers of triangles and all settings.", "anchors": ["core/src/builders/terrain/TerraExtras.cpp:14-60", "core/src/utils/MeshUtils.hpp:11-42"]}
{"id": "C74", "title": "Noise is the same everywhere around a place, between -1 and 1, and continuous across cells", "statement": "The noise of a place is the sum of the influences of the four corners of its cell, each fading to zero at the opposite sides, with gradients of eight directions got from a permutation of 0 to 255; a place on a border may be counted to either cell. It is undefined exactly if a coordinate times the frequency is out of the range of an int, and zero below the least frequency. It is between -1 and 1, both of which are reached, so the time of a color is between 0 and 1. It changes by at most 13 times the frequency per unit of distance, is zero at whole places and repeats after 256. A surface is shaded by the noise at its place.", "quantifier": "all coordinates and frequencies; exact real arithmetic", "why_tests_cant": "There is no test of noise. That no value leaves the range and that there are no steps at the borders of cells is about all places.", "anchors": ["core/src/utils/NoiseUtils.cpp:6-113", "core/src/utils/NoiseUtils.hpp:26-32", "core/src/builders/MeshBuilder.cpp:208-213", "core/src/utils/GradientUtils.hpp:37-41"]}
{"id": "C75", "title": "A raised region has walls down to the ground on all of its sides but those on the border of the tile", "statement": "Every side of a contour gets a wall of two triangles from the ground up to the height offset, in order, but for the sides with both ends on the border of the tile; what is in the mesh is kept. The walls of a region above the ground are seen from outside, those of one below the ground from inside. Their upper ends are where the surface has its border points, whatever its noise. Sides on the border have no wall, sides inside of the tile have one, and every wall has a width.", "quantifier": "all contours, tiles, elevations, options and meshes; exact real arithmetic", "why_tests_cant": "Tests count vertices of one tile. Which sides have no wall depends on the size of the tile and on the rounding of its border, and where walls meet the surface on the elevation of all points.", "anchors": ["core/src/builders/terrain/TerraGenerator.cpp:70-84", "core/src/math/Rectangle.hpp:26-55", "core/src/math/LineLinear.hpp:18-53", "core/src/builders/MeshBuilder.cpp:192-230"]}
{"id": "C76", "title": "Gradients are parsed as they are written", "statement": "Stops written with a color of six hexadecimal digits or a name, with or without a percentage, are read in order with these colors and times; the first without a percentage is at the begin, any other at the end; what is between them does not matter. Every name of the table is its color. Text without a color is red, and no text but the empty one gives no stop. At the time of a stop the gradient has the color written there. What a style provider was asked before does not matter. Short hexadecimal colors, rgb(...), times in px, numbers without or with a detached unit and names with capitals, all of which the regular expression lets through, are read or refused alone.", "quantifier": "all byte strings, all lists of stops with separators, all histories of requests; exact rationals", "why_tests_cant": "Tests parse a handful of gradients. What a backtracking expression finds in arbitrary text, and what the code makes of a match, needs an argument over all texts.", "anchors": ["core/src/utils/GradientUtils.cpp:8-187", "core/src/utils/GradientUtils.cpp:189-289", "core/src/mapcss/StyleProvider.cpp:287-298", "core/src/mapcss/StyleProvider.cpp:361-383"]}
{"id": "C77", "title": "Threads may share the string table and the mesh pool", "statement": "However the accesses of any number of threads to one StringTable or one MeshPool are interleaved, no two of them touch its members at the same time, there is always an order of all calls so far which is the order of each thread's own calls and in which calls made one after another give exactly the answers the threads got, this order is only ever continued, no thread waits forever and every execution ends. So threads which ask for ids get the same id for the same string and different ids for different strings, and threads which release only meshes they hold never hold the same mesh, and get empty meshes with the name asked for.", "quantifier": "all numbers of threads, all programs whose calls may depend on answers, all interleavings of single accesses, all hash functions and cache sizes", "why_tests_cant": "A test sees one schedule. The number of interleavings is unbounded and a data race may not show in any run.", "anchors": ["core/src/index/StringTable.cpp:48-127", "core/src/builders/MeshPool.hpp:25-58"]}
{"id": "C78", "title": "Threads may look up gradients and elevation data which are loaded on demand", "statement": "Threads which ask one StyleProvider for gradients, or one elevation provider for heights, race exactly if one of them asks for something which is yet to be stored while another asks for anything: the maps are searched without the mutex. Without that, and if the searches were atomic, every thread would get what is computed for its keys whatever the interleaving.", "quantifier": "all numbers of threads, all lists of keys, all contents of the map, all interleavings of single accesses", "why_tests_cant": "The race needs a search during an insertion by another thread; tests with one thread never have it and tests with several rarely do.", "anchors": ["core/src/mapcss/StyleProvider.cpp:287-298", "core/src/heightmap/GridElevationProvider.hpp:48-58", "core/src/heightmap/GridElevationProvider.hpp:94-130", "core/src/heightmap/SrtmElevationProvider.hpp:62-103"]}
{"id": "C79", "title": "Threads may use one tile of the store on disk", "statement": "Calls of save, search and of hits of a text search on one tile give what they give alone if no other thread uses the tile. Two threads which use one open tile at all race on its streams, and so do a flush and any other call on the cache of open tiles. Even with atomic stream operations a search may find nothing in a tile which has elements, a save may leave an index entry with the place of another element for good, and two text searches may report the id of one element with the contents of another.", "quantifier": "all tiles, all numbers of threads and programs of calls, all interleavings of stream operations", "why_tests_cant": "Needs two threads in the same tile at the same time and a certain interleaving; what is wrong then is an answer, not a crash.", "anchors": ["core/src/index/PersistentElementStore.cpp:117-133", "core/src/index/PersistentElementStore.cpp:148-164", "core/src/index/PersistentElementStore.cpp:184-200", "core/src/index/PersistentElementStore.cpp:208-236"]}
{"id": "C80", "title": "Directions of rings are right in the arithmetic of double", "statement": "The area of a ring on the map computed with doubles is finite and differs from the area of the ring by no more than a tolerance given by the number of points and the lengths of the sides. Imported closed ways and the rings of multipolygons with more area than that get the direction they should have; rings of up to a thousand points with sides up to a hundredth of a degree need 2E-12 square degrees for each point. Coordinates of seven digits count as the same exactly if their digits are. Smaller rings may be turned the wrong way.", "quantifier": "all rings of at most 2^30 finite places on the map, all doubles", "why_tests_cant": "Rounding depends on every bit of the coordinates; the rings which go wrong are small and far from the meridian and the equator.", "anchors": ["core/src/utils/GeometryUtils.hpp:16-30", "core/src/formats/osm/OsmDataVisitor.cpp:38-48", "core/src/formats/osm/MultipolygonProcessor.cpp:267-278", "core/src/GeoCoordinate.hpp:26-29"]}
{"id": "C81", "title": "Points in polygons are told right in the arithmetic of double", "statement": "All three tests for a point in a polygon, computed with doubles, give the answer of exact arithmetic for every point which has more than 1E-12 degrees of longitude to every side at its latitude. For coordinates of seven digits, reading the coordinates and testing together are exact for all points not on the ring if the sides are no longer than a twentieth of a degree in both directions; so inner rings of multipolygons are assigned as in exact arithmetic. With sides of a degree, points of seven digits inside a triangle can be put outside.", "quantifier": "all finite places on the map and all rings, all doubles; all integer coordinates", "why_tests_cant": "Wrong answers need points within a few units in the last place of a side, which chance does not find; that there are none for short sides is a statement about all coordinates.", "anchors": ["core/src/utils/GeoUtils.hpp:92-101", "core/src/utils/GeometryUtils.hpp:165-177", "core/src/math/Polygon.hpp:119-134", "core/src/formats/osm/MultipolygonProcessor.cpp:63-67"]}
{"id": "C82", "title": "Sides are split on the lines of the grid in the arithmetic of double", "statement": "Splitting a side of a contour by the lines of a grid, computed with doubles, always ends; the lines got by repeated addition are lines of the grid up to 3.2E-14 degrees for each addition and none between the corners is left out; every point is within 1E-12 degrees of the line through the corners. A side that crosses a line is to get one point there, the same in both directions and in order from the first corner to the second: this fails for corners on a line, for crossings of two lines and for slanted sides taken backwards.", "quantifier": "all corners in ten-millionths of a degree, all cell sizes from 1E-6 to 100 degrees, all sorts which permute", "why_tests_cant": "The differences are single units in the last place, below the tolerance of any comparison in a test; that errors do not grow beyond the bound concerns all corners and cell sizes.", "anchors": ["core/src/builders/terrain/LineGridSplitter.hpp:46-65", "core/src/builders/terrain/LineGridSplitter.hpp:69-71", "core/src/builders/terrain/LineGridSplitter.hpp:73-109", "core/src/builders/terrain/LineGridSplitter.hpp:111-143", "core/src/builders/terrain/LineGridSplitter.hpp:145-157"]}
{"id": "C83", "title": "Noise is near the exact noise in the arithmetic of double", "statement": "The noise computed with doubles is within 1E-12 of the exact gradient noise at the rounded products of coordinates and frequency, and off from that at the exact products by at most 13 roundings of them more; so it does not leave the range from -1 to 1, nor the time of a color that from 0 to 1, by more than 1E-12, and close places have close noise also across borders of cells. It is zero for frequencies below 1E-5, and undefined exactly if a product is out of the range of an int.", "quantifier": "all finite doubles as coordinates and frequency", "why_tests_cant": "Some twenty roundings add up; a bound for all coordinates and frequencies, and continuity at every border between cells where hashes change, cannot be sampled.", "anchors": ["core/src/utils/NoiseUtils.cpp:6", "core/src/utils/NoiseUtils.cpp:44-54", "core/src/utils/NoiseUtils.cpp:76-113", "core/src/utils/NoiseUtils.hpp:26-32"]}
{"id": "C84", "title": "Noise in three dimensions is smooth and bounded", "statement": "Noise in three dimensions is the sum of the influences of the eight corners of the cell around a place, the same from each cell at a border; values at places at a distance differ by at most 9 times the frequency times the distance along the axes; it is zero at whole places, repeats after 256, and is undefined exactly if a product of coordinate and frequency is out of the range of an int. It is to be between -1 and 1, as noise in two dimensions is.", "quantifier": "all real coordinates and frequencies", "why_tests_cant": "Cells repeat after 256 in each of three directions, with 16 million sets of gradients and a continuum of places in each; places where the noise leaves the range are rare.", "anchors": ["core/src/utils/NoiseUtils.cpp:56-74", "core/src/utils/NoiseUtils.cpp:115-173", "core/src/utils/NoiseUtils.hpp:18", "core/src/utils/NoiseUtils.hpp:22-24"]}
{"id": "C85", "title": "Gradients interpolate between their stops in the arithmetic of double", "statement": "With doubles, a color between two stops is defined and each of its channels is between those of the two stops or one below, however the roundings of the part, its complement and the products fall; at the time of a stop it is the color of the stop; a time beyond the last stop by up to a thousandth of the distance to the one before gives the color of the last. So the shade by noise is defined wherever the noise is, for gradients which end at 1.", "quantifier": "all gradients with finite times up to 1E9 and valid colors, all times; all finite coordinates and frequencies", "why_tests_cant": "Whether roundings of two products may both fall below whole numbers, and darken a channel by two, concerns every part in double and every pair of channels.", "anchors": ["core/src/mapcss/Color.hpp:35-44", "core/src/mapcss/ColorGradient.hpp:37-53", "core/src/mapcss/ColorGradient.hpp:61-65", "core/src/builders/MeshBuilder.cpp:211"]}
{"id": "C86", "title": "The end of its name decides which parser reads a data file", "statement": "For every path the format is PBF, XML or JSON if and only if the path ends in pbf, xml or json, and shape files otherwise; only the last four characters count. The store is given what the parser of that format finds in the file, and where PBF is not supported such a file is refused before anything is stored. An import into a registered store, whether it succeeds or not, leaves the stores as they are registered; customary extensions of OpenStreetMap are understood.", "quantifier": "all paths, parsers, files, stores", "why_tests_cant": "Paths are unbounded, may be shorter than the endings they are compared with, and what an import into an unknown name leaves behind shows only in later searches.", "anchors": ["core/src/utils/CoreUtils.hpp:49-53", "core/src/index/GeoStore.cpp:38-116", "core/src/index/GeoStore.cpp:153-162"]}
{"id": "C87", "title": "Roofs face the point of the compass their direction names", "statement": "A direction which is one of the sixteen points of the compass is understood as its bearing, the eight main ones exactly and the others to half a degree; any other text is a number of degrees, or north if it is none. The roof faces that direction on the ground, and names in small letters are understood as well. A round roof is across exactly for the word across.", "quantifier": "all texts, any parser of numbers", "why_tests_cant": "Texts are unbounded; that no other text is taken for a point of the compass, and how far the direction on the ground deviates, are not settled by examples.", "anchors": ["core/src/builders/buildings/roofs/SkillionRoofBuilder.hpp:22-35", "core/src/builders/buildings/roofs/SkillionRoofBuilder.hpp:50-54", "core/src/builders/buildings/roofs/RoundRoofBuilder.hpp:25-29"]}
