# Formal model of the utymap core: design

Subject: reinterpretcat/utymap at the commit in /repo (C++). The code is read as
text only. The model is written in Rocq (Coq 8.16.1), in `rocq/theories`.

## 1. Layout

For every area there are up to four files:

| file           | contents                                                              |
|----------------|-----------------------------------------------------------------------|
| `XModel.v`     | definitions that follow the C++ function by function, each with a citation |
| `XSpec.v`      | a short specification that does not mention the model                   |
| `XProofs.v`    | lemmas                                                                  |
| `XProps.v`     | the property theorems (`exact lemma`), the non-vacuity examples and `Print Assumptions` |

## 2. Modelling conventions

* **Undefined behaviour** is a distinct outcome (`UB`), an exception is a distinct
  outcome (`Throw`); neither is ever mapped to a normal value.
* **Fixed width integers**: `Z`/`N` with the wrap-around written out (`mod 2^16`,
  `mod 2^32`) wherever the C++ narrows or wraps. Where a proof needs "no wrap" this is
  a hypothesis of the theorem.
* **Doubles that are only compared** are the type `dbl` (NaN, -inf, +inf, or a finite
  value `m * 2^-1074`, so every IEEE double is represented exactly; -0 and +0 are
  identified, which comparison cannot tell apart). `std::min`/`std::max` keep their
  asymmetric behaviour on NaN.
* **Doubles that are stored and re-read** are 64 bit patterns (a list of 8 bytes), so a
  round-trip statement is bit-exact.
* **Rounded arithmetic** uses Flocq's `round radix2 (FLT_exp ...)` where the claim is
  about rounding; otherwise the model computes in exact arithmetic (Z, Q or R) and the
  comment says so ("exact arithmetic").
* **Hash functions, file system paths, user callbacks** are section variables: the
  theorem holds for every such function.
* **Containers**: `std::vector` is `list`; `std::map`/`unordered_map` is an association
  list or a function; iteration order of `unordered_map` is a parameter (a permutation)
  where it is observable.
* **Loops** become structural recursion; where there is none the recursion takes fuel and
  running out of fuel is a distinct result that the theorems exclude.

## 3. Plan per property

| id | modelled | how it is proved |
|----|----------|------------------|
| C01 | `LruCache.hpp` with explicit list nodes (iterators are node ids) and the key->iterator map | refinement to a recency list, by induction over operations |
| C02-C04 | `StringTable.cpp` over byte files with the LRU cache, reopen and crash operations | invariant over histories; refutation of C04 in general by a concrete history; C04 restricted is a partial theorem |
| C05, C06 | `ElementStream.cpp` writer and reader over byte lists | round-trip with arbitrary suffix by induction on the element tree; iff by counterexample construction for each too long list |
| C07 | `MeshStream.cpp` with a double->float conversion parameter and its IEEE instance | round-trip for every mesh with < 2^32 entries |
| C08 | `BitmapStream.cpp` including the extra loop iteration at end of file | round-trip for non-empty maps; UB for the empty file |
| C09 | `BitmapIndex.cpp` add/search/tokenize | equality with a boolean reading of the query; deviation stated exactly |
| C10 | EWAH: word level model of `set`, iteration, and the three binary operations | abstraction to the list of positions |
| C11-C13 | both stores as state machines over tile searches, text searches, erase, flush, reopen, with file cursors | refinement to per-tile lists; refutation for cursor histories |
| C14 | `ElementStore.cpp` store with an arbitrary style function | exact set of written tiles |
| C15 | `GeoStore.cpp` add | rollback theorem for tile import; refutation for the range and box variants |
| C16 | both coordinates with Flocq rounding of every operation; `tan`, `cos`, `log` are parameters with a bounded relative error | range theorems with error bounds, and the exact instance over R |
| C17 | exact arithmetic over R | inverse functions, monotonicity |
| C18, C19 | `quadKeyToString`, `QuadKey::Comparator` | bit induction; order laws |
| C20 | `visitTileRange` over an arbitrary coordinate->tile function and box function | membership and NoDup of the visited list |
| C21 | `BoundingBox.hpp` over `dbl` | order theory |
| C22 | `LodRange.hpp` | case analysis |
| C23 | `ElementUtils.hpp` binary search | binary search correctness; refutation for unsorted tags |
| C24-C26 | `StyleProvider.cpp`, `Style.hpp` | equality with a declarative cascade; collision witness |
| C27, C28 | `MeshCache.cpp` over a file map with torn writes | replay theorem, crash invariant |
| C29 | `QuadKeyBuilder.cpp` visitor | invariant over visited elements; refutation for clipped relations |
| C30 | `MeshPool.hpp` | invariant over operations |
| C31, C32 | `MeshBuilder.cpp`, `MeshUtils.hpp` index arithmetic | invariant over operations; refutation for the back face |
| C33-C35 | `OsmDataVisitor.cpp`, `MultipolygonProcessor.cpp`, relation processors | algebra of signed area; invariant of ring assembly; refutations |
| C36, C37 | `Turtle.cpp`, `Turtle3d.cpp` | induction on generations; balanced-word induction |
| C38 | `Quaternion.hpp` over R | ring identities |
| C39 | `GridElevationProvider.hpp` | exact arithmetic over Z/R |
| C40 | `SrtmElevationProvider.hpp` | finite sweep lifted to all bytes; refutation |
| C41 | `ElementGeometryClipper.cpp` with the polygon clipper as a parameter | case analysis and induction over relations |
| C42, C43 | byte files of `StringTable.cpp` and `ElementStream.cpp` after a crash or cut | exact behaviour for every cut |
| C44 | `BitmapStream.cpp` and EWAH `read` followed by `set` | refutation; characterisation for small tiles |
| C45 | `GeoStore.cpp` registry of stores | invariant over registrations |
| C46, C47 | `StyleProvider.cpp` canvas rules, texture lookup | equality with a declarative cascade |
| C48 | texture mapping information of `MeshBuilder.cpp` and `MeshUtils.hpp` | invariant over writes |
| C49 | `Polygon.hpp` contours and holes | ring invariant over exact numbers |
| C50, C51 | `Quaternion.hpp` slerp, `Turtle3d.cpp` moves, over R | trigonometric identities, invariants |
| C52, C53 | `Color.hpp`, `ColorGradient.hpp`, `GradientUtils.cpp` (the regular expression is in C76) | case analysis per channel; exact rationals |
| C54 | `StyleEvaluator.*` with the grammar as parser combinators (`Peg.v`) | round trip of printed expressions, exact set of accepted texts |
| C55 | `OsmPbfParser.hpp` | round trip of an encoder, framing of files, cuts |
| C56 | `ShapeParser.hpp`, `ShapeDataVisitor.hpp` | invariant of the vertex loop |
| C57 | `OsmJsonParser.hpp` over property trees | round trip of a document encoder |
| C58 | `MapCssParser.cpp` grammar, skipper and imports (`Peg.v`) | both directions against a grammar of texts |
| C59 | `OsmXmlParser.cpp` grammar, skipper and events (`Peg.v`) | both directions against a grammar of texts; exact set of maps |
| C60 | `LSystemParser.cpp` grammar, skipper and production map (`Peg.v`) | both directions against a grammar of texts |
| C61 | `TextureAtlasParser.cpp`, `TextureGroup::add`, `TextureAtlas` constructor | both directions against a grammar of texts; the conversion of doubles is a parameter |
| C62 | `Rectangle.hpp`, rectangle and ranges of `Polygon.hpp`, `getCircle`, `getCentroid`, `outerRectangles` | folds of minimum and maximum over exact rationals; invariant of the ranges |
| C63 | `IcoSphereGenerator`, `CylinderGenerator` | symbolic vertices (one run for all arithmetics), numbers x + y·phi for the geometry, sums over a bent grid |
| C64 | `LineGridSplitter`, `restoreGeometry` of the terrain generator | any correct sort; sets of crossings, sorted lists with the same members are equal |
| C65 | `TerraBuilder`, `SurfaceGenerator`, `addGeometry` of `TerraGenerator`, `ClipperEx` | winding numbers of points; the clipper library is a parameter with an exact specification; invariant of clips already drawn; claims of elements by induction on relations |
| C66 | `WallGenerator`, `BarrierBuilder`, `copyMeshAlong`, ways of `LampBuilder` and `TreeBuilder` | meshes as lists of calls (C46); what a reader of the mesh sees against rows of places; boxes by symbolic corners and signed areas |
| C67 | distances, offsets and world positions of `GeoUtils.hpp` | unit vectors, Cauchy-Schwarz for the triangle inequality of angles, mean value theorem for concavity of the sine |
| C68 | `BuildingBuilder`, flat and pyramidal roofs, flat facades | induction on relations for the visitor's state; triangles of a mesh against rings; borders of surfaces which cancel out |
| C69 | mansard, round and skillion roofs | loops as relations to the sides of a ring; rotations of vectors as cosines and sines; borders of surfaces which cancel out |
| C70 | exported functions | state machine of the application pointer; invariant of the string table; pointers into vectors of strings with the age of their memory; simulation of two runs with different disks |
| C71 | point in polygon | each edge changes the parity as a half-open strip beside the segment does, telescoping round the ring; affine functions at four heights; least of finitely many entries for nested rings |
| C72 | trees of L-systems | split and appearances as unique solutions; runs of mesh calls part by part; a cylinder in any attitude is the image of an upright one under a direct isometry, translation to degrees keeps the orientation |
| C73 | forests | the loop over indices is one over triples, then one over offsets with a chunk invariant |
| C74 | noise | table facts by computation, then reals: the fade is symmetric, so corners glue; Jensen twice and Cauchy-Schwarz for the range; mean value theorem for the slope |
| C75 | walls of raised regions | the loop by index is a run of mesh calls over the sides of the ring; distance to a line times its length; orientation by determinants |
| C76 | `GradientUtils.cpp` regular expression and parser, gradients of `StyleProvider.cpp` | first match of a backtracking matcher; leftmost search; round trip of written stops |
| C77, C78 | mutexes of `StringTable.cpp`, `MeshPool.hpp`, `StyleProvider.cpp` and the elevation providers | interleavings of single accesses; sections run alone commute to the moment of unlocking; a log of calls as ghost state; well-founded steps |
| C79 | streams of an open tile and `flush` in `PersistentElementStore.cpp` | refinement of the sequential model by single stream operations; exact condition for races; schedules for every tile |
| C80 | `getArea`, `isClockwise` and `operator==` of coordinates with the doubles of Flocq | error of the rounded sum by induction; consequences for ways and multipolygons; witness |
| C81 | the three tests for a point in a polygon with the doubles of Flocq | error of the crossing point, gap between seven-digit points and sides, agreement edge by edge; witness |
| C82 | `LineGridSplitter` with the doubles of Flocq | error of accumulated lines by induction, of slope, offset and crossing points; witnesses |
| C83 | `NoiseUtils::perlin2D` with the doubles of Flocq | error of every step against the exact noise of C74; range and slope carried over |
| C84 | `NoiseUtils::perlin3D` | as C74, with one turn of the axes for all directions; witnesses beyond the range |
| C85 | `Color`, `ColorGradient` with the doubles of Flocq | half a unit below a whole number is rounded up to it; parts and their complements add up to 1 but for 2^-54; with C83 the shade of any place |
| C86 | `endsWith`, `getFormatTypeFromPath`, `GeoStore::add` of a file | endings of lists; parsers are parameters; with C45 what a null store does to later searches |
| C87 | `setDirection` of skillion and round roofs | points of the compass by halving, without a table; cosines of differences |

## 4. Trusted base

* Coq 8.16.1's kernel (`coqchk` re-checks the compiled files).
* The axioms listed by `Print Assumptions` below each theorem. Most theorems are closed
  under the global context. The statements about real numbers (C07, `C14_centres`, C16, C17,
  `C20_visit_exact`, C27, C28, C38, C50, C51, C63, C64, C66 to C69, C71 to C75, C80 to C85 and C87) use the standard library's
  `ClassicalDedekindReals.sig_forall_dec`, `sig_not_dec`,
  `FunctionalExtensionality.functional_extensionality_dep` and, through Flocq,
  `Classical_Prop.classic`. No axiom is added.
* The reading of the C++ recorded in the comments of the model files.

### What is modelled, and how far

| area | simplifications and parameters |
|------|--------------------------------|
| streams (`StreamModel`) | a file is its list of bytes and a cursor; `eof`/`fail` bits are explicit; the disk never fails |
| string table | the hash function is a parameter (32 bit); a crash keeps a prefix of each file |
| elements, meshes | doubles are bit patterns; double to float rounding through Flocq (C07) |
| EWAH | words of 32 bit as in `ewah.h`; only the functions used by the index |
| projection | every operation rounded to binary64; `tan`, `cos`, `log` are any functions with a relative error of at most 2^-50 (record `arith`); exact instance over R |
| stores | the heap of open files is a map of handles; directories exist; tile functions, styles and clipping are parameters |
| tags, styles | the string table is a pair of functions (intern/text); `std::sort` is any function whose result is a sorted permutation; gradients are a parameter |
| mesh cache | buffered streams: a crash keeps a prefix of the bytes; a second stream on a path which is being written counts as undefined |
| builders, pool | builders are callbacks; locks are not modelled (one call at a time) except where interleavings are the subject (C28) |
| clipping | the polygon clipper and its grid conversion are parameters |
| OSM visitor | pointers are keys of a map; the order of hash maps is a parameter; cancellation is not modelled |
| ring assembly | numbers are a record `nums` with an exact rational instance |
| mesh builder | the Triangle library, noise, elevation, gradients and distances are parameters; Triangle is trusted to return indices of its points (`goodTri`); overflow of int is undefined |
| L-systems | random draws are an oracle; drawing is recorded; exact reals; in the text of L-systems `qi::double_` is a parameter under stated laws |
| elevation | exact rationals for doubles, checked int; locks are not modelled |
| colours | exact rationals |
| gradients | the regular expression as lists of rests in the order of a backtracking matcher, in the locale C; `boost::lexical_cast<double>` on digits and dots as an exact rational |
| evaluated declarations | Boost.Spirit rules as parsing expression combinators; `qi::double_` and `lexical_cast` are parameters under stated laws |
| PBF | protobuf and zlib are parameters; messages are records; exact rationals; calls made before a failure are not kept |
| shape files | shapelib is a parameter; the entry read beyond an array is a parameter |
| GeoJSON | `read_json` is not modelled: the input is a property tree; number parsing and the string table are parameters under stated laws |
| stylesheet text | the file system, the texture atlas and L-system parsers are parameters; imports nest up to a depth, and running out of it is a distinct result |
| texture atlas | the conversion of a double to 16 bits is a parameter (the standard's is one instance); corners are whole numbers |
| footprints | exact rationals with the limits of double; rounding is left out |
| spheres and cylinders | any arithmetic for closedness, exact reals with the epsilon of double for shape; vertex noise and NaN are left out |
| terrain grid | exact reals with the epsilon of double; infinities and NaN of the slope are cases; `std::sort` is a parameter; loops have fuel |
| terrain layers | regions, layers, clippers and visits in full; `Execute`, `CleanPolygons` and `ClipperOffset` are parameters without rounding; meshes are lists of parts; extras by name only |
| rows along ways | distance and elevation are any functions; exact reals; the tree and the lamp are any well-formed mesh; vertex noise is 0 |
| distances | exact reals; rounding (an argument of sqrt just below 0) is left out |
| buildings | exact reals; Triangle is trusted to fill the plan (`fills`); the search for a point in a hole, elevation and texture scale are parameters; other roofs and facades are functions which give calls on the mesh; colour noise is 0 |
| mansard, round, skillion roofs | exact reals; the offset and orientation of the Clipper library are parameters, as is Triangle; the direction of a skillion roof is in degrees, its names are in C87 |
| exported functions | stores, stylesheets, builders and elevation are parameters which do nothing undefined and use the string table by its functions; the text of an error, the cancellation token and the marshalling of a caller are not modelled; array lengths near 2^31 are not modelled |
| point in polygon | exact real arithmetic; the rounding of the crossing place is not modelled |
| trees | the word is run before its drawings are put into the mesh; gradients, textures and the conversion to double are parameters |
| forests | frequencies of 2^61 and more are left out; the tree is a given mesh |
| noise | in two dimensions, reals instead of doubles; arrays as lists read with bounds |
| walls of regions | on restored contours; reals instead of doubles, the mesh by its calls |
| threads | any number, interleaved access by access; memory is sequentially consistent, which the language guarantees for programs without races; a race is a reachable state; scanning a bucket and `getString` are one access each |
| threads on a tile | one open tile with its two streams; reading an index entry and reading or writing an element are one access each |
| directions of rings | IEEE 754 doubles (Flocq), every operation rounded to nearest even; fused operations and longer registers are left out |
| points in polygons | IEEE 754 doubles (Flocq), every operation rounded to nearest even |
| lines of grids | IEEE 754 doubles (Flocq), every operation rounded to nearest even; corners up to 180 degrees, scale 1E7 |
| noise with doubles | IEEE 754 doubles (Flocq), every operation rounded to nearest even, `std::sqrt` correctly rounded; `std::floor` exact |
| gradients with doubles | IEEE 754 doubles (Flocq), every operation rounded to nearest even; times up to 1E9 |
| formats of files | parsers with their visitors are parameters, a file is what its stream has |
| OSM XML | `qi::double_` is a parameter under stated laws; calls of the visitor are recorded, also those before an exception |

Not modelled: dome roofs but for the shapes of C62 and C63,
logging, threads but for C28 and C77 to C79.

## 5. Findings

Deviations from the properties, each proved as a theorem with the suffix `_refuted` or as an
exact characterisation:

* String table: a string with an embedded NUL gets a new id on each call (C02); the empty
  string can share an id after a lookup of an unallocated id (C03); looking up an id before it
  exists hides the string stored under it later (C04). A crash which loses string data but
  keeps its index entry, or cuts an index entry, damages the table (C42).
* Element streams: counts are cut to 16 bits (C05); white space before a type byte is
  skipped (C06); cut records are read as elements (C43).
* Text index: an empty file yields an arbitrary entry (C08); or-terms are ignored next to
  and-terms, a query of not-terms only is empty (C09); `logicalxor` is wrong beyond 32767
  literal words (C10), so in a tile of 2^20 elements not-terms go wrong (C09); adding to a loaded tile corrupts it (C44).
* Stores: a cancelled search or a text search leaves the file cursors where later writes go
  wrong, and searching an empty tile makes `hasData` answer true (C12); storing reports success
  although clipping left nothing (C14); imports by range or box are not rolled back, nor are
  imports whose parser throws (C15); importing into an unknown store name is a null dereference, and every later tile
  search is one too (C45).
* Boxes and tiles: NaN coordinates are clamped, boxes beyond the globe show the default box
  (C21); the default level range throws (C22); tile strings are undefined above level 31 (C18).
* Tags: `Storage::addToStore` does not sort, so lookups miss (C23).
* Styles: different stylesheets can share a fingerprint (C26), the first identifier rule
  hides all others (C24), conditions of canvas rules are ignored (C46).
* Mesh cache: an empty file left by a crash is undefined on fetch; a tile built
  under two styles at once is served while incomplete (C28).
* Building: clipped parts of an element have id 0 and are built twice or lost (C29); the pool
  drops a released mesh when one of the same capacity is pooled (`C30_release`); the back of a two-sided triangle is degenerate (C32); texture information can leave a gap
  (C48); no inner point is found for a slim hole (C49).
* OSM import: a way with an unknown node is a null dereference (C33); ways which do not close
  are lost (C34); cyclic relations never end, kinds of ids are mixed up (C35).
* Clipping: relations of fewer than two members are replaced or dropped; a way crossing the
  tile without a vertex in it is dropped (C41).
* L-systems and rotations: `]` does not restore the style (C37); in-place `rotate` is not the
  product (C38); slerp is wrong beyond a right angle (C50); pitch and roll do not do what
  they say (C51).
* Elevation: single heights and tiny steps are undefined, extrapolation (C39); low bytes from
  128 on are sign-extended, files south and west of zero are misread (C40).
* Colours: short hexadecimal colours throw (C52); gradients extrapolate past the last stop and
  darken (C53); evaluated expressions have no precedence and broken ones become raw text (C54).
* Imports: dense PBF nodes drift by the block's offset, raw blobs never work, large blobs
  overflow a buffer (C55); polygons of shape files read one entry beyond an array (C56); names
  with points, repeated names and signed ids are mishandled in GeoJSON (C57).
* Stylesheet text: everything from the first item which is not understood is dropped without an
  error, a missing import is ignored, a cyclic one never ends, levels are cut to eight bits,
  letters outside of ASCII throw (C58).
* OSM XML: a document without nodes and bounds throws, ways before the first node are lost, a way
  without nodes, an attribute with an empty value or a negative id makes the document fail,
  entities are not decoded (C59).
* L-system text: a comment behind a production or the axiom joins the next line to it, everything
  behind an empty line or an unknown character is dropped without an error, names which begin
  with F or G fall apart (C60).
* Texture atlases: constructing one converts the largest double to 16 bits, which is undefined;
  lines behind a broken one are dropped without an error, comments become parts of names, sizes
  are cut to 16 bits (C61).
* Footprints: domes, cylinders and spheres of buildings with negative longitudes or latitudes only
  are stretched to the prime meridian or the equator (C62).
- The recursion level of a sphere has no effect beyond 1: each level starts again from the 20 faces of the
  icosahedron, so domes and spheres built with level 2 have 80 triangles. A dome reaches below its base by more
  than half of its height (C63).
- Splitting a side by the terrain grid may leave out its end for a grid line less than the epsilon of double before
  it, in one direction only. A negative cell size in the stylesheet makes it loop forever (C64).
- Areas that run in opposite directions break the terrain: the clips of drawn regions are summed with the non-zero
  rule, so where two of them overlap a third is drawn on top, and inside one layer the overlap is lost to the
  background (C65).
- Regions without a layer are sorted by an area which is never computed for them, so a large one hides a small one
  inside it (C65).
- `terrain-layer` with an empty value makes the builder read a null pointer; an unknown `mesh-extras` throws out of
  the building of the tile; walls of a height offset go to the terrain's mesh even if the style names another (C65).
- Pillars along a way float: the source pillar is made at the elevation of the first coordinate and its copies are
  raised by the elevation of their place once more (C66).
- A wall around an area has no piece between its last coordinate and the first (C66).
- Sides of a way are not joined: a way of any length gets no trees if each of its sides is shorter than the step, and
  its end never gets one; a way without coordinates is read beyond its end, and a step of 0 (the value of a style
  without one) is undefined. A wall is twice as thick as `width` (C66).
- `GeoUtils::distance` takes the radius of the earth at the difference of the latitudes instead of at a latitude: on
  a parallel it is always the equator's, and a way over the pole is shorter than the distance (C67).
- Offsets in metres become degrees of a meridian and are used for longitudes as well: at 60 degrees a width is half as
  wide to the east (C67).
- A roof or facade type which is not known dereferences the end of a map; a building without points (a multipolygon
  without areas, an area of one place) is read beyond the end of the polygon (C68).
- A node or a way in a multipolygon building throws; a relation of other things gets an empty mesh; a pyramidal roof leaves
  a courtyard open; `height` below `min-height` turns the walls inside out (C68).
- A mansard roof looks for the point nearest to the first one of the moved outline in the first half of the points only
  (a number of points is compared with an index of coordinates); slopes may be twisted so that they face down (C69).
- A round roof uses four points and assumes parallel ends: other points of the outline are left open, a trapezoid has a gap
  at one corner (C69).
- A skillion roof is drawn over all outlines once for each of them; sides farther than 0.1 degrees from the middle are not
  found (C69).
- Exported functions: a level of detail out of 1 to 19 is an exception which leaves a C function instead of an error told by
  the callback; disconnect leaves a dangling pointer, so a second one frees twice; an element without points reads beyond an
  empty vector; directories of the levels 17 to 19 are never announced although such data is taken (C70).
- Point in polygon: GeometryUtils says that borders are included, but of a square the left and lower border are not (C71).
- Trees: colors are split at commas, so `gradient(a, b)` cannot be used; a list shorter than that of the colors makes every such tree throw (C72).
- Trees: a style switched to inside of brackets is still used behind them (C72).
- Trees: pitch turns the direction but not the right hand, so cylinders get thinner by the cosine of the angle and slide along their axis; at a right angle they are flat (C72).
- Forests: trees stand on the elevation of the ground, not on the surface of the region with its height offset and noise; their number depends on the number of triangles, not on the area (C73).
- Noise: the color of a wall is taken at its longitude and elevation, so walls at one place differ by elevation and the latitude does not matter (C74).
- Noise: coordinates times frequency beyond the range of an int are undefined behaviour; nothing bounds the frequency of a stylesheet (C74).
- Walls: a side which cuts off a corner of the tile has both ends on border lines and gets no wall (C75).
- Walls: the tolerance of the border is 1E-8 divided by the length of the side of the tile. In tiles of a two hundredth of a degree sides up to 0.2 m inside have no wall, in tiles of more than a tenth of a degree the border rounded to 1E-7 may not be recognised and gets walls (C75).
- Walls: restored contours end with their first point, which gives one more wall without width (C75).
- Gradients: a # with three to five hexadecimal digits anywhere in a value throws, with four digits a byte beyond the string is read; a stylesheet with such a value cannot be loaded (C76).
- Gradients: the names gradientactivecaption and gradientinactivecaption lose their first eight letters and are other colors; names with capitals and rgb(...) are grey (C76).
- Gradients: a number without a unit loses its last digit, or throws if it has only one; the class of units takes one letter of px and the other is a stop of its own; a blank before the unit throws; letters of an opacity behind six digits are a stop of their own (C76).
- Gradients and elevation data are searched without the mutex under which they are stored: two threads which need new ones race, and for gradients the map is a hash table which may be rebuilt during the search (C78).
- Store on disk: the streams of an open tile are shared by all threads without a mutex; a search may find nothing, a save may record the place of another element for good, two saves may mix the halves of their index entries, text searches may mix elements (C79).
- Store on disk: flush clears the cache of open tiles without its mutex (C79).
- Rings: the area is summed from products of whole coordinates, so in Wellington a square of seven by nine centimetres is taken for clockwise and turned the wrong way (C80).
- Points in polygons: for coordinates of seven digits and sides up to a twentieth of a degree rounding never changes the answer; for sides of a degree all three tests put some inner points outside (C81).
- `LineGridSplitter` merges points nearer than 2^-52, less than a unit in the last place of coordinates from 2 up, so nothing but equal points is merged: a corner on a line of the grid, or a crossing of two lines, gets two points, and the mesh a sliver. A slanted side gets other points backwards, as the offset is that of the first corner (C82).
- `NoiseUtils::perlin3D` leaves the range from -1 to 1, by some 3.5 percent: unlike the gradients of `perlin2D` its own have the length of the root of 2 and there is no factor for it. Nothing calls it so far (C84).
- A data file which ends in `.osm`, or in capital letters, is given to the parser of shape files. An import into a name which is not registered leaves a null store behind even if it throws or the file has no elements, so that later searches are undefined (C86).
- Names of roof directions are understood in capital letters only, any other text means north; those of three letters are half a degree short, to the west of north and to the east alike; directions are taken in degrees of longitude and latitude, so that diagonal ones deviate on the ground, by 18 degrees at 60 degrees of latitude (C87).

## 6. Checking

`seeded/LOG.jsonl` records edits of model definitions, one per line, with the theorems which
fail. Mutants are built in a scratch copy.
