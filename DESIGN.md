# Formal model of aqsis in Rocq — design

The model lives in `rocq/theories`. Each subject has up to four files:

* `XModel.v` — computable Gallina definitions, each with a comment citing the file and lines of `/repo` it models
  and saying where it simplifies. No proofs.
* `XSpec.v` (or a `Spec` section at the head of the proof file) — the small independent specification that the
  property theorems are stated against.
* `XProofs.v` — lemmas.
* `PropertiesX.v` — nothing but the property theorems, each closed by `exact`, with `Print Assumptions` beneath and
  `Example`s showing that the hypotheses are met by a concrete case.

Conventions. Undefined behaviour in C++ (out-of-bounds access, popping an empty stack, signed overflow where it
matters, reading uninitialised memory) is a distinct outcome of the model (`UB`, `None`, or an error constructor), never
a default value. Theorems whose name ends in `_refuted` prove that the property, as stated in English, is false of the
code as written, with a concrete witness; the matching `_partial` theorem proves the strongest version found to hold.

## Plan per property

| id | modelled | how it is proved |
|----|----------|------------------|
| C01 | `RibInputBuffer`: 256-byte array, positions, chunk oracle | invariant relating buffer contents to the stream prefix already delivered; induction over get/unget sequences |
| C02 | same, line/column bookkeeping | refuted at the wrap boundary; partial theorem when no CRLF straddles a wrap |
| C03 | `RibTokenizer::scanNext` and helpers on byte lists | strict decrease of remaining input per token; fuel shown sufficient |
| C04 | `BinaryFormatter` and the tokeniser | induction over the request list with a simulation relation between the two code tables |
| C05 | `AsciiFormatter` and the tokeniser | same; refuted for escaped characters, partial for strings without them |
| C06 | code allocation of `BinaryFormatter::beginRequest` | partial: every sequence of interface requests; refuted with 257 names |
| C07 | `RibLexer` over a token list | induction over tokens |
| C08 | `RibLexer` typed reads | round trip: tokens of a value, read back, give the value |
| C09 | `RiCxxValidate`: scope stack, table of scopes each request is allowed in, and the order rules (ValidModel.v) | invariant over the list of calls: the scope stack is the stack of open forwarded blocks; refuted for stray ArchiveEnd |
| C10 | `RenderUtilFilter` conditionals (ArchiveModel.v) | refinement to a block-structured evaluator of nested conditionals; refuted in general, partial for the shape the code supports |
| C11 | `RenderUtilFilter` archives and objects with their caches (ArchiveModel.v) | refinement to textual inlining by induction over the nesting |
| C12 | `FrameDropFilter`, `parseFrames` with the C library's strtol (FrameModel.v) | refinement to filtering of frame blocks; the parser against an independent grammar of ranges |
| C13 | `parseDeclaration`, its printer and `TokenDict` (DeclModel.v) | round trip through the printer; dictionary as a finite map; refuted for the types and names that do not round trip |
| C14 | `CqBitVector` on bytes | refinement to `list bool` |
| C15 | SL control-flow code generation and the SIMD VM | compiler correctness by simulation |
| C16 | same | invariant of the same simulation |
| C17 | `CqCSGTreeNode` | induction over the tree; refuted when the eye is inside a solid |
| C18 | `CqImagePixel::Combine` CSG loop | decreasing measure |
| C19 | `CqOcclusionTree` | tree refinement and soundness of the traversal |
| C20 | `CqMultiJitteredSampler` | permutation invariants for all random choices |
| C21 | `CqMotionSpec` | sorted-map refinement |
| C22 | `CqModeBlock` hierarchy with shared pointers | heap model and stack invariant |
| C23 | `CqTileArray`, `CqTextureBuffer` iterators, the tile cache and reading of tiles (TexModel.v) | the visited texels are a permutation of the support rectangle and hold the values of the file |
| C24 | wrap modes in the filter traversal (TexModel.v) | exact cover of the support by wrapped pieces, by arithmetic; refuted for mixed clamped and periodic corners |
| C25 | `CqString::hash`; `CqVarDef::FindVariable`, `FindLocalVarIndex`, `FindStandardVarIndex`, loading of operands, `CqSurface::FindUserParam` (HashModel.v) | hashes of short names within 31 codes are different (digits to base 31), so lookups are exact there; refuted by `PT`/`Os` and by 13 letter names; tables of operations and standard variables checked |
| C26 | `CqString::ExpandEscapes`, `TranslateEscapes` (sstring.cpp:38-200), characters as signed bytes, the stray reads as None | exactly the strings of ASCII characters without quotes and backslashes and of the controls with a letter come back; translation of all strings made of characters, letters and numbers; a trailing backslash reads outside (refuted) |
| C27 | `TypeModel.v`: `CqParseNode*::TypeCheck`, `FindCast`, `validTypes`, the choice among overloaded functions. Spec: a typing judgement (`TypeSpec.v`), the conversions of the language, expressions equal but for casts | induction over the depth of expressions; partial: refuted for nested assignments of call results, logical operators, variadic and parameterless functions |
| C28 | `CqImagePixel::Combine` compositing | algebra over an abstract field of colours |
| C29 | `CqPixelPool` | ownership invariant over operation sequences |
| C30 | value counts of patch meshes and curves, and the indices their pieces read (MeshModel.v) | arithmetic against an explicit enumeration of the pieces; refuted where uniform values of later rows are read from the first |
| C31 | `TestCondition` (condition.cpp:40-278) with the sscanf, strtok, strstr and strcmp calls it makes on character lists; floats are rationals with an arbitrary rounding; the parameters in force are two functions | unparsable left sides and unknown parameters count as true; comparisons of numbers, triples and texts mean what the specification says; refuted: unknown relations and missing right sides count as false, integers are compared with the digits before the point, long or incomplete names are undefined |
| C32 | `pushInput`/`popInput` | simulation; refuted where tokeniser state is not saved |
| C33 | `CqRandom` (MT19937 and float scaling) | refinement to the recurrence; rounding with Flocq; refuted for subnormal ranges |
| C34 | `readNumber`, fixed point decoding, with rationals for floats | induction over digit lists |
| C35 | definition and use of codes in `scanNext` | induction over the items of the stream |
| C36 | buffer pools of `RibLexer` | invariant: buffers handed out are not reused before `nextRequest` |
| C37 | writer, tokeniser and lexer composed | C04 and C08 composed by induction over the requests |
| C38 | ASCII part of `scanNext`, `readRequest`, `readString`, `readNumber`, `readComment` | induction over the pieces of the text; numbers as in C34 |
| C39 | the length checks of `RiCxxValidate` for geometry, `ProcessPrimitiveVariables` and the geometry methods of `RiCxxCore` as lists of index ranges | case analysis over the calls, induction over the variables, faces and tags |
| C40 | `CqSurfacePatchMeshBicubic::Split`, `CqCubicCurvesGroup` and `CqLinearCurvesGroup` splitting | induction over curves and patches against the enumeration in MeshSpec |
| C41 | `CqSurfacePointsPolygons::Split` | induction over the polygons, the running position being the sum of the counts so far |
| C42 | `CqPolygonBase::Split` and `CreatePhantomData` | any antisymmetric sum over edges is kept by the division; area and winding numbers are two such sums; convexity is inherited by increasing choices of vertices |
| C43 | `CqPolygonGeneral2D`, `GeneralPolygon`, `PointsGeneralPolygons` | the same sums are kept by turning, joining and cutting corners off; convex loops always have a corner to cut; refutations by evaluation |
| C44 | `CqSampleAccum` with `filterTexture` of C24 (AccumModel.v, over rationals) | the accumulated sums are those over the points of the region, whatever the order in which tiles are visited |
| C45 | `CqTiffOutputFile`, `CqTiffInputFile`: writing an image in tiles or scanlines and reading ranges of lines (TiffModel.v) | round trip for every size, tile size, range and content of the memory used; the tiled file written with several calls is refuted |
| C46 | `downsample`, `createMipmap`, `CqMipmap::initLevels`/`applyFilter`, the conversions of channels (MipModel.v) | by induction over the levels, with each level equal to the filter's weighted mean (C44's spec); the loss of small weights, signed and wide integers are refuted; lookups by C24/C44 |
| C47 | `CqTileArray::CqStochasticIterator` and those of tiles and buffers, with floats (StochModel.v) | invariant: the texels left are those of the tiles to come; the float shares are exact below 2^24; refuted beyond |
| C48 | `CqPcfAccum`, `applyPCF`, `CqShadowView::sample` after the filter is made, choice of the view (AccumModel.v, over rationals) | the accumulated sums are those over the points of the region; bounds of means; induction over the views |
| C49 | option objects and lists in a heap with reference counts, `poptWriteCurrent`, `pushOptions`/`popOptions`, `pOptionWrite`, the `Get…OptionWrite` functions, `RiCxxCore::Option`, the imager pointer (OptModel.v) | refinement to options that are values (OptSpec.v): invariant over rows of requests that each object reads as its value and that only an object nobody else points to is written |
| C50 | `expandSearchPath`, the token function, `findFileNothrow`, `findRiFileNothrow` over a file system given as a function (SearchModel.v) | induction over the text of the path with a bound on the turns of the loop; induction over the directories |
| C51 | the loop over buckets: `AddMPG`, `preProcess`, `process`, `CombineElements`, `FilterBucket` (which elements are read), `postProcess` with the eight cache segments, over a heap of shared elements (BucketModel.v) | a specification without buckets (BucketSpec.v); an invariant between two buckets: the slots are distinct and apart from all stored segments, every stored segment holds finished elements of the right positions, and the segments present at a bucket are determined by which neighbours are done; refuted for small buckets, empty crop windows and pixels outside of the crop window |
| C52 | the way of surfaces into buckets: `CullSurface`, `PostSurface`, `RepostSurface`, `AddMPG`, `RenderWaitingMPs`, `RenderSurface`, `process` (PostModel.v); which surface is taken next and what the occlusion test answers are arbitrary functions of the state | what a scene stands for is the list of its micropolygons (PostSpec.v); an invariant over all steps: in each bucket the rendered, waiting, hidden and still pending micropolygons together are a permutation of all that touch it, a pending surface counting only for its own and later buckets |
| C53 | the pixel filter: `FilterBucket` (the branch in use), `InitialiseFilterValues`, the channel buffer (FilterModel.v); rational numbers, the filter is any function, array accesses are checked, a total weight of zero is an outcome of its own; not modelled: the imager, the exposure, the separable branch that is switched off | the weighted mean over any list of pixels that surrounds the pixel (FilterSpec.v); the nested loops add up to sums that are compared by permutation, the writes of all pixels and channels go to different places, by induction over the pixels |
| C54 | the way of pixels into a file: the mode of `RiDisplay`, quantization and formats of `LoadDisplayLibrary`, `DspyReorderFormatting`, `FormatBucketForDisplay`, `CollapseBucketsToScanlines`, `SendToDisplay`, the file driver's open, data, query and close (DisplayModel.v); memory is blocks of bytes each of which knows the value it is part of, so leaving a block is undefined and a byte in a wrong place is never right by accident | what a file holds (DisplaySpec.v: `shows`, `asked`, `holds`); invariant over the loop of buckets: the pixels of the buckets so far are right in the driver's image, and for line order also in the block of lines |
| C55 | `selectDataFormat`, the quantization in `FormatBucketForDisplay`, `lfloor`, `lround`, `clamp` (DisplayModel.v) with exact rationals; conversions out of range are undefined | nearest integer, clamped (DisplaySpec.v `stored_as`); by the floor of rationals and cases over the limits |
| C56 | `Subdivide`, `Dice` and `DiceOne` of the parameter classes, `surfaceNaturalSubdivide`, `surfaceNaturalDice`, `bicubicPatchNatSubdiv`, `bicubicPatchNatDice` with forward differences, `Split` of surfaces and of bilinear patches with triangles, `ConvertToBezierBasis`, `Bound` and the default u and v (SplitModel.v) with exact rationals; a vector variable is one variable for each component; integers, strings and matrices have their own arithmetic; motion, weights other than 1, the size estimate of `Diceable` and other surfaces than patches are left out | induction over every tree of splits: the pieces cover the patch, do not overlap, and each number keeps its value at each point; the forward differences are at every step the Bezier curve; composed with dicing and with the basis conversion; bounds contain the pieces; refuted for integers, strings, matrices, arrays for each control point of bicubic patches, face vertex variables in other bases and "st" of class vertex |
| C57 | `ComputeVertexOrder`, `cachePointInPolyTest`, `fContains`, `CqInvBilinear`, `bilerp`, `CalculateBound`, the split line of triangular grids, `Sample` and `RenderMPG_Static` (MpgModel.v) with exact rationals; trim curves, motion and depth of field are left out, `occlZ` is constant while a micropolygon is rendered | convex hulls of grid points (MpgSpec.v `spanned`); which side a point is on is an affine function, so it is settled by the corners; one winding is reduced to the other by exchanging rows and columns; the pixel and cell ranges by floor and ceiling; micropolygons with a side of no length are triangles (`C57_triangle_partial`), and triangular grids are cut by their diagonal (`C57_diagonal_partial`) |
| C58 | `AppendKey`, `BuildBoundList`, `subdivideBound` by the distance moved, the time slices of `RenderMPG_MBOrDof` and `Sample` of moving micropolygons (MovModel.v) with exact rationals, on top of the micropolygons of C57; depth of field, trim curves and triangular grids are left out, the length of the path is computed exactly and its root is rounded down. | The grid at a time is the evenly changing grid between its key times (`grid_at`). `C58_stored_partial`: every stored hit is a hit of the grid at the time of the sample. `C58_seen_partial`: every sample that hits the grid at its time is stored. `C58_once_partial`: not twice, unless its time divides the shutter time in a ratio of small numbers. `C58_samples_partial` puts these together with C57. Refuted: motion that ends before the shutter closes is missed by later samples (`C58_early_end_refuted`); samples that all have the time of opening, which unjittered patterns have (`C58_no_jitter_refuted`); times at which two slices meet are stored twice (`C58_twice_refuted`); a shutter that closes as it opens (`C58_frozen_refuted`); micropolygons that turn their other side (`C58_turning_refuted`). |
| C59 | `SaveAsShadowMap` of the file display driver (ShadModel.v): the least value, the tiles and their contents, with libtiff's `TIFFWriteTile` as a table of tiles which refuses tiles outside of the picture and reads the whole tile; values are exact, the other tags, compression and the time stamp are left out | invariants of the loops, for every size of tiles: a reader finds each pixel in the tile that contains it; refuted for pictures that need more rows than columns of tiles and for more than one channel |
| C60 | MatModel.v: the matrix class with its identity flag (matrix.h, matrix.cpp): constructors, both products, sums, transpose, Gauss-Jordan inverse with pivot search, cofactor determinant, images of points, rotation and skew matrices, normals, isClose; exact rationals, division by zero is None. | Induction over expressions against products and two-sided inverses written by definition; the elimination by an invariant over the columns (a = b·A, columns done are unit columns, determinant not 0); the determinant against the sum over permutations; rotation against the formula of Rodrigues. Refuted: number times marked matrix, tolerance ignored for marked matrices. |
| C61 | CqTransform on the key frames of C21 and the matrices of C60, the blocks that save it, the renderer's time and the requests of ri.cpp as a state machine over a list of operations (XformModel.v) | A second machine whose transformation is a function from time to matrices (XformSpec.v); simulation by induction over the list, with the determinant for the handedness; refutations by concrete programs |
| C62 | The renderer's list of named systems with its static search indices, the camera, the view systems and the two cached results (SpaceModel.v) as a machine over a list of settings and questions; a read behind the list is an outcome | A dictionary from names to matrices without caches and indices (SpaceSpec.v); simulation by induction over the list; composition and identity follow from uniqueness of the specified answers; refutations by concrete programs |
| C63 | The picture options with their flags, main and frame block, the renderer's pre-projection transformation, the derivation of ratio and screen window at WorldBegin, the matrices of InitialiseCamera on C60's matrices, and the crop borders (CamModel.v) | The list of requests in force at each world and the latest of each kind, with the place of a point as a formula (CamSpec.v); invariant between options and requests by induction over the program, images composed stage by stage; refutations by concrete programs |
| C64 | `CqTrimLoop`, `CqTrimLoopArray` point and line tests, trimming in `CqMicroPolyGrid::Split` and `CqMicroPolygon::Sample` (TrimModel.v) | each side of a loop changes the answer along a segment as it meets it (convex strip left of the segment), telescoped around the loop; box exit argument for micropolygons; refuted for small loops, notches, sense outside and motion |
| C65 | `RiCxxCore::TrimCurve`, `CqTrimCurve` (`FindSpan`, `BasisFunctions`, `Evaluate`, `InsertKnot`, `Clamp`) and `CqTrimLoop::Prepare` (NurbModel.v), exact rationals; the number of pieces is a parameter | the search halves an interval that keeps the span; the vector of basis values after round r is the Cox-de Boor basis of order r (induction over both loops); partition of unity; clamping: the loops of InsertKnot as functions of the index, one inserted knot at either end keeps the curve (induction over the order), then induction over the missing knots; arrays read back (round trip); refuted for the range min/max and for empty first spans |
| C66 | `CqMixedImageBuffer` (`copyFrom`, `compositeOver`, `clearBuffer`, `initToCheckerboard`, `channelImpl`, `getCopyRegionSize`), `CqImageChannel::copyFrom` / `compositeOver`, `CqImageChannelTyped::getRow` / `replaceRow` / `compositeRow` and the constant, chequered and zoomed sources (ImageModel.v), exact rationals; every read and write outside the memory is `None` | addresses of different pixels and channels differ; a row, then all rows (induction), then all channels (induction over the steps) change exactly their cells; the copy region is the overlap; conversion rounds to the nearest level; refuted: a refused copy with names may have written some channels; a zoomed source is read beyond its last row if the height is not a multiple of the factor |
| C67 | `rgbtohsv`, `hsvtorgb`, `rgbtohsl`, `hsltorgb`, `rgbtoYIQ`, `YIQtorgb` (color.cpp) and `SO_ctransform` for one shading point (ColorModel.v), exact rationals | the meaning of hue is a separate formula (clamped distances on the colour wheel); which component is greatest and least gives one of six sectors and a place in it, also on the borders; the way back is the sector with the same place; refuted: greys in hsl, the transposed YIQ matrix, XYZ and xyY |

## Status convention

`proved` in MANIFEST.json means the English statement of properties.jsonl holds of the model as written. Where some case
of the statement is false of the code, the status is `partial`: the theorem that carries the extra hypothesis ends in
`_partial`, and every case its hypotheses exclude because the code fails there has a `_refuted` theorem.

## Seeded faults

`seeded/LOG.jsonl` has one line per edited model. `failed` names the lemmas whose proof scripts broke;
`theorems_not_rebuilt` the property theorems that depend on them. A broken script alone does not show that the claim
became false, so `witness` records whether the claim was also shown false of the edited model on concrete inputs, by a
check that succeeds on the real model. The first entries of the log have no witness. Equivalent edits are
marked as not a kill.

## Trusted base

* The Coq 8.16.1 kernel (`coqc`; `coqchk` checks the compiled files again). `vm_compute` is used in examples and a few
  finite case checks; `coqchk` repeats them without it.
* The definitions in `XModel.v` are the code only as far as they were transcribed correctly. Nothing but the citations
  (file and lines of `/repo`) ties them to the C++ source. Nothing was compiled or run.
* The definitions in `XSpec.v` and the theorem statements in `PropertiesX.v` say what the English says only as far as
  the reader agrees.
* `Print Assumptions` stands beneath every property theorem. All theorems named in MANIFEST.json are closed under the
  global context (no axioms), with these exceptions, which use the real numbers of the standard library through Flocq:
  `C33_random_in_range_partial`, `C33_reseed_gives_mt19937`, `C33_constructor_seed_refuted`, `C33_tiny_range_refuted`.
  They list `ClassicalDedekindReals.sig_forall_dec`, `ClassicalDedekindReals.sig_not_dec`, `Classical_Prop.classic` and
  `FunctionalExtensionality.functional_extensionality_dep`.
* No axioms, functors or module types are declared and no kernel check is switched off. Section variables are parameters
  of the theorems.

## What is modelled, and what is left out of it

| files of the model | code | left out |
| --- | --- | --- |
| Accum, Tex, Stoch, Mip, Tiff | libs/tex: texture buffers, tile arrays, filter supports, wrap modes, sample accumulators, shadow depth comparison, stochastic sampling, mipmap making and use, TIFF input and output | rounding of floats (except level sizes), libtiff itself, failures of the file system, environment maps, bake files, OpenEXR |
| Archive, Cond, Frame, Valid, Prim, Decl | libs/riutil: the filters for archives, objects, conditionals, frames and validation, declarations and token dictionary; libs/core/api/condition.cpp | texts of messages, procedurals, the tee and print filters |
| BitVector, Shader*, Type, Hash | libs/util/bitvector.cpp; libs/slcomp: type checker and code generator; libs/shadervm: running states, stack, program loop, variable lookup | lexer and grammar of the shading language, shadeops' numerics, illuminance, gather, arrays, void procedures, optimiser, local function inlining |
| RibBuf, RibTok, RibStack, RibLex, RibNum, RibText, RibChain, RibWrite | libs/riutil: input buffer, tokeniser, lexer, request loop, writer | gzip, request handlers beyond reading their arguments |
| State, Opt, Motion, Xform, Mat, Space, Cam | libs/core: mode blocks, attributes and options with copy on write, key frames, transformations, matrices, named spaces, projection | Object and Resource blocks, depth of field, moving shading coordinate systems |
| Prim, Mesh, Poly, Split, Trim, Nurb | libs/core/api and libs/core/geometry: array lengths, patch meshes, curves, polygons, general polygons, splitting and dicing of patches, trimming, trim curves | subdivision surfaces, NURBS, quadrics, blobbies, points, implicit surfaces, displacement |
| Image | libs/tex/buffers/mixedimagebuffer.cpp, imagechannel.cpp and imagechannel.h: channels, copying, compositing, filling | reading from files, resizing and swapping of buffers, copying a buffer into itself |
| Color | libs/math/color.cpp: conversions; libs/shadervm/shaderexecenv/shadeops_matrx.cpp: ctransform | arithmetic and comparison of colours, the loop over shading points |
| Post, Bucket, Occl, Mpg, Mov, Hit, Pixel, Csg, Jitter, Filter | libs/core: posting of surfaces, buckets, occlusion tree, sampling of still and moving micropolygons, hits, pixel pool, CSG, sample positions, pixel filter | depth of field, level of detail transitions, raytracer, threads |
| Display, Shad | libs/core/ddmanager; tools/displays/file | other display drivers, shared library loading, pipes and sockets |
| Search, Esc, Random | libs/util, libs/math | other string and file helpers, noise |

Floating point: `RandomModel.v` uses IEEE rounding (Flocq) and `MipModel.v` rounds level sizes. Everywhere else numbers
are exact (integers or rationals), or an arbitrary type with arbitrary operations. A theorem about exact numbers says
nothing about errors of rounding.

Integers: signed overflow is an outcome of the model where the code's own checks depend on it (RIB numbers, frame
ranges, declarations). Elsewhere sizes are unbounded.

Not modelled at all: threads, the operating system, GUI tools, libs/slxargs, prototypes/newcore, third-party libraries.

## Findings

Each item is a case in which the English property is false of the code as read. Those with a theorem are `_refuted` in
the property's file; the others were noticed while reading and are not formalised.

* RIB input: CR LF across the wrap of the buffer counts a line twice or not at all (C02). Integers overflow while a float
  is read and a truncated long string is padded (C03). A pushed stream inherits code tables and an open array (C32).
* RIB output: a comment with a newline injects requests; whole floats are written as integers; infinities as words (C05).
* Filters: the state of a conditional that was taken is not stacked, so nested conditionals choose wrongly (C10); an
  archive that redefines itself while it is replayed is used after it was freed (C11); frame ranges wrap (C12).
* Declarations: four types do not round trip; a variable named like a keyword cannot be looked up; sizes wrap (C13).
* Validation: a stray ArchiveEnd passes and pops the wrong scope (C09); negative counts pass and lead outside arrays (C39).
* Shaders: a function argument that is also the result is read after it was written; uniform variables assigned in
  varying conditionals (C15, where the rules of the language exclude both); the increment of a `for` loop can leave a
  value on the stack (C16); `!` of a comparison emits an unknown instruction. The type checker lets a nested
  assignment of a call's result through without a cast (C27).
* Names: two names with the same hash are one variable, one option and one coordinate system, e.g. PT and Os (C25, C62).
* Options: an imager set in the main block and in a frame is freed while in use; a `%` without partner never ends (C49, C50).
* Attributes: trim curves are lost when attributes are copied; an ignored Begin makes its End close the outer block (C22).
* Hits: matte surfaces use the colour for the opacity; the order of equal depths matters (C28). Stale output values (C29).
* Micropolygons: sides shorter than 1e-4 make neighbours lose samples on the shared side (C57). Moving grids are bounded
  by extrapolation and sampled by clamping; a closed shutter multiplies hits (C58).
* Buckets: buckets smaller than the filter throw; an empty crop window leaves the grid of buckets (C51).
* Pixel filter: widths such as 1.5 reach samples that are not read; coverage is counted twice in the alpha of partly
  covered pixels (C53).
* Displays: scan line order with a crop window writes outside its line; 32 bit pictures are marked as floats (C54, C55).
* Geometry: patches beyond the first row read the uniform values of row 0 (C40); a wrong vertex number loses all later
  polygons (C41); walls at 45 degrees vanish in general polygons and holes are joined across the outside (C43); arrays
  are transformed only in part (C56).
* Textures: clamped and periodic corners are lost (C24); a tiled file written in several buffers drops lines (C45); a box
  wider than 316 texels makes all smaller levels black (C46).
* Transformations: a number times the identity moves nothing (C60); a moving camera leaves its keys in the world;
  Identity and Transform keep the motion; CoordSysTransform keeps the old handedness (C61).
* Spaces: the place of the last search outlives the renderer and is used as an index into the next one's list (C62).
* Camera: the transformation before a Projection request in a frame outlives the frame; the frame of a given aspect
  ratio can be larger than the picture (C63).
* Trimming: a loop smaller than a micropolygon is lost, a notch between its corners is not cut, the sense "outside" cuts
  whole micropolygons only and removes surfaces that have no trim curves, and moving surfaces are cut in whole
  micropolygons only (C64).
* Trim curves: the range min/max of RiTrimCurve is not looked at, so the whole knot range is used; more equal knots at an
  end than the order give a division of zero by zero; the end of a curve that does not meet the next one is lost (C65).
* Image buffers: a copy with names throws for a missing name after the channels before it were written; a zoomed channel
  is read beyond its last row if the height wanted is not a multiple of the factor, and columns that do not make up a
  whole square become 0 (C66).
* Colour spaces: greys become black in "hsl" (the lightness is set to 0 where the saturation should be); the matrix of
  "YIQ" is written for columns but applied to rows, so that white has Y = 1.107; "XYZ" and "xyY" do nothing (C67).
