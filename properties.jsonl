{"id": "C01", "title": "RIB input buffer delivers the exact byte stream", "statement": "Reading characters from a RIB input buffer one at a time yields exactly the bytes of the underlying stream in order and then end-of-file, whatever chunk sizes the stream hands out, and a single unget followed by a get yields the same byte again.", "quantifier": "every byte stream, every schedule of chunk sizes returned by the stream, every interleaving of get with single ungets", "why_tests_cant": "The buffer wraps every 254 bytes and refills from chunks whose sizes depend on the OS; the state space of (position, chunk schedule, unget) is unbounded.", "anchors": ["libs/riutil/ribinputbuffer.h:RibInputBuffer::get", "libs/riutil/ribinputbuffer.h:RibInputBuffer::unget", "libs/riutil/ribinputbuffer.cpp:RibInputBuffer::bufferNextChars"]}
{"id": "C02", "title": "RIB error positions are exact", "statement": "After each character read, the reported line number equals one plus the number of line terminators (LF, CR or CRLF counted once) read so far, and the reported column is the number of characters since the last one; ungetting a character also takes back its position.", "quantifier": "every byte stream and chunk schedule", "why_tests_cant": "The reported position depends on where a CRLF pair falls relative to internal buffer boundaries, which tests with short files never exercise.", "anchors": ["libs/riutil/ribinputbuffer.h:RibInputBuffer::get", "libs/riutil/ribinputbuffer.cpp:RibInputBuffer::bufferNextChars"]}
{"id": "C03", "title": "RIB tokenising always makes progress", "statement": "On any byte string whatsoever the RIB tokeniser returns a token for each call and reaches end-of-file after finitely many tokens; it never loops, and never consumes past the end of the input.", "quantifier": "every finite byte string, every tokeniser state", "why_tests_cant": "Input is arbitrary binary data.", "anchors": ["libs/riutil/ribtokenizer.cpp:RibTokenizer::scanNext", "libs/riutil/ribtokenizer.cpp:RibTokenizer::readNumber", "libs/riutil/ribtokenizer.cpp:RibTokenizer::readString"]}
{"id": "C04", "title": "Binary RIB round trip", "statement": "A sequence of requests with integer, float, string and array arguments, written by the binary RIB formatter and read back by the RIB tokeniser, gives the same sequence of request names and argument tokens.", "quantifier": "every sequence of requests with at most 256 distinct names, every 32-bit int, every 32-bit float bit pattern, every string and array of encodable length", "why_tests_cant": "Encodings are chosen by value ranges and by the history of requests already written; only induction over the history covers it.", "anchors": ["libs/riutil/ribwriter.cpp:BinaryFormatter", "libs/riutil/ribtokenizer.cpp:RibTokenizer::scanNext"]}
{"id": "C05", "title": "ASCII RIB round trip", "statement": "A sequence of requests with integer, string and array arguments, written by the ASCII RIB formatter and read back by the RIB tokeniser, gives the same sequence of request names and argument tokens.", "quantifier": "every sequence of requests, every int, every string", "why_tests_cant": "Strings are arbitrary; the two sides of the format live in different files and disagree on escapes only for particular characters.", "anchors": ["libs/riutil/ribwriter.cpp:AsciiFormatter", "libs/riutil/ribtokenizer.cpp:RibTokenizer::readString", "libs/riutil/ribtokenizer.cpp:RibTokenizer::readNumber"]}
{"id": "C06", "title": "Binary request codes stay unambiguous", "statement": "However many distinct request names are written to one binary RIB stream, each encoded request decodes to the name that was written.", "quantifier": "every sequence of request names of any length", "why_tests_cant": "The code is one byte wide; the failure needs more distinct names than any test writes.", "anchors": ["libs/riutil/ribwriter.cpp:BinaryFormatter::beginRequest", "libs/riutil/ribtokenizer.cpp:RibTokenizer::lookupEncodedRequest"]}
{"id": "C07", "title": "Error recovery never loses a request", "statement": "When reading a request's arguments fails, the reader skips exactly the tokens up to the next request token (or the end of the stream): the next request returned is the first request token at or after the point of failure.", "quantifier": "every token sequence and every sequence of argument-reading calls", "why_tests_cant": "Depends on the position of errors in arbitrary token streams.", "anchors": ["libs/riutil/riblexer.cpp:RibLexer::discardUntilRequest", "libs/riutil/riblexer.cpp:RibLexer::tokenError", "libs/riutil/riblexer.cpp:RibLexer::nextRequest", "libs/riutil/ribparser.cpp:RibParser::parseStream"]}
{"id": "C08", "title": "Typed argument reading returns what was written", "statement": "If the next tokens spell a value of the requested type (int, float, string, or array of these, with the bracketed or unbracketed forms allowed), the typed read returns exactly that value and consumes exactly those tokens; otherwise it fails without returning a value.", "quantifier": "every token stream, every requested type and length", "why_tests_cant": "Unbounded arrays; mixed int/float arrays.", "anchors": ["libs/riutil/riblexer.cpp:RibLexer::getIntArray", "libs/riutil/riblexer.cpp:RibLexer::getFloatArray", "libs/riutil/riblexer.cpp:RibLexer::getStringArray", "libs/riutil/riblexer.cpp:RibLexer::getFloat"]}
{"id": "C09", "title": "Validation filter accepts only legally nested calls", "statement": "With the validate filter in place, the sequence of begin/end and scoped calls forwarded downstream is always legally nested: every forwarded End closes the innermost open block of its own kind, and every forwarded call is allowed by the RI spec in the block it appears in.", "quantifier": "every sequence of interface calls of any length", "why_tests_cant": "Unbounded nesting and call histories.", "anchors": ["libs/riutil/ricxx_validate.cpp:ValidateFilter::pushScope", "libs/riutil/ricxx_validate.cpp:ValidateFilter::popScope", "libs/riutil/ricxx_validate.cpp:ValidateFilter::checkScope"]}
{"id": "C10", "title": "Conditional RIB executes exactly the selected branches", "statement": "IfBegin/ElseIf/Else/IfEnd blocks forward exactly the requests in the first clause whose condition is true, at every nesting depth.", "quantifier": "every well-nested sequence of conditional requests of any depth, every outcome of each condition", "why_tests_cant": "Nesting depth and interleaving are unbounded; the defect appears only with a nested conditional inside a taken clause.", "anchors": ["libs/riutil/renderutil_filter.cpp:RenderUtilFilter::IfBegin", "libs/riutil/renderutil_filter.cpp:RenderUtilFilter::ElseIf", "libs/riutil/renderutil_filter.cpp:RenderUtilFilter::Else", "libs/riutil/renderutil_filter.cpp:RenderUtilFilter::IfEnd"]}
{"id": "C11", "title": "Inline archives and objects replay exactly what they recorded", "statement": "ReadArchive of an inline archive (or ObjectInstance of an object) has the effect of the requests recorded between its begin and end, in order, wherever and however often it is instanced, including nested archives.", "quantifier": "every well-nested sequence of archive/object definitions and instances", "why_tests_cant": "Unbounded nesting and instancing depth.", "anchors": ["libs/riutil/renderutil_filter.cpp:RenderUtilFilter::ArchiveBegin", "libs/riutil/renderutil_filter.cpp:RenderUtilFilter::ReadArchive", "libs/riutil/renderutil_filter.cpp:RenderUtilFilter::ObjectBegin", "libs/riutil/ricxx_cache.h:CachedRiStream::replay"]}
{"id": "C12", "title": "Frame dropping keeps exactly the requested frames", "statement": "With the framedrop filter, the forwarded request stream is the input stream with every frame block whose number is not in the requested set removed, and nothing else removed; the requested set is exactly the one denoted by the frame-list string.", "quantifier": "every request sequence, every frame-list string", "why_tests_cant": "Frame lists are arbitrary strings with ranges; histories are unbounded.", "anchors": ["libs/riutil/framedrop_filter.cpp:FrameDropFilter", "libs/riutil/framedrop_filter.cpp:parseFrames"]}
{"id": "C13", "title": "Primitive variable declarations parse as specified", "statement": "Parsing the printed form of any primitive-variable token gives back the same class, type, array length and name, and a name looked up in the token dictionary gives the last declaration made for it unless the lookup carries its own inline declaration.", "quantifier": "every class, type, array length, name and every sequence of Declare calls", "why_tests_cant": "Arbitrary names, whitespace and declaration histories.", "anchors": ["libs/riutil/tokendictionary.cpp:parseDeclaration", "libs/riutil/tokendictionary.cpp:TokenDict::lookup", "libs/riutil/primvartoken.cpp"]}
{"id": "C14", "title": "Running-state bit vectors behave as sets of shading points", "statement": "Set, complement, intersect, union and count on bit vectors of the same length compute the corresponding set operation bit for bit, including vectors whose length is not a multiple of eight.", "quantifier": "every vector length and content, every sequence of operations", "why_tests_cant": "All lengths and contents; trailing-bit errors only show for particular lengths.", "anchors": ["libs/util/bitvector.cpp:CqBitVector::Intersect", "libs/util/bitvector.cpp:CqBitVector::Union", "libs/util/bitvector.cpp:CqBitVector::Complement", "libs/util/bitvector.cpp:CqBitVector::Count"]}
{"id": "C15", "title": "SIMD shader execution equals per-point execution", "statement": "Compiling structured shader control flow (if/else, while, for, break n, continue n, conditional expressions) and running it on the SIMD shader VM over a grid gives every shading point the same variable values as running the statement for that point alone, provided the shader follows the language's rules: no operand uses a variable assigned by a sibling operand, uniform variables are assigned only uniform values under uniform control, conditions of ?: are relations, and expression statements are assignments or calls.", "quantifier": "every program that follows the rules, every number of shading points, every initial value, every pattern of divergence", "why_tests_cant": "Divergence patterns and program shapes are unbounded; correctness is a simulation, not a point check.", "anchors": ["libs/slcomp/backend/vmoutput.cpp:CqCodeGenOutput::Visit", "libs/shadervm/shadervm1.cpp:CqShaderVM::SO_RS_JZ", "libs/shadervm/shaderexecenv/shaderexecenv.h:CqShaderExecEnv::RunningStatesBreak", "libs/shadervm/shaderexecenv/shaderexecenv.h:CqShaderExecEnv::InvertRunningState"]}
{"id": "C16", "title": "Shader code leaves the stacks balanced", "statement": "Running a compiled shader body leaves the value stack and the running-state stack empty, and no instruction ever pops an empty stack or jumps to a missing label, whether or not the shader terminates.", "quantifier": "every program and input, every prefix of every execution", "why_tests_cant": "Program shapes and jump paths are unbounded.", "anchors": ["libs/slcomp/backend/vmoutput.cpp:CqCodeGenOutput::rsPush", "libs/shadervm/shadervm.h:CqShaderVM", "libs/shadervm/shaderstack.h:CqShaderStack"]}
{"id": "C17", "title": "CSG resolves to the boundary of the boolean solid", "statement": "For a pixel sample ray, the surfaces that survive CSG processing are exactly those at which the ray enters or leaves the solid described by the CSG expression.", "quantifier": "every CSG tree, every depth-sorted list of surface hits on closed primitives, eye outside all of them", "why_tests_cant": "Arbitrary trees and hit orderings.", "anchors": ["libs/core/csgtree.cpp:CqCSGTreeNode::ProcessSampleList", "libs/core/csgtree.cpp:CqCSGTreeNode::ProcessTree", "libs/core/csgtree.cpp:CqCSGNodeUnion::EvaluateState"]}
{"id": "C18", "title": "CSG processing in a pixel terminates and resolves every sample", "statement": "The CSG loop over a pixel's hits terminates and afterwards no hit is still attached to a solid.", "quantifier": "every set of CSG trees and every list of hits attached to their primitives", "why_tests_cant": "Termination over arbitrary inputs.", "anchors": ["libs/core/imagepixel.cpp:CqImagePixel::Combine", "libs/core/csgtree.cpp:CqCSGTreeNode::ProcessTree"]}
{"id": "C19", "title": "Occlusion culling never removes visible geometry", "statement": "A surface is culled only if every sample position inside its screen bound already holds an opaque hit closer than the nearest depth of the bound.", "quantifier": "every bucket size, sampling rate, sequence of depth updates and query bound", "why_tests_cant": "All tree shapes, update histories and bounds.", "anchors": ["libs/core/occlusion.cpp:CqOcclusionTree::canCull", "libs/core/occlusion.cpp:CqOcclusionTree::propagateDepths", "libs/core/occlusion.cpp:CqOcclusionTree::setupTree", "libs/core/occlusion.h:CqOcclusionTree::treeIndexForPoint"]}
{"id": "C20", "title": "Multi-jittered sample patterns are stratified", "statement": "Whatever the random numbers, a multi-jittered pixel sample pattern puts exactly one sample in each cell of the grid and exactly one in each fine row and each fine column, and shuffled index tables are permutations.", "quantifier": "every grid size, every outcome of the random generator", "why_tests_cant": "All random outcomes.", "anchors": ["libs/core/multijitter.cpp:CqMultiJitteredSampler::multiJitterIndices", "libs/core/multijitter.cpp:CqMultiJitteredSampler::shuffledIndices"]}
{"id": "C21", "title": "Motion key frames form a sorted map from time to value", "statement": "After any sequence of adding and concatenating key frames, the key times are strictly increasing, looking up a key time gives the value last stored there, and looking up any time selects the bracketing pair of keys.", "quantifier": "every sequence of AddTimeSlot/ConcatTimeSlot calls with any times", "why_tests_cant": "Unbounded histories and arbitrary insertion orders.", "anchors": ["libs/core/motion.h:CqMotionSpec::AddTimeSlot", "libs/core/motion.h:CqMotionSpec::GetTimeSlot", "libs/core/motion.h:CqMotionSpec::ConcatTimeSlot"]}
{"id": "C22", "title": "Graphics-state blocks restore the enclosing state", "statement": "Closing a Frame block restores attributes, transformation and options to what they were when it was opened; closing an Attribute, World or Solid block restores attributes and transformation; closing a Transform block restores the transformation but keeps attribute changes; a Motion block keeps both. All attributes are inherited on opening. Attributes and transformation kept by a primitive never change afterwards.", "quantifier": "every well-nested sequence of block and state-changing calls", "why_tests_cant": "Unbounded nesting; sharing between blocks is by pointer so errors depend on history.", "anchors": ["libs/core/api/graphicsstate.cpp:CqAttributeModeBlock", "libs/core/api/graphicsstate.cpp:CqTransformModeBlock", "libs/core/renderer.cpp:CqRenderer"]}
{"id": "C23", "title": "Tiled texture traversal visits each texel of a region exactly once", "statement": "Iterating a tiled texture over a rectangular support visits every texel inside the support exactly once, whatever the tile size, and reads each from the tile that owns it.", "quantifier": "every texture size, tile size and support rectangle inside the texture", "why_tests_cant": "All geometry combinations.", "anchors": ["include/aqsis/tex/buffers/tilearray.h:CqTileArray::CqIterator", "include/aqsis/tex/buffers/texturebuffer.h:CqTextureBuffer::CqIterator", "include/aqsis/tex/io/itiledtexinputfile.h:readTile", "libs/tex/io/tiledtiffinputfile.cpp:readTileImpl"]}
{"id": "C24", "title": "Texture wrap modes map every coordinate to the right texel", "statement": "Periodic, clamp and black wrap modes cover a filter support that hangs over the texture edges with exactly the texels given by wrapping each coordinate individually.", "quantifier": "every support rectangle (including negative coordinates and spans of several periods), every texture size", "why_tests_cant": "Integer edge cases over unbounded coordinates.", "anchors": ["include/aqsis/tex/filtering/filtertexture.h:filterTexture", "include/aqsis/tex/buffers/filtersupport.h:SqFilterSupport", "include/aqsis/tex/filtering/wrapmode.h:EqWrapMode"]}
{"id": "C25", "title": "Names are looked up by name", "statement": "Looking up a variable, token or attribute by name never returns an entry with a different name.", "quantifier": "every pair of names", "why_tests_cant": "Lookups compare hashes of the names (of the word size); collisions are rare but constructible, and there are too many names to try.", "anchors": ["libs/slcomp/parse/vardef.cpp:CqVarDef::FindVariable", "include/aqsis/util/sstring.h:CqString::hash", "libs/shadervm/shadervm.h:CqShaderVM::FindLocalVarIndex", "libs/shadervm/shaderexecenv/shaderexecenv.cpp:CqShaderExecEnv::FindStandardVarIndex", "libs/core/surface.cpp:CqSurface::FindUserParam"]}
{"id": "C26", "title": "String escaping round trip", "statement": "Expanding escapes in a string and translating them back gives the same string, and translation never reads outside the string.", "quantifier": "every character string", "why_tests_cant": "All strings.", "anchors": ["libs/util/sstring.cpp:CqString::ExpandEscapes", "libs/util/sstring.cpp:CqString::TranslateEscapes"]}
{"id": "C27", "title": "Shading-language type checking only accepts well-typed expressions", "statement": "If the type checker accepts an expression for a set of requested types then, with the casts it inserted, the expression has one of the requested types and each inserted cast is between types the language allows to be converted.", "quantifier": "every expression tree and every set of requested types", "why_tests_cant": "Unbounded expression trees and overload sets.", "anchors": ["libs/slcomp/parse/typecheck.cpp", "libs/slcomp/parse/parsenode.cpp:CqParseNode::FindCast"]}
{"id": "C28", "title": "What a sample shows is the front-to-back composite of its hits", "statement": "Whatever order the hits of a sample arrive in, and whatever is culled on the way, the colour and opacity of the sample are the front-to-back 'over' composite of all its hits (matte objects show and count as nothing while hiding what is behind them), and its depth is that chosen by the depth filter (min, max, midpoint, average) among the opaque hits.", "quantifier": "every list of hits with colours, opacities, matte flags and depths, every arrival order, every depth filter", "why_tests_cant": "Any number of hits in any order.", "anchors": ["libs/core/imagepixel.cpp:CqImagePixel::Combine", "libs/core/bucketprocessor.cpp:CqBucketProcessor::StoreSample"]}
{"id": "C29", "title": "Recycling pixels is invisible", "statement": "Handing out recycled pixels is indistinguishable from making a new blank pixel at every allocation: a recycled pixel is blank, nobody else refers to it, no deleted pixel is ever used, hits never overwrite each other, and each pixel is deleted exactly when the last pointer to it goes.", "quantifier": "every sequence of allocate, free, copy, reset, clear, store and collapse operations on any number of pointers, for every number of samples and hit size", "why_tests_cant": "Aliasing depends on unbounded histories.", "anchors": ["libs/core/imagepixel.h:CqPixelPool", "libs/core/imagepixel.cpp:CqImagePixel"]}
{"id": "C30", "title": "Primitive-variable counts match the geometry", "statement": "The number of uniform, varying and vertex values demanded for patch meshes and curves equals the number of patches (of curves, for curves), of patch corners (of segment ends, for curves) and of control vertices of the geometry, and the renderer reads as many as were demanded.", "quantifier": "every mesh size, number of curves and of their vertices, basis step and wrap mode", "why_tests_cant": "All integer parameters; wrap modes and steps interact.", "anchors": ["include/aqsis/riutil/ricxxutil.h:patchMeshIClassCounts", "include/aqsis/riutil/ricxxutil.h:curvesIClassCounts"]}
{"id": "C31", "title": "Conditional tests never reject what they cannot understand", "statement": "A RIB condition that cannot be parsed or that names an unknown parameter counts as true, and a well-formed numeric comparison has its mathematical meaning.", "quantifier": "every condition string and parameter value", "why_tests_cant": "All strings and values.", "anchors": ["libs/core/api/condition.cpp:TestCondition", "libs/core/api/condition.cpp:Condition"]}
{"id": "C32", "title": "Input stack isolates nested RIB streams", "statement": "Reading an archive from within a RIB stream and returning continues the outer stream exactly where it left off, token for token.", "quantifier": "every outer and inner stream, every interruption point", "why_tests_cant": "Interruption points and stream contents are unbounded.", "anchors": ["libs/riutil/ribtokenizer.cpp:RibTokenizer::pushInput", "libs/riutil/ribtokenizer.cpp:RibTokenizer::popInput"]}
{"id": "C33", "title": "Random numbers stay in range and follow the reseeded sequence", "statement": "Whatever sequence of constructions, reseeds and draws was made before, every random integer drawn with a range k lies in [0,k), every random float in [0,1) or [0,range) (the bound itself is never returned, in spite of float rounding), and the draws after Reseed(s) are exactly the MT19937 outputs for seed s.", "quantifier": "all seeds, all histories of calls on any number of generator objects, all 32-bit ranges and all normal float ranges, all draw counts", "why_tests_cant": "Off-by-one rounding to the upper bound happens for about one draw in 2^32 and only for particular ranges; the sequence property ranges over unboundedly many draws and all seeds.", "anchors": ["libs/math/random.cpp:genrand_int32", "libs/math/random.cpp:CqRandom::RandomFloat", "libs/math/random.cpp:CqRandom::RandomInt", "include/aqsis/math/random.h", "include/aqsis/math/math.h:lfloor"]}
{"id": "C34", "title": "Numbers in a RIB stream have the value they spell", "statement": "A decimal number in a RIB stream is read as a single token whose value is the number spelt; it is an integer token exactly if it has neither point nor exponent. A binary fixed point number has the value of its bytes in base 256 divided by 256 to the number of bytes after the point.", "quantifier": "every literal with digits before or after the point, optional sign, fraction and exponent; every fixed point encoding", "why_tests_cant": "Infinitely many spellings; errors show only for particular combinations of sign, point, exponent and digit count.", "anchors": ["libs/riutil/ribtokenizer.cpp:RibTokenizer::readNumber", "libs/riutil/ribtokenizer.cpp:RibTokenizer::decodeFixedPoint"]}
{"id": "C35", "title": "Codes in a binary RIB refer to their last definition", "statement": "In a binary RIB stream a request code or string code stands for the request name or string of its most recent definition before the use, and is an error if it was never defined.", "quantifier": "every sequence of definitions (by short encoded strings, of up to 15 bytes) and uses of request codes and of one- and two-byte string codes", "why_tests_cant": "Depends on the whole history of definitions in the stream.", "anchors": ["libs/riutil/ribtokenizer.cpp:RibTokenizer::lookupEncodedRequest", "libs/riutil/ribtokenizer.cpp:RibTokenizer::lookupEncodedString"]}
{"id": "C36", "title": "Argument values stay valid until the next request", "statement": "The values the RIB reader hands out for the arguments of a request, and the request's name, do not change while further arguments are read or skipped, until the next request is read.", "quantifier": "every token stream, every history of reads before, every sequence of reads after", "why_tests_cant": "Buffers are recycled from pools; aliasing would show only for particular histories of reads.", "anchors": ["libs/riutil/riblexer.h:MultiBuffer", "libs/riutil/riblexer.cpp:RibLexer::nextRequest", "libs/riutil/riblexer.cpp:RibLexer::getFloatArray"]}
{"id": "C37", "title": "Requests written in binary are read back by the parser's reader", "statement": "For every sequence of requests written in binary RIB, tokenising the bytes and reading each request and its arguments through the typed reads gives the same request names, in the same order, with equal argument values.", "quantifier": "every sequence of requests with arguments", "why_tests_cant": "Composition of writer, tokeniser and reader over unbounded sequences with evolving request codes and recycled buffers.", "anchors": ["libs/riutil/ribwriter.cpp:BinaryFormatter", "libs/riutil/ribtokenizer.cpp:RibTokenizer::scanNext", "libs/riutil/riblexer.cpp:RibLexer"]}
{"id": "C38", "title": "ASCII RIB text is split into the right tokens", "statement": "Names, quoted strings, numbers and brackets written one after the other, separated by blanks or comments or by nothing where two neighbours cannot run together, are read as exactly these tokens, in order, with the values spelt.", "quantifier": "every sequence of names, strings, numbers, brackets, blanks and comments", "why_tests_cant": "The combinations of neighbouring tokens without separators are unbounded.", "anchors": ["libs/riutil/ribtokenizer.cpp:RibTokenizer::scanNext", "libs/riutil/ribtokenizer.cpp:RibTokenizer::readRequest", "libs/riutil/ribtokenizer.cpp:RibTokenizer::readString", "libs/riutil/ribtokenizer.cpp:RibTokenizer::readNumber", "libs/riutil/ribtokenizer.cpp:RibTokenizer::readComment"]}
{"id": "C39", "title": "Accepted geometry is read within its arrays", "statement": "When the validation filter passes a geometry call on, the renderer's reading of its arrays and primitive variables stays inside the arrays that were given; and the filter asks for no more values than the renderer reads.", "quantifier": "every geometry call with arrays and primitive variables of any lengths, classes and types", "why_tests_cant": "A missing check shows only for particular lengths and types, of which there are infinitely many.", "anchors": ["libs/riutil/ricxx_validate.cpp:RiCxxValidate::checkParamListArraySizes", "libs/core/api/ri.cpp:ProcessPrimitiveVariables", "include/aqsis/riutil/ricxx.h:TypeSpec::storageCount"]}
{"id": "C40", "title": "Patches and curve segments take their own values", "statement": "Each patch of a patch mesh and each segment of a set of curves takes the uniform value, the corner or end values and the control vertices which the interface assigns to it, going round in periodic directions, and reads no value that was not given.", "quantifier": "every patch or segment of every mesh and every set of curves, with any basis step and wrap mode", "why_tests_cant": "Index arithmetic over all sizes, steps and wrap modes; a test fixes a few.", "anchors": ["libs/core/geometry/patch.cpp:CqSurfacePatchMeshBicubic::SplitInternally", "libs/core/geometry/patch.cpp:CqSurfacePatchMeshBilinear::Split", "libs/core/geometry/cubiccurves.cpp:CqCubicCurvesGroup::Split", "libs/core/geometry/linearcurves.cpp:CqLinearCurvesGroup::Split"]}
{"id": "C41", "title": "Polygons of a call do not disturb each other", "statement": "Each polygon of a PointsPolygons call is drawn with its own vertices, its own uniform value and its own face varying values, whatever the other polygons of the call are.", "quantifier": "every PointsPolygons call: any number of polygons, of any sizes, with any vertex numbers", "why_tests_cant": "A running position is carried from polygon to polygon; a mistake shows only for particular combinations of sizes and numbers.", "anchors": ["libs/core/geometry/polygon.cpp:CqSurfacePointsPolygons::Split"]}
{"id": "C42", "title": "A polygon and its pieces cover the same", "statement": "A polygon is divided into four-cornered and triangular pieces (triangular ones are marked by a phantom fourth corner) whose outlines together cover exactly what the polygon covers, each point of a convex polygon once; every corner of a piece carries the vertex, varying, face varying and uniform values of the polygon at that corner, and over a triangular piece values are interpolated linearly.", "quantifier": "every polygon of any number of vertices at any positions, with any values", "why_tests_cant": "It holds for all vertex counts and positions; pictures show a few.", "anchors": ["libs/core/geometry/polygon.cpp:CqPolygonBase::Split", "libs/core/geometry/polygon.cpp:CqPolygonBase::CreatePhantomData", "libs/core/geometry/polygon.h:CqSurfacePointsPolygon::PolyIndex"]}
{"id": "C43", "title": "General polygons are cut into triangles that cover them", "statement": "A general polygon is divided into triangles that cover what its outer loop covers less its holes, turned like the outer loop; each triangle has the values given for its vertices and its polygon, and the call changes no attribute.", "quantifier": "every GeneralPolygon and PointsGeneralPolygons call: any number of loops with any vertices, any orientation", "why_tests_cant": "Cutting off corners depends on the positions of all other vertices; no finite set of shapes covers it.", "anchors": ["libs/core/api/genpoly.cpp:CqPolygonGeneral2D::Triangulate", "libs/core/api/genpoly.cpp:CqPolygonGeneral2D::Combine", "libs/core/api/ri.cpp:RiCxxCore::GeneralPolygon", "libs/core/api/ri.cpp:RiCxxCore::PointsGeneralPolygons"]}
{"id": "C45", "title": "Image files give back the pixels written to them", "statement": "An image written to a TIFF file, in tiles of any size or in scanlines, with one call or with several, is what is read from it afterwards: any range of lines, in whole or through tiles, has the pixels of those lines, whatever was in the memory used for buffers. Ranges of lines that the file does not have are refused.", "quantifier": "every image size, tile size, division of the image over calls, range of lines and content of the buffers' memory", "why_tests_cant": "Sizes, tile sizes and ranges are unbounded; the mistakes are at partial tiles, first and last rows of tiles and divisions of the image that a chosen set of files does not meet.", "anchors": ["libs/tex/io/tiffoutputfile.cpp:CqTiffOutputFile::writeTiledPixels", "libs/tex/io/tiffoutputfile.cpp:CqTiffOutputFile::writeScanlinePixels", "libs/tex/io/tiffinputfile.cpp:CqTiffInputFile::readPixelsTiled", "include/aqsis/tex/io/itexinputfile.h:IqTexInputFile::readPixels", "include/aqsis/tex/io/itexoutputfile.h:IqTexOutputFile::writePixels"]}
{"id": "C44", "title": "A filtered texture value is the weighted mean of the texels in the region", "statement": "Filtering a texture over a region gives, for each channel that the texture has, the mean of the texels of the region (wrapped as asked for) weighted by the filter, and the fill value for channels it does not have; memory beyond the channels asked for is not changed, texels are counted once each, and tiled and untiled textures give the same. With weights that are not negative the result lies between the least and greatest texel.", "quantifier": "every texture, size, tiling, region, filter weights, wrap mode, start channel and number of channels", "why_tests_cant": "Weights, regions and positions of tile borders are unbounded; a texel counted twice at a border changes the mean slightly, which images compared with a tolerance do not show.", "anchors": ["include/aqsis/tex/filtering/sampleaccum.h:CqSampleAccum", "include/aqsis/tex/filtering/filtertexture.h:filterTexture", "include/aqsis/tex/filtering/filtertexture.h:filterTextureNowrap"]}
{"id": "C48", "title": "A shadow lookup gives the fraction of the filter region that is occluded", "statement": "A shadow lookup gives the weighted mean, over the depths of the map in the filter region, of how occluded the surface is there: 0 where it is nearer than the depth plus the low bias, 1 where it is beyond the depth plus the high bias, increasing with the depth of the surface in between. So the result is between 0 and 1, 0 when nothing in the region occludes the surface and 1 when everything does; outside the map there is no shadow. Of several maps the one facing the point most is used.", "quantifier": "every shadow map, region, weights that are not negative, surface depths, biases, number of samples and number of views", "why_tests_cant": "Depths, biases and regions are continuous and unbounded; equal biases, empty regions and borders of the map are special cases that chosen scenes do not meet.", "anchors": ["include/aqsis/tex/filtering/sampleaccum.h:CqPcfAccum", "libs/tex/filtering/shadowsampler.cpp:CqShadowSampler::sample", "libs/tex/filtering/shadowsampler.cpp:applyPCF"]}
{"id": "C47", "title": "Random sampling of a texture region takes the number of samples asked for, all from the region", "statement": "When a region of a texture is sampled at random with a given number of samples, exactly that many samples are taken (none when the region is outside the texture); each of them is a texel of the region that is inside the texture, with the value the texture has there; and the texture reads the same afterwards.", "quantifier": "every texture, tiling, history of use, region, number of samples and all random numbers", "why_tests_cant": "How the samples are divided over tiles depends on random numbers and on the rounding of floats; the failing combinations are rare.", "anchors": ["include/aqsis/tex/buffers/tilearray.h:CqTileArray::CqStochasticIterator", "include/aqsis/tex/buffers/texturebuffer.h:CqTextureBuffer::CqStochasticIterator", "include/aqsis/tex/filtering/filtertexture.h:filterTextureNowrapStochastic"]}
{"id": "C46", "title": "Mipmaps are filtered, halved levels of the texture that lookups use in the right place", "statement": "The file that MakeTexture makes has the image as its first level, and each level after it half the size of the one before, rounded up, until one texel is left. Each texel of a level is the mean of the level before around the texel's place there, weighted by the filter, so that a texture of one colour has that colour in all levels. The file is accepted when it is used, with each level in its place on the surface, and a lookup is filtered from one level or is a mixture of two levels that are next to each other, so a texture of one colour looks that colour.", "quantifier": "every image size, number type of the texels, filter and filter width, wrapping, content of the image and of the memory used, and every lookup", "why_tests_cant": "Sizes, contents, filter widths and lookups are unbounded; the mistakes are at odd sizes, at borders, at filters with small weights and in number types that chosen images do not have.", "anchors": ["include/aqsis/tex/buffers/downsample.h:downsample", "include/aqsis/tex/filtering/mipmap.h:CqMipmap", "libs/tex/maketexture/maketexture.cpp:createMipmap", "libs/tex/maketexture/maketexture.cpp:downsampleToFile", "include/aqsis/tex/buffers/channeltraits.h"]}
{"id": "C49", "title": "An option request changes the options in force and nothing else", "statement": "An Option request, or a request such as Format that sets an option, gives the named parameter the values requested, with search paths expanded, and leaves every other parameter, the filter and the imager as they were. Options that are pushed come back when they are popped, a frame gets a copy of the options in force and leaves the options as they were before it, and options that some part of the renderer keeps do not change afterwards, however the copies share their storage.", "quantifier": "every row of requests, with any nesting of blocks, pushes and pops of options and any copies being kept, and all names, types and values", "why_tests_cant": "Copies share storage by reference counts and are copied when written; a wrong count shows only for particular orders of requests, nestings and kept copies.", "anchors": ["libs/core/options.cpp:CqOptions::pOptionWrite", "libs/core/options.cpp:CqOptions::GetFloatOptionWrite", "libs/core/api/ri.cpp:RiCxxCore::Option", "libs/core/api/graphicsstate.h:poptWriteCurrent", "libs/core/api/graphicsstate.h:pushOptions", "libs/core/options.cpp:CqOptions::SetpshadImager"]}
{"id": "C50", "title": "Search paths expand as written and files are found in the first directory that has them", "statement": "Setting a search path gives the path as written with & replaced by the previous path, @ by the default path and %x% by the environment variable x, and the request ends. A file that is not named absolutely or from the current directory is found in the first directory of its search path, and then of the resource path, that has it as a regular file, whatever the other directories are; a file that is nowhere is reported as missing.", "quantifier": "every search path text, previous and default path, environment, file name, list of directories and content of the file system", "why_tests_cant": "Path texts and file systems are unbounded; the failing cases are odd numbers of separators and directories that cannot be read.", "anchors": ["libs/util/file.cpp:expandSearchPath", "libs/util/file.cpp:findFileNothrow", "include/aqsis/util/file.h:CqSearchPathsTokenFunc", "libs/core/options.cpp:CqOptions::findRiFileNothrow"]}
{"id": "C51", "title": "The picture does not depend on the buckets it is rendered in", "statement": "Rendering ends, and whatever the bucket size, every pixel of the crop window is handed to the display exactly once. Every pixel handed to the display is made of the samples at all positions its filter reaches, each set and combined exactly once, and at each position of every micropolygon whose bound touches it exactly once, no matter which bucket they were sampled in. So two bucket sizes give the same picture.", "quantifier": "every resolution, bucket size, filter width, crop window and list of micropolygons", "why_tests_cant": "Samples near bucket borders are handed from bucket to bucket through up to eight shared segments; a mistake in one corner shows only for some combinations of bucket position, filter width and crop window, and the picture still looks right.", "anchors": ["libs/core/imagebuffer.cpp:CqImageBuffer::RenderImage", "libs/core/imagebuffer.cpp:CqImageBuffer::AddMPG", "libs/core/bucketprocessor.cpp:CqBucketProcessor::preProcess", "libs/core/bucketprocessor.cpp:CqBucketProcessor::postProcess", "libs/core/bucketprocessor.cpp:CqBucketProcessor::buildCacheSegment", "libs/core/bucketprocessor.cpp:CqBucketProcessor::FilterBucket"]}
{"id": "C52", "title": "No part of the scene is lost or rendered twice on its way through the buckets", "statement": "Rendering ends, and in every bucket each micropolygon of the scene whose bound, grown by the reach of the filter, touches the bucket is rendered exactly once, unless its surface or a surface it was split from was found hidden in that very bucket; a surface hidden in one bucket still appears in all others it touches. This holds in whatever order the surfaces of a bucket are taken and whatever the occlusion tests answer. If nothing is found hidden, every pixel is made of all micropolygons of the scene that touch the positions its filter reaches.", "quantifier": "every resolution, bucket size, filter width and crop window that is not empty, every scene of surfaces that are split, diced or discarded and whose bounds hold what they are split into, every order of surfaces and every answer of the occlusion tests", "why_tests_cant": "Surfaces move from bucket to bucket depending on what was rendered before, are split in one bucket into parts for others, and are dropped when nothing is left for them; a part that is dropped too early is missing only for some orders and some answers.", "anchors": ["libs/core/imagebuffer.cpp:CqImageBuffer::CullSurface", "libs/core/imagebuffer.cpp:CqImageBuffer::PostSurface", "libs/core/imagebuffer.cpp:CqImageBuffer::RepostSurface", "libs/core/imagebuffer.cpp:CqImageBuffer::AddMPG", "libs/core/bucketprocessor.cpp:CqBucketProcessor::process", "libs/core/bucketprocessor.cpp:CqBucketProcessor::RenderSurface"]}
{"id": "C53", "title": "A pixel is the weighted mean of the samples its filter reaches", "statement": "Each pixel that a bucket hands to the displays has, in its own place and in each channel (colour, opacity, depth and those of the shaders), the mean of the values of all samples of the picture within the reach of the pixel filter, weighted by the filter, samples that hit nothing counting as zero; a pixel whose filter reaches no surface is black, transparent and infinitely far. Hence a surface of one colour has just this colour in the picture, and with a filter that is nowhere negative no colour is brighter or darker than those of the samples and black. The alpha of a pixel is its filtered opacity, its coverage the part of the pixel that is covered, and its depth that of surfaces that were hit. No value is divided by zero or read from outside the filter table.", "quantifier": "every number of samples per pixel, filter width and function, every set of samples inside their pixels, every display region, every list of channels of shaders", "why_tests_cant": "Widths, sample counts, regions and channel lists are unbounded and interact in the index arithmetic of the filter table and of the channel buffer; a test picture shows a few widths, and errors at half-covered pixels or odd widths are small and look like antialiasing.", "anchors": ["libs/core/bucketprocessor.cpp:CqBucketProcessor::FilterBucket", "libs/core/bucketprocessor.cpp:CqBucketProcessor::InitialiseFilterValues", "libs/core/channelbuffer.h:CqChannelBuffer"]}
{"id": "C54", "title": "A picture file holds the picture", "statement": "The file that a file display writes has the size of the crop window and, for each of its pixels, one sample for each channel of the mode in the order of the mode (colour, alpha, depth, or the values of an output variable), which is the value of that channel of that pixel of the rendered picture, stored as the quantization asks for. This holds whether the pixels come bucket by bucket or, with the parameter scanlineorder, line by line, and no buffer on the way is left.", "quantifier": "every resolution, crop window, bucket size, picture, mode, quantization and both orders", "why_tests_cant": "Resolution, window and bucket size interact in the arithmetic of four buffers; a wrong offset shows only for windows that begin or end inside a bucket, and memory beyond a buffer often happens to be harmless.", "anchors": ["libs/core/ddmanager/ddmanager.cpp:CqDisplayRequest::DisplayBucket", "libs/core/ddmanager/ddmanager.cpp:CqDisplayRequest::FormatBucketForDisplay", "libs/core/ddmanager/ddmanager.cpp:CqDisplayRequest::CollapseBucketsToScanlines", "libs/core/api/ri.cpp:RiCxxCore::Display", "tools/displays/file/display.cpp:DspyImageOpen", "tools/displays/file/display.cpp:DspyImageData", "tools/displays/file/display.cpp:WriteTIFF", "tools/displays/dspyutil/dspyhlpr.c:DspyReorderFormatting"]}
{"id": "C55", "title": "Values of a picture are quantized to the nearest number that is allowed", "statement": "A value v is stored as the integer nearest to zero + v (one - zero) + dither times a random number, but not below the minimum and not above the maximum of the quantization; if one is 0 it is stored as it is. The type the display is given holds all these numbers, and a larger value never gets a smaller number.", "quantifier": "every quantization, every value, every random number", "why_tests_cant": "Limits, signs and values form an infinite set and errors are off by one at ties, at limits and at the borders between the types.", "anchors": ["libs/core/ddmanager/ddmanager.cpp:selectDataFormat", "libs/core/ddmanager/ddmanager.cpp:CqDisplayRequest::FormatBucketForDisplay", "libs/core/ddmanager/ddmanager.cpp:CqDisplayRequest::LoadDisplayLibrary", "include/aqsis/math/math.h:lround"]}
{"id": "C57", "title": "Adjoining micropolygons leave no hole and do not overlap", "statement": "Every sample of the picture that lies on a grid of micropolygons which is not folded over itself gets exactly one hit of this grid: none is lost between two adjoining micropolygons and none is hit by two, also if it lies exactly on their common side or corner. A sample is hit only by a micropolygon that contains it, with the depth the micropolygon has there, whatever was sampled before; samples are left out only if something nearer hides the micropolygon or if they belong to another level of detail. No sample outside of the region is touched.", "quantifier": "every grid of any size and shape, every number of samples per pixel, every sample pattern, region and order of samples", "why_tests_cant": "A hole or a double hit shows only for samples that lie exactly on a side or a corner, where the rule of which of the sides belong to the micropolygon decides; pictures with random samples hardly ever meet it, and it depends on the winding of the grid.", "anchors": ["libs/core/micropolygon.cpp:CqMicroPolygon::ComputeVertexOrder", "libs/core/micropolygon.cpp:CqMicroPolygon::fContains", "libs/core/micropolygon.cpp:CqMicroPolygon::cachePointInPolyTest", "libs/core/micropolygon.cpp:CqMicroPolygon::Sample", "libs/core/bilinear.h:CqInvBilinear", "libs/core/bucketprocessor.cpp:CqBucketProcessor::RenderMPG_Static"]}
{"id": "C58", "title": "A moving micropolygon is seen by every sample at the place it has at the sample's time", "statement": "Each sample of the picture has a time. A grid of micropolygons that moves while the shutter is open gives a hit to a sample exactly once if, at the time of this sample, the grid covers it, and no hit if it does not; the depth of the hit is the one the grid has there at that time. Before its first and after its last key time the grid stands still. Where the grid was at other times does not matter.", "quantifier": "every moving grid with any number of key times, every shutter, every number of samples per pixel, every sample pattern", "why_tests_cant": "The samples are found through boxes that enclose parts of the movement; a box that is too small or the wrong part of the time loses only the few samples whose time lies near a border of the parts, which looks like noise in a picture.", "anchors": ["libs/core/micropolygon.cpp:CqMicroPolygonMotion::BuildBoundList", "libs/core/micropolygon.cpp:CqMicroPolygonMotion::Sample", "libs/core/micropolygon.cpp:CqMicroPolygonMotion::AppendKey", "libs/core/bucketprocessor.cpp:CqBucketProcessor::RenderMPG_MBOrDof"]}
{"id": "C56", "title": "Splitting and dicing a surface keeps its shape and its variables", "statement": "However the renderer splits a patch before it dices it, and in whatever directions, the pieces together show the patch once, and the grids hold at each point the value which the position and every primitive variable has on the patch as requested, in the bases of the request. The bound of each piece contains it.", "quantifier": "every bilinear or bicubic patch and triangle, all control values, bases and storage classes, every tree of splits and every size of grid", "why_tests_cant": "The tree of splits depends on the camera, the shading rate and the grid size, so a picture test sees only a few of infinitely many trees, and errors of a value between the corners look like noise.", "anchors": ["libs/core/geometry/patch.cpp", "libs/core/geometry/surface.cpp", "libs/core/parameters.h", "libs/core/bilinear.h", "libs/core/forwarddiff.h", "CqSurface::Split", "CqSurface::Dice", "CqSurfacePatchBicubic::ConvertToBezierBasis"]}
{"id": "C59", "title": "A shadow map file holds the depth of every pixel", "statement": "When a picture is saved as a shadow map, the file gives back for every pixel the depth the renderer stored, and its least value tag is the least depth, whatever the size of the picture and the number of its channels.", "quantifier": "every width, height, number of channels and every picture", "why_tests_cant": "The tiles at the borders depend on the remainder of the size, and on width and height being different; a few pictures of usual square sizes do not show a missing tile or a write beyond a tile.", "anchors": ["tools/displays/file/display.cpp", "SaveAsShadowMap"]}
{"id": "C60", "title": "Matrix arithmetic gives the transformations one writes", "statement": "Every matrix built with the matrix class from scalings, translations, rotations, skews and given numbers by products, sums, transposes and inverses, in any combination, has the elements and moves points, vectors and normals exactly as the mathematical expression says; the shortcuts for matrices marked as the identity never show; an inverse exists exactly if the determinant is not 0; A*B moves a point as A moves what B makes of it; rotations keep lengths and orientation; normals stay normal; two matrices are reported close exactly if they agree to within the tolerance given.", "quantifier": "all expressions of any depth over the operations of the matrix class, all numbers, all points", "why_tests_cant": "Infinitely many matrices and expressions; which rows the elimination exchanges and which shortcuts are taken depends on the values.", "anchors": ["include/aqsis/math/matrix.h:CqMatrix", "libs/math/matrix.cpp:Inverse", "libs/math/matrix.cpp:Determinant", "libs/math/matrix.cpp:isClose"]}
{"id": "C61", "title": "Transformation requests act as written", "statement": "Each primitive gets the transformation that the requests before it mean: Identity and Transform replace the current transformation, ConcatTransform, Translate, Rotate, Scale, Skew and Perspective come before it, the end of a block gives back the transformation of its beginning, and the world begins with the identity after the current transformation has become the camera. A request in a motion block acts at its own key time alone and any other at all times, and the transformation has exactly the key times that were given. The handedness of a primitive tells whether the way from the object to the camera is a reflection.", "quantifier": "all sequences of requests and properly nested blocks, all matrices and all key times", "why_tests_cant": "the sequences of requests, the nesting of blocks and the matrices are unbounded, and errors show only for certain combinations of motion blocks, replacing requests and reflections", "anchors": ["libs/core/transform.cpp", "libs/core/motion.h", "libs/core/api/graphicsstate.cpp", "libs/core/api/graphicsstate.h", "libs/core/renderer.cpp:CqRenderer::ptransSetTime", "libs/core/api/ri.cpp:RiCxxCore::Transform"]}
{"id": "C62", "title": "Named coordinate systems answer as they were set", "statement": "Asking for the way from one named space to another gives the transformation built from what each name was last given by CoordinateSystem or by the camera, for points, for vectors (the linear part) and for normals (the inverse transpose of the linear part); unknown names are refused. The way from a to b followed by the way from b to c is the way from a to c, and the way from a space to itself changes nothing. The answer does not depend on which questions were asked before, nor on other renderers of the program.", "quantifier": "all histories of saved systems, camera and view settings and questions, all names and matrices", "why_tests_cant": "the answers are cached and the search starts where the last one ended, so an error shows only for certain histories of settings and questions", "anchors": ["libs/core/renderer.cpp:CqRenderer::matSpaceToSpace", "libs/core/renderer.cpp:CqRenderer::matVSpaceToSpace", "libs/core/renderer.cpp:CqRenderer::matNSpaceToSpace", "libs/core/renderer.cpp:CqRenderer::SetCoordSystem", "libs/core/renderer.cpp:CqRenderer::WhichMatWorldToCamera"]}
{"id": "C63", "title": "The camera shows each point at its place", "statement": "A point of the world appears in the picture at the place that the latest Format, FrameAspectRatio, ScreenWindow, Projection and Clipping requests in force and the camera transformation say: the screen window is spread over the largest frame of the asked ratio that fits in the picture, by default over the whole picture, with the near plane at depth 0 and the far plane at depth 1 in a perspective. The pixels rendered are those in the crop window, so crop windows that share a border share no pixel and leave none out. Requests of a frame have no effect on other frames.", "quantifier": "all sequences of requests, frames and worlds, all matrices, windows, resolutions and points", "why_tests_cant": "places are the result of a product of six matrices with parameters from any history of requests and frames, and errors show only for certain aspect ratios, windows or earlier frames", "anchors": ["libs/core/options.cpp:CqOptions::InitialiseCamera", "libs/core/api/ri.cpp:RiCxxCore::WorldBegin", "libs/core/api/ri.cpp:RiCxxCore::Projection", "libs/core/api/ri.cpp:RiCxxCore::Format", "libs/core/renderer.cpp:CqRenderer::initialiseCropWindow"]}
{"id": "C64", "title": "Trimming keeps the part of a surface that its trim curves enclose", "statement": "A point of a trimmed NURBS surface is visible exactly if the trim loops leave it: an odd number of loops surrounds its (u,v), or there are no loops; with the attribute trimcurve:sense \"outside\", exactly if an even number surrounds it. Whether a loop surrounds a point does not depend on the direction one looks in, and no shortcut taken for whole micropolygons changes what a sample sees.", "quantifier": "every set of loops (any number of points), every place on every micropolygon of every grid, still or moving, and both senses", "why_tests_cant": "Loops and sample places are unbounded; the odd-even rule must agree with the line test for all positions, including points level with vertices and sides parallel to the line.", "anchors": ["libs/core/geometry/trimcurve.cpp:CqTrimLoop::TrimPoint", "libs/core/geometry/trimcurve.cpp:CqTrimLoop::LineIntersects", "libs/core/geometry/trimcurve.cpp:CqTrimLoopArray::TrimPoint", "libs/core/micropolygon.cpp:CqMicroPolyGrid::Split", "libs/core/micropolygon.cpp:CqMicroPolygon::Sample"]}
{"id": "C65", "title": "Trim loops are the curves that were given", "statement": "Whatever loops of curves RiTrimCurve is given (each with its order, knots that do not decrease, and homogeneous points with positive weights, at least as many as the order), each curve arrives with its own order, knots and points; at every parameter within the range asked for, the point taken for trimming is the point of that rational B-spline curve (by the recursion of Cox and de Boor), which lies within the box of the curve's points; and the loop that trims the surface consists of points of its curves, in order, at even distances of the parameter, beginning with the first point of each curve, also if the knots are not clamped at the ends.", "quantifier": "all numbers of loops and curves, all orders, all numbers of points, all non-decreasing knot vectors, all points and positive weights, all parameters in range, all numbers of pieces", "why_tests_cant": "Orders, knot multiplicities and parameters are unbounded; a test evaluates a few curves at a few parameters, and a wrong index in the basis functions can vanish on uniform knots.", "anchors": ["libs/core/geometry/trimcurve.cpp:CqTrimCurve::FindSpan", "libs/core/geometry/trimcurve.cpp:CqTrimCurve::BasisFunctions", "libs/core/geometry/trimcurve.cpp:CqTrimCurve::Evaluate", "libs/core/geometry/trimcurve.cpp:CqTrimCurve::InsertKnot", "libs/core/geometry/trimcurve.cpp:CqTrimCurve::Clamp", "libs/core/geometry/trimcurve.cpp:CqTrimLoop::Prepare", "libs/core/api/ri.cpp:RiCxxCore::TrimCurve"]}
{"id": "C66", "title": "Pictures are copied, laid over one another and filled pixel by pixel", "statement": "Whatever the sizes, the channels and the place (also partly or wholly outside, on any side): copying one image buffer into another gives each pixel that is covered the numbers of the other picture, converted to the kind of the channel (whole numbers: the nearest level, no further than the least and the greatest; the same kind: unchanged), and leaves every other pixel as it was; with a map of names only the channels named are written; laying a picture over another adds what shows through by its alpha channel, and without that channel hides what is under it; filling gives every pixel the number or the squares of the chequer board; a picture made larger by a whole factor gives each of its pixels a square of that many pixels; pictures with different numbers of channels are refused; no memory outside the pictures is read or written.", "quantifier": "all sizes, all lists of channels of whole and floating point numbers, all contents, all places, all maps of names, all tile sizes and zoom factors", "why_tests_cant": "A picture may stand out on any of four sides, or cover nothing; row skips and channel strides only matter for some shapes, so a few pictures do not show a wrong address.", "anchors": ["libs/tex/buffers/mixedimagebuffer.cpp:getCopyRegionSize", "libs/tex/buffers/mixedimagebuffer.cpp:CqMixedImageBuffer::copyFrom", "libs/tex/buffers/mixedimagebuffer.cpp:CqMixedImageBuffer::compositeOver", "libs/tex/buffers/mixedimagebuffer.cpp:CqMixedImageBuffer::channelImpl", "libs/tex/buffers/mixedimagebuffer.cpp:CqMixedImageBuffer::clearBuffer", "libs/tex/buffers/mixedimagebuffer.cpp:CqMixedImageBuffer::initToCheckerboard", "libs/tex/buffers/imagechannel.cpp:CqImageChannel::copyFrom", "include/aqsis/tex/buffers/imagechannel.h:CqImageChannelTyped::getRow", "include/aqsis/tex/buffers/imagechannel.h:CqImageChannelTyped::replaceRow", "libs/tex/buffers/imagechannel.cpp:CqImageChannelZoom::getRow"]}
{"id": "C67", "title": "Colours keep their meaning in the colour spaces of the shading language", "statement": "ctransform(from, to, c) turns hue, saturation and value (or lightness) into the colour they mean (the pure colour of the hue, made paler and darker), turns every colour into numbers that mean it, and turning a colour into \"hsv\", \"hsl\" or \"YIQ\" and back gives the same colour (for YIQ within half of one of 255 levels); \"rgb\" and names that are not known leave the colour as it is.", "quantifier": "all colours, all hues from 0 to 1, all saturations, values and lightnesses, all names of spaces", "why_tests_cant": "The conversions are put together from six sectors with their borders, greys and black apart; tests try some colours, and a wrong pair of conversions can still undo each other.", "anchors": ["libs/math/color.cpp:rgbtohsv", "libs/math/color.cpp:hsvtorgb", "libs/math/color.cpp:rgbtohsl", "libs/math/color.cpp:hsltorgb", "libs/math/color.cpp:rgbtoYIQ", "libs/math/color.cpp:YIQtorgb", "include/aqsis/math/matrix.h:CqMatrix::operator*", "libs/shadervm/shaderexecenv/shadeops_matrx.cpp:CqShaderExecEnv::SO_ctransform"]}
