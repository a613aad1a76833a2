{"id": "C01", "title": "ind: negation is a self-inverse sign flip", "statement": "For an index x of type ind other than the largest intptr_t, ~~x equals x, ~x is negative exactly when x is not, and using x as a boolean is true exactly when x >= 0; at the largest intptr_t the negation overflows. ++ and -- undo each other, and counting up is counting down on the negated side.", "quantifier": "all 2^64 values of intptr_t", "why_tests_cant": "2^64 values; the unit test tries four", "anchors": ["lube/ind.h: class ind (operator ~, operator bool)"]}
{"id": "C02", "title": "array growth: capacity is the least sufficient power of two", "statement": "For every requested size n with 0 <= n <= 2^30 the storage allocated for an array is the least power of two that is at least max(n,8); for every larger n the computed capacity is negative, so a fresh array of that size trips an assertion and an existing array silently keeps its old, too small storage.", "quantifier": "every non-negative int", "why_tests_cant": "two thousand million sizes, and the loop must be shown to stop for each", "anchors": ["lube/heap.cpp: allocSize"]}
{"id": "C03", "title": "growth is amortised: few reallocations", "statement": "Growing an array one element at a time from empty to n elements (n <= 2^30) reallocates its storage at most log2(n) times.", "quantifier": "every n up to 2^30", "why_tests_cant": "a cost bound over all sizes, not a single run", "anchors": ["lube/heap.cpp: allocSize", "lube/heap.cpp: Heap::resize"]}
{"id": "C04", "title": "resize keeps the surviving prefix", "statement": "After resize(n) on an array of size m, size() is n and every element with index below min(m,n) is the same as before, for every element type and whether or not storage was reallocated; no other array changes.", "quantifier": "all memory states, all arrays, all n", "why_tests_cant": "quantifies over every heap state and every capacity/size combination", "anchors": ["lube/heap.cpp: Heap::resize", "lube/var.cpp: var::resize"]}
{"id": "C05", "title": "shared arrays are never freed while held", "statement": "After any sequence of operations (assign, index, push, pop, insert, remove, shift, unshift, resize, array, clear, copy, view, going out of scope), every array that some live variable, array element, map key or view refers to is still allocated and its reference count is at least the number of those holders.", "quantifier": "all finite programs over any number of variables, all intermediate states, including those left by a thrown exception", "why_tests_cant": "needs an invariant over all aliasing patterns and program lengths", "anchors": ["lube/var.cpp: var::attach, var::detach, var::operator =, var::dereference", "lube/heap.cpp: Heap::attach, Heap::detach"]}
{"id": "C06", "title": "reference counts are exact, so nothing leaks without a cycle", "statement": "For programs that never call unshift and in which no statement throws 'var::dereference(): Unknown type' (as assigning an element of an array of vars to itself does), the reference count of every array equals the number of live handles on it, so once no handle is left on an array it has been released, and when all variables are gone and nothing contains itself nothing is left allocated; an array of vars that was shrunk and then unshifted loses a reference for good, and so does a[0] = a[0] on an array of vars (leaks).", "quantifier": "all finite programs, all arrays", "why_tests_cant": "a count equality for every interleaving of handle creation and destruction", "anchors": ["lube/heap.cpp: Heap::attach, Heap::detach, Heap::dealloc, Heap::unshift", "lube/var.cpp: var::~var"]}
{"id": "C07", "title": "use after free happens only through references whose container is not held otherwise", "statement": "No operation touches freed memory provided that, whenever a method that can change its receiver (resize, presize, array, pop, remove, insert, append, unshift, a keyed subscript) is called on a reference to an element of an array of vars or of a map, another variable holds the container other than only through that element, the element is not the container itself and, for a keyed subscript, is not a scalar; for push and numeric subscripts it is enough that the element is not the container itself; without these provisos there are programs of five and four statements whose last statement touches freed memory.", "quantifier": "all finite programs", "why_tests_cant": "memory safety over all programs; the failing run may look fine under an allocator that does not poison", "anchors": ["lube/var.cpp: var::dereference, var::operator [](var), var::resize, var::array"]}
{"id": "C08", "title": "assignment shares, copy() separates", "statement": "After y = x, or var y = x, for an array x that is not a view, any element operation through either name (write, push, pop, resize, insert, append, shift, unshift, remove) is seen through both; after y = x.copy() the two names hold different arrays with the same elements (one level deep: nested arrays stay shared), and no later sequence of those operations through one name changes what the other name reads.", "quantifier": "all arrays, all following element operations", "why_tests_cant": "aliasing must be excluded for every following operation sequence", "anchors": ["lube/var.cpp: var::operator =, var::copy", "lube/heap.cpp: Heap::Heap(const IHeap&,bool), Heap::copy"]}
{"id": "C09", "title": "an element reference survives reallocation", "statement": "A reference r = a[i] keeps denoting element i of a: after any sequence of element operations on a (pushes, resizes, writes, inserts, removals, whether or not the storage moved) reading r gives the current element i, as long as a has that many, and writing through it changes element i of a and nothing else.", "quantifier": "all arrays, all indexes within size, all following growth operations", "why_tests_cant": "depends on every possible point of reallocation", "anchors": ["lube/var.cpp: var::reference, var::dereference, var::operator =", "lube/heap.cpp: Heap::resize"]}
{"id": "C10", "title": "strings stay terminated and inside their storage", "statement": "In every reachable state every array of fewer than 2^30 elements has size not above its capacity, and a char array has capacity above its size; a string constant has a NUL at index size(), every resize, push, pop, insert, append, remove, shift and unshift of a string leaves one there and element writes keep it, so it is there after any sequence of these; a write through the reference returned by pop on a string puts the character where the terminator was.", "quantifier": "all reachable states", "why_tests_cant": "a representation invariant of every reachable state", "anchors": ["lube/heap.cpp: Heap::resize, Heap::append, Heap::shift, Heap::unshift", "lube/var.cpp: var::pop, var::str"]}
{"id": "C11", "title": "element assignment touches one element only", "statement": "a[i] = x with i below size() converts x to the element type, stores it at index i and leaves every other element of a, every other array and every variable unchanged (arrays below 2^30 elements, no view and, in an array of vars, no view or reference among the elements or the stale cells above the size); in an array of vars x must not be a reference to that same element (see C06).", "quantifier": "all states, all arrays, all indexes, all values", "why_tests_cant": "frame condition over the whole heap", "anchors": ["lube/var.cpp: var::operator [](int), var::operator ="]}
{"id": "C12", "title": "push appends one element", "statement": "For an array a, a.push(x) leaves the old elements unchanged and adds x (converted to the element type) as the last, changing nothing else (arrays below 2^30 elements, no view and, in an array of vars, no view or reference among the elements or the stale cells above the size); on an undefined variable a scalar x makes the variable that scalar and an array x makes a one-element array of vars; on a scalar of another type it throws and changes nothing.", "quantifier": "all states and all x", "why_tests_cant": "case split over types times all sizes and capacities", "anchors": ["lube/var.cpp: var::push"]}
{"id": "C13", "title": "pop removes the last element, but what it returns is a live reference", "statement": "x = a.pop() on a non-empty array that is not a string assigns the last element to x and shortens a by one; on a string the value obtained is always NUL because the terminator is written over the popped character first; what pop returns is a reference to the place after the last element, so that a variable initialised with it reads the element that is pushed next.", "quantifier": "all non-empty arrays", "why_tests_cant": "holds or fails per element type for all lengths and capacities", "anchors": ["lube/var.cpp: var::pop", "lube/heap.cpp: Heap::resize"]}
{"id": "C14", "title": "insert splices at the index", "statement": "On an array of vars, a.insert(x,i) with 0 <= i <= size() yields the old elements with x inserted before index i, unless x is a reference to an element of a; on a dense array b.insert(y,i) with y a different array yields the old elements with all of y, converted to the element type, spliced in at i; append is insert at the end; i > size() throws and changes nothing; a string stays terminated.", "quantifier": "all arrays, values and indexes", "why_tests_cant": "all lengths, indexes and storage states; loops shift in place", "anchors": ["lube/var.cpp: var::insert"]}
{"id": "C15", "title": "appending an array to itself overruns the storage or its spare part", "statement": "For a dense array a of n > 0 elements, a.append(a) writes 3n elements: if 3n exceeds the capacity that a has after resize(2n) the write leaves the storage; otherwise the elements are the doubled ones, but the n cells after them are overwritten too, so a string that does not begin with NUL has lost its terminator.", "quantifier": "all dense arrays with at least one element", "why_tests_cant": "undefined behaviour may go unnoticed in a test run", "anchors": ["lube/var.cpp: var::insert", "lube/var.h: var::append"]}
{"id": "C16", "title": "remove deletes one element; its result is only right for arrays and strings held as elements", "statement": "a.remove(i) with 0 <= i < size() leaves exactly the other elements in order; when the removed element is an array or string the returned value is a copy of it, but for any other element it reads as the element that followed it, and for the last element of a string as NUL.", "quantifier": "all arrays and all valid indexes", "why_tests_cant": "all lengths and indexes", "anchors": ["lube/var.cpp: var::remove, var::copy"]}
{"id": "C17", "title": "remove on a map breaks the key/value association", "statement": "Removing position i from a map keeps the keys of the first size()-1 positions and shifts only values, so with at least one entry after position i some key is afterwards bound to another key's value.", "quantifier": "all maps with an entry after the removed one", "why_tests_cant": "the property is about every map", "anchors": ["lube/var.cpp: var::remove"]}
{"id": "C18", "title": "shift and unshift work at the front", "statement": "shift() on a non-empty array returns the first element and leaves the rest in order; a.unshift(x) puts x in front, and followed by a.shift() gives back x and the old array, for x of the element type (or, for an array of vars, any x that is not a reference to an element of a).", "quantifier": "all non-empty arrays and all x of the element type", "why_tests_cant": "in-place memmove over every size/capacity", "anchors": ["lube/heap.cpp: Heap::shift, Heap::unshift", "lube/var.cpp: var::shift, var::unshift"]}
{"id": "C19", "title": "ordering is a strict total order on usable map keys", "statement": "On values that are chars, ints, longs, non-NaN floats and doubles and NUL-free strings, operator < is irreflexive and transitive, and of two values exactly one of a<b, b<a, a==b holds.", "quantifier": "all pairs and triples of such values of any type", "why_tests_cant": "triples over infinite value sets; transitivity across types", "anchors": ["lube/var.cpp: var::operator <, var::operator !=", "lube/heap.cpp: Heap::lt, Heap::neq"]}
{"id": "C20", "title": "arrays of numbers are not ordered lexicographically", "statement": "operator < on two arrays that are not both strings is true as soon as some common position is smaller, so it is neither asymmetric nor transitive; it coincides with a strict order only on arrays of length one.", "quantifier": "all pairs/triples of arrays", "why_tests_cant": "order laws range over triples", "anchors": ["lube/heap.cpp: Heap::lt"]}
{"id": "C21", "title": "equality is structural on values without views", "statement": "== holds between two defined, NaN-free values without views exactly when they have the same type tag, the same length and elementwise equal contents (map comparison looks at values only); == never compares the element types of two empty arrays.", "quantifier": "all pairs of values of any nesting depth", "why_tests_cant": "unbounded nesting", "anchors": ["lube/var.cpp: var::operator !=", "lube/heap.cpp: Heap::neq, Heap::at"]}
{"id": "C22", "title": "comparing with nil", "statement": "Comparing a defined value whose type is not array with nil is always 'different'; nil == x for any x of array type and size 0 (including nil itself) has undefined behaviour, although x == nil is true when x is an empty array.", "quantifier": "all values", "why_tests_cant": "shows an asymmetry of == for a whole class of values", "anchors": ["lube/var.cpp: var::operator !="]}
{"id": "C23", "title": "binary search returns the lower bound", "statement": "For an array (or map keys) sorted by <, the search position p satisfies: every element before p is smaller than the argument and no element from p on is; the search always terminates and never reads outside the array, sorted or not.", "quantifier": "all arrays, all arguments, any comparison result", "why_tests_cant": "all lengths; loop invariant", "anchors": ["lube/var.cpp: var::binary"]}
{"id": "C24", "title": "maps behave as finite maps", "statement": "Starting from an undefined variable, after any sequence of m[k] = v with usable keys, m.at(k) is the last value assigned to k and nil if there was none; size() is the number of distinct keys and the keys are enumerated in strictly increasing order.", "quantifier": "all finite sequences of key/value assignments", "why_tests_cant": "all histories", "anchors": ["lube/var.cpp: var::operator [](var), var::at(var), var::insert, var::key, var::binary"]}
{"id": "C25", "title": "map contents do not depend on insertion order", "statement": "Two sequences of assignments with distinct keys that are permutations of each other build identical maps (same keys and values at the same positions).", "quantifier": "all permutations of all assignment lists", "why_tests_cant": "factorially many orders", "anchors": ["lube/var.cpp: var::operator [](var), var::insert"]}
{"id": "C26", "title": "reading a missing key with [] inserts it, with at() does not", "statement": "m[k] for a key not present adds k with a nil value and leaves all other bindings unchanged, whereas m.at(k) returns nil and changes nothing; m[nil] returns nil and changes nothing on a map.", "quantifier": "all maps and keys", "why_tests_cant": "state-change claim over all maps", "anchors": ["lube/var.cpp: var::operator [](var), var::at(var)"]}
{"id": "C27", "title": "at() on a nested map reads the wrong container", "statement": "For nested maps, m[k1].at(k2) does not read the inner binding of k2: it yields the element of the outer map at the inner position of k2.", "quantifier": "exists/for all nested maps with differing contents", "why_tests_cant": "the wrong answer is silent", "anchors": ["lube/var.cpp: var::at(var), var::reference(int)"]}
{"id": "C28", "title": "sort returns an ordered permutation", "statement": "x.sort() returns an array of vars holding exactly the elements of x with multiplicity, in non-decreasing order, whenever < is a strict weak order on the elements; x itself is unchanged.", "quantifier": "all arrays of any length", "why_tests_cant": "permutation and order for all inputs", "anchors": ["lube/var.cpp: var::sort, var::binary, var::insert"]}
{"id": "C29", "title": "index finds the first match", "statement": "x.index(v) is the least i with x.at(i) == v, or -1 when there is none; on a map it is the position of key v.", "quantifier": "all arrays and values", "why_tests_cant": "all lengths", "anchors": ["lube/var.cpp: var::index"]}
{"id": "C30", "title": "split and join are inverse", "statement": "For a non-empty separator and any NUL-free string s, s.split(sep).join(sep) == s, no piece contains the separator, and with a limit n >= 1 at most n pieces are produced whose join is still s.", "quantifier": "all strings, separators and limits", "why_tests_cant": "infinitely many strings; overlapping separators", "anchors": ["lube/string.cpp: var::split(const char*,int), var::join"]}
{"id": "C31", "title": "split with an empty separator never returns", "statement": "s.split(\"\") without a limit does not terminate for any s (it appends empty strings for ever).", "quantifier": "all strings", "why_tests_cant": "non-termination cannot be observed by a test", "anchors": ["lube/string.cpp: var::split(const char*,int)"]}
{"id": "C32", "title": "whitespace split yields the words", "statement": "s.split() is nil when s has only white space, else the array of the maximal runs of non-space characters in order; with a limit n >= 2 at most n pieces result, while n = 1 can give two.", "quantifier": "all strings and limits", "why_tests_cant": "all strings", "anchors": ["lube/string.cpp: var::split(int)"]}
{"id": "C33", "title": "strip removes exactly the outer white space, unless the string is blank", "statement": "s.strip() on a string with at least one non-space character (or empty) removes exactly the leading and trailing white space in place; on a non-empty all-blank string it computes a negative length and has undefined behaviour.", "quantifier": "all strings", "why_tests_cant": "all strings; the failing class is infinite", "anchors": ["lube/string.cpp: Strip::string"]}
{"id": "C34", "title": "case conversion is length preserving and idempotent", "statement": "toupper/tolower keep the length, change only ASCII letters, are idempotent, and compose as tolower(toupper(s)) == tolower(s).", "quantifier": "all strings", "why_tests_cant": "all strings", "anchors": ["lube/string.cpp: ToUpper::string, ToLower::string"]}
{"id": "C35", "title": "len counts UTF-8 code points", "statement": "For the UTF-8 encoding of any sequence of code points, len() is the number of code points; it is -1 exactly when the byte string cannot be cut into sequences of the 1- to 4-byte lead/continuation pattern; it never reads past the terminator.", "quantifier": "all byte strings and all code point sequences", "why_tests_cant": "all strings", "anchors": ["lube/utf8.cpp: utf8len, var::len"]}
{"id": "C36", "title": "getline reads one line at a time", "statement": "On a stream whose content is newline terminated, repeated getline yields exactly the lines in order, then nil, for lines of any length, writing only inside the buffer; an unterminated last line comes back with one extra byte 0xFF.", "quantifier": "all stream contents", "why_tests_cant": "line lengths around every buffer doubling", "anchors": ["lube/string.cpp: var::getline"]}
{"id": "C37", "title": "text file write then read", "statement": "Writing an array of NUL-free, newline-free strings with the text module and reading it back gives the strings each surrounded by double quotes (write uses the quoting formatter), one per line in the same order.", "quantifier": "all arrays of such strings", "why_tests_cant": "all arrays", "anchors": ["lube/txtfile.cpp: txtfile::read, txtfile::write", "lube/json.cpp: JSON::formatArray"]}
{"id": "C38", "title": "varstream is a FIFO over the string", "statement": "Characters written to a varstream are appended to the underlying string in order and reading returns the string from the start, one character at a time, until its end; putting back then reading returns the same character; a byte 0xFF is delivered as end-of-file. Seeking to a position inside the string makes the next read deliver the character there; seeking to the end or beyond does nothing and is no failure, so reading goes on where it was; seeking to a position below -1 is accepted, and the next read fails; seeking to -1 is a failure that can be cleared but leaves the position before the start all the same. Positions are kept in 32 bits, so seeking to p - k 2^32 seeks to p. Seeking for writing moves the reading position, while writing always appends. Seeking relative to the current position or the end always fails and tellg always returns -1. A read at the end sets the end and failure bits and a look ahead only the end bit; a read or a look ahead before the start, or putting back at the start, sets the bad bit; any operation on a stream that is not good sets the failure bit and leaves the bad bit as it was, while putting back and seeking clear the end bit first.", "quantifier": "all strings and all interleavings of reads, writes, put-backs and seeks", "why_tests_cant": "all interleavings", "anchors": ["lube/stream.cpp: varbuf::overflow, uflow, underflow, pbackfail"]}
{"id": "C39", "title": "JSON parsing always finishes", "statement": "Reading a var from any finite character stream terminates. The result is a value or an exception, except that inside an array of two or more numbers a further null, string, object, array or out-of-range number is stored as a meaningless number; a text without '[' always gives a value or an exception.", "quantifier": "all byte sequences", "why_tests_cant": "all inputs including malformed ones", "anchors": ["lube/json.cpp: JSON::doValue, doObject, doArray, doString, doRaw"]}
{"id": "C40", "title": "JSON round trip", "statement": "Writing and reading back gives the same value for every value built from nil, longs, strings free of quote, backslash and NUL, maps with such strings as keys, and non-empty arrays of vars whose first element is not a number, at any nesting depth.", "quantifier": "all such values, unbounded depth and width", "why_tests_cant": "unbounded nesting; indentation depends on depth", "anchors": ["lube/json.cpp: JSON::format, formatArray, operator(), doValue, doObject, doArray, doString, doRaw, toNumber"]}
{"id": "C41", "title": "JSON strings are not escaped on output", "statement": "For every string containing a double quote, backslash or NUL the written text does not read back as that string.", "quantifier": "all such strings", "why_tests_cant": "all strings with a quote or backslash", "anchors": ["lube/json.cpp: JSON::formatArray, JSON::doString"]}
{"id": "C42", "title": "JSON numbers and words", "statement": "The decimal text of any long reads back as that long; a text of the form digits.digits reads as the integer before the point; true, false and null read as 1, 0 and nil; any other bare word that does not begin as a number is rejected.", "quantifier": "all longs; all decimal fractions; all words", "why_tests_cant": "2^64 longs and infinitely many texts", "anchors": ["lube/json.cpp: toNumber, JSON::doRaw"]}
{"id": "C43", "title": "dense numeric arrays do not read back", "statement": "The text written for a dense int or long array of one or more elements always makes the reader throw, because the number reader consumes the closing bracket.", "quantifier": "all non-empty integer arrays", "why_tests_cant": "all arrays", "anchors": ["lube/json.cpp: JSON::formatArray, JSON::doRaw, JSON::doArray"]}
{"id": "C44", "title": "ini files are read as section/key/value bindings", "statement": "For a file whose lines are empty, comments, section headings or key-value lines separated by = (or, without any =, by :), inifile::read returns nil if nothing is bound and otherwise the sorted map from each section that binds something to the sorted map of its keys, the last binding of a key winning, keys and values stripped of blanks, section names not stripped, text from a second separator on dropped. An unterminated last line is read with the byte 0xFF appended. A line that is none of these makes read throw; a non-empty line of blanks is undefined behaviour.", "quantifier": "all lists of such lines, all contents without NUL", "why_tests_cant": "all files", "anchors": ["lube/inifile.cpp: inifile::read"]}
{"id": "C45", "title": "configurations: the last binding wins", "statement": "After any sequence of file reads, section changes, settings and lookups on a configuration, looking up an entry gives the value bound last, be it by a file or by a setting, and nil (or the supplied default) if none was bound; lookups change nothing.", "quantifier": "all sequences of operations, files, sections and entries", "why_tests_cant": "all file sequences", "anchors": ["lube/config.cpp: Config::configFile, Config::config"]}
{"id": "C46", "title": "XML escaping is safe and reversible", "statement": "The escaped form of any text contains no '<', '>', quote or apostrophe and no '&' other than the five entities written, and decoding the entities gives the original text.", "quantifier": "all strings", "why_tests_cant": "all strings", "anchors": ["lube/xmlfile.cpp: escape"]}
{"id": "C47", "title": "XML reading mirrors element nesting", "statement": "For the event sequence of any document (attribute names of an element different) the reader builds the tree with exactly the elements, attributes (as a sorted map) and character data of the document in order; any unfinished document is rejected with an exception, except that no event at all gives nil; an end tag is accepted exactly if it names the innermost open element.", "quantifier": "all documents", "why_tests_cant": "unbounded nesting", "anchors": ["lube/xmlfile.cpp: start, end, character data handlers"]}
{"id": "C48", "title": "view indexing is a bijection onto the viewed cells", "statement": "For a view of shape (d1..dn) accepted by the library with positive dimensions and a non-negative offset, the element expression v(i1..in) with in-range indexes denotes storage cell offset + sum(ik*stride k), where stride k is the product of the later dimensions; different index tuples denote different cells, every cell of the viewed range is denoted, and every cell lies inside the underlying array. An out-of-range index throws, except that when the first index times its stride is not an int the multiplication overflows before the check.", "quantifier": "all shapes of any dimension, all offsets, all index tuples", "why_tests_cant": "all ranks and shapes", "anchors": ["lube/view.cpp: View::View, View::setStrides", "lube/var.cpp: var::operator (), var::bounds"]}
{"id": "C49", "title": "views never exceed the array when their shape is non-negative", "statement": "Constructing a view with non-negative shape and offset succeeds only if offset + product(shape) does not exceed the size of the underlying array, and moving a view keeps this; a fitting view with positive shape is accepted and a non-fitting one throws. Every negative offset is accepted, and the first element of such a view is a cell before the array; a negative dimension is accepted and gives a negative size.", "quantifier": "all shapes and offsets", "why_tests_cant": "all shapes", "anchors": ["lube/view.cpp: View::setStrides, View::offset"]}
{"id": "C50", "title": "a view of a view addresses the original array", "statement": "A view taken of a view (or a subview) refers to the same underlying array with the offsets added, so element k of the inner view is element k+offset of the outer one; a subview keeps the trailing dimensions and shows the rows of the view. The check is against the underlying array, so the inner view can show cells the outer one does not.", "quantifier": "all shapes and offsets", "why_tests_cant": "all nestings", "anchors": ["lube/view.cpp: View::View(IHeap*)", "lube/var.cpp: var::subview"]}
{"id": "C51", "title": "comparing two views ignores their data", "statement": "Two views with the same shape, strides and offset compare equal whatever data they show, and two views of the same dimension with different shape or offset compare unequal even if they show the same data.", "quantifier": "all views", "why_tests_cant": "for all data", "anchors": ["lube/heap.cpp: Heap::neq, Heap::at", "lube/heap.h: class View"]}
{"id": "C52", "title": "unary functions apply to every element once", "statement": "Applying an elementwise function to an array or view of any shape gives an array of the same shape whose element i is the function of element i.", "quantifier": "all shapes, all elementwise functions", "why_tests_cant": "all shapes", "anchors": ["lube/func.cpp: UnaryFunctor::broadcast"]}
{"id": "C53", "title": "arithmetic broadcasting repeats the right operand over rows", "statement": "For a left operand of shape (r..,d..) and an in-place addition, subtraction, multiplication or set with a right operand of shape (d..) other than (1), every cell is combined once with the cell of the right operand at the same trailing index, and no cell outside the left operand is changed; a scalar right operand combines with every cell. The same holds for multiplication into a separate array.", "quantifier": "all shapes with matching trailing dimensions", "why_tests_cant": "all ranks and shapes", "anchors": ["lube/func.cpp: ArithmeticFunctor::broadcast", "lube/math.cpp: Add::vector, Sub::vector, Mul::vector"]}
{"id": "C54", "title": "out-of-place transpose", "statement": "transpose of a tensor of shape (r..,m,n) gives shape (r..,n,m) with element (r..,c,r) equal to element (r..,r,c) of the input, and leaves existing arrays alone; one-dimensional input throws.", "quantifier": "all m, n and element values", "why_tests_cant": "all sizes", "anchors": ["lube/transpose-adhoc.cpp: outOfPlace"]}
{"id": "C55", "title": "in-place transpose equals out-of-place transpose", "statement": "The in-place transpose of a tensor of shape (r..,m,n) terminates, changes no cell outside the view, leaves shape (r..,n,m) and strides to match, and shows exactly the out-of-place result.", "quantifier": "all positive m and n, all contents", "why_tests_cant": "cycle structure differs for each m,n", "anchors": ["lube/transpose-adhoc.cpp: inPlace, outOfPlace"]}
{"id": "C56", "title": "poly expands the product of its roots", "statement": "poly of rows of roots r1..rn returns for each row the coefficients c0..cn, leading coefficient 1, of the polynomial prod(x - ri).", "quantifier": "all root lists over any commutative ring of scalars", "why_tests_cant": "polynomial identity for all n", "anchors": ["lube/math.cpp: polyt"]}
{"id": "C57", "title": "sum adds all elements", "statement": "sum of an array of n elements is the left-to-right sum of the n elements, for each row of a tensor; sum of an empty array divides by zero.", "quantifier": "all arrays", "why_tests_cant": "all lengths", "anchors": ["lube/math.cpp: sumArray"]}
{"id": "C58", "title": "range contents and termination", "statement": "For ints lo, hi and step > 0 with no overflow, irange(lo,hi,step) contains exactly lo, lo+step, ... below hi in order and range the same including hi, where an empty range is nil and a single value is a scalar; the same holds for longs with an int or a long as step. With step <= 0 and lo < hi the call never returns. Bounds of different types compare by type: an int range up to a long never returns and a long range up to an int is empty. For float and double the values are those obtained by adding the step again and again, with rounding, as long as they pass the test; if the step is too small to change lo, or the end of range() is not a number, the call never returns. irange(n) is 0, ..., n-1 and range(n) is 1, ..., n.", "quantifier": "all lo, hi, step of type int, long, float and double", "why_tests_cant": "all triples and non-termination", "anchors": ["lube/var.cpp: libube::irange, libube::range"]}
{"id": "C59", "title": "truncated JSON objects are accepted", "statement": "An object text that breaks off right after a number, without its closing brace, reads as the same value as the complete object.", "quantifier": "all plain keys, all longs", "why_tests_cant": "all keys and numbers", "anchors": ["lube/json.cpp: JSON::doObject, JSON::doRaw"]}
{"id": "C60", "title": "one-number JSON array collapses", "statement": "The array text [ n ] holding one number reads as the scalar n, not as an array.", "quantifier": "all longs", "why_tests_cant": "all longs", "anchors": ["lube/json.cpp: JSON::doArray", "lube/var.cpp: var::push"]}
{"id": "C61", "title": "written ini files cannot be read back", "statement": "inifile::write omits the section names and writes JSON: whatever inifile::read returned for a file with at least one binding, reading back what write makes of it throws.", "quantifier": "all ini files with a binding", "why_tests_cant": "all files", "anchors": ["lube/inifile.cpp: inifile::write, inifile::read"]}
{"id": "C62", "title": "a one-element array on the right is read as a number", "statement": "a += b, a -= b, a *= b and set with b an array of exactly one element read the pointer in b as a number (undefined) for every non-empty array a.", "quantifier": "all arrays a, all one-element arrays b", "why_tests_cant": "Needs all shapes and offsets; the result is undefined rather than wrong.", "anchors": ["lube/func.cpp: ArithmeticFunctor::broadcast", "lube/math.cpp: Add::scalar, Mul::scale", "lube/var.cpp: var::cast"]}
{"id": "C63", "title": "adding two arrays out of place fails its assertion", "statement": "a + b and a - b with b an array of matching trailing shape of more than one element always fail the assertion that input and output are the same.", "quantifier": "all shapes, all contents", "why_tests_cant": "A universal failure over all shapes.", "anchors": ["lube/math.cpp: Add::vector, Sub::vector", "lube/func.cpp: BinaryFunctor::operator ()"]}
{"id": "C64", "title": "a right operand longer than the left is not rejected", "statement": "a += b with vectors, b longer than what is left of the storage of a, accesses cells beyond the end of a instead of throwing.", "quantifier": "all vectors and lengths", "why_tests_cant": "Out-of-bounds writes often go unnoticed.", "anchors": ["lube/func.cpp: ArithmeticFunctor::broadcast", "lube/math.cpp: Add::vector"]}
{"id": "C65", "title": "swap exchanges vectors but overruns matrices", "statement": "swap(a,b) of two disjoint vectors of equal length exchanges their contents; for tensors of two or more rows it accesses cells beyond the end of the storage, because every row swap moves the whole size.", "quantifier": "all vectors; all tensors with at least two rows that end within one row of their storage", "why_tests_cant": "Needs all shapes.", "anchors": ["lube/math.cpp: Swap::vector", "lube/func.cpp: BinaryFunctor::broadcast"]}
{"id": "C66", "title": "dot with a vector", "statement": "dot(a,v) for a of shape (r..,n) and a vector v of n > 1 elements gives shape (r..,1) with the left-to-right sum of products of each row with v; with a scalar or a one-element vector on the right the call never returns.", "quantifier": "all shapes and contents", "why_tests_cant": "All shapes, and non-termination.", "anchors": ["lube/math.cpp: Dot::vector, Dot::alloc", "lube/func.cpp: BinaryFunctor::scalar, ArithmeticFunctor::broadcast"]}
{"id": "C67", "title": "concatenate joins the last dimension", "statement": "concatenate of any number of arrays of shapes (r..,n1), (r..,n2), ... gives shape (r..,n1+n2+...) in which each row is the rows of the inputs one after the other, and leaves the inputs alone.", "quantifier": "all numbers of inputs, all shapes", "why_tests_cant": "All shapes and any number of inputs.", "anchors": ["lube/math.cpp: Concatenate::alloc, Concatenate::vector", "lube/func.cpp: NaryFunctor::broadcast"]}
{"id": "C68", "title": "The XML parser sees the file without line breaks", "statement": "The bytes handed to the XML parser are those of the file without its newlines (so a tag broken between name and attribute is glued together), followed by a byte 0xFF if the last line is not terminated.", "quantifier": "all file contents", "why_tests_cant": "all contents and line lengths", "anchors": ["lube/xmlfile.cpp: Expat::parse", "lube/string.cpp: var::getline"]}
{"id": "C69", "title": "The XML writer produces well-formed text for the same document", "statement": "For any document with well-formed names the writer produces the declaration line and a text which the XML grammar derives for exactly that document (character data and attribute values through entities); what is not an element array is refused with an exception.", "quantifier": "all documents", "why_tests_cant": "unbounded nesting and texts", "anchors": ["lube/xmlfile.cpp: XMLWriter::writeElem, escape, write"]}
{"id": "C70", "title": "The XML writer loses data that are not strings", "statement": "A number used as attribute value or child is written as a single NUL byte, and a string used directly as the data of an element is written as as many NUL bytes.", "quantifier": "all numbers, all strings", "why_tests_cant": "all values", "anchors": ["lube/xmlfile.cpp: XMLWriter::escape", "lube/var.cpp: var::str"]}
{"id": "C71", "title": "A scalar becomes an array of one when it must", "statement": "array(), resize(n) with n > 1, push() and unshift() on a variable holding a number put a fresh array in that variable: it has the type of the number and starts from that number (after the new element for unshift); no other variable or array changes. array() on an undefined variable makes an array of one undefined element, and on an array does nothing. resize(n) with n <= 1 leaves a number as it is.", "quantifier": "all reachable states, variables, numbers, sizes, operands", "why_tests_cant": "all reachable states and operands", "anchors": ["lube/var.cpp: var::array", "lube/var.cpp: var::resize", "lube/var.cpp: var::push", "lube/var.cpp: var::unshift"]}
{"id": "C72", "title": "presize() reserves capacity and keeps the elements", "statement": "presize(n) on an array keeps type, size and elements, leaves other arrays alone, and the capacity becomes at least n, except that n smaller than the size of a string overwrites character n with NUL. On an undefined variable it gives an empty array of vars; on a number an array of one. resize(n) on an undefined variable gives n undefined elements.", "quantifier": "all reachable states, variables, sizes", "why_tests_cant": "all reachable states and sizes", "anchors": ["lube/var.cpp: var::presize", "lube/var.cpp: var::resize", "lube/heap.cpp: Heap::resize"]}
{"id": "C73", "title": "Removing from where there is nothing", "statement": "remove(i) with i at or beyond the size throws and changes nothing; remove of a negative index fails an assertion; pop() of an undefined variable throws and changes nothing; pop() of an array without elements fails an assertion; pop() of a number gives the number and leaves it there; shift() of an array without elements reads or moves memory outside the array.", "quantifier": "all reachable states, variables, indices", "why_tests_cant": "all reachable states and indices", "anchors": ["lube/var.cpp: var::remove", "lube/var.cpp: var::pop", "lube/heap.cpp: Heap::shift"]}
{"id": "C74", "title": "Subscripting a map by a key refers to the value of the key", "statement": "For a map with its entries in key order, m[k] with a key that is there leaves the map as it is and gives a reference to the value of that key. With a key that is not there an entry with an undefined value is added where the order puts it, and the reference is to that value. The map stays in order, and no other array and no variable changes.", "quantifier": "all reachable states, maps, keys, variables", "why_tests_cant": "all maps, keys and heap states, including sharing and growth of storage", "anchors": ["lube/var.cpp: var::operator [](var)", "lube/var.cpp: var::binary", "lube/var.cpp: var::insert"]}
{"id": "C75", "title": "Assigning to a key binds it and no other", "statement": "After m[k] = v, where v is not an entry of m itself and not a view, the key k has the value v and no other; every other key has the values it had; the map is in order with its keys distinct; no other array and no variable changes.", "quantifier": "all reachable states, maps, keys, variables, values", "why_tests_cant": "all maps, keys and heap states, including sharing and growth of storage", "anchors": ["lube/var.cpp: var::operator [](var)", "lube/var.cpp: var::operator =", "lube/var.cpp: var::insert"]}
{"id": "C76", "title": "Subscripting an undefined variable by a key makes a map", "statement": "m[k] and m[k] = v on an undefined variable m put in it a fresh map with the one entry k, undefined or with the value v; no other variable or array changes.", "quantifier": "all reachable states, keys, values", "why_tests_cant": "all reachable states", "anchors": ["lube/var.cpp: var::operator [](var)"]}
{"id": "C77", "title": "Reading a key gives its value", "statement": "x = m[k] gives x the value of k and changes nothing else when the key is there; when it is not, x becomes undefined and the map gets an entry for k with an undefined value.", "quantifier": "all reachable states, maps, keys, variables", "why_tests_cant": "all maps, keys and heap states, including sharing and growth of storage", "anchors": ["lube/var.cpp: var::operator [](var)", "lube/var.cpp: var::operator ="]}
{"id": "C78", "title": "Undefined keys, and keys of arrays", "statement": "m[k] with an undefined key is undefined and adds nothing. On an array that is not a map, a[k] with an int k inside the array is a reference to that element, and the array does not change.", "quantifier": "all reachable states, maps, arrays, indices", "why_tests_cant": "all reachable states", "anchors": ["lube/var.cpp: var::operator [](var)"]}
{"id": "C79", "title": "Entries and keys that a map shares", "statement": "Two things do not hold: m[a] = m[b] need not give a the value of b, because the reference to b is by position and taken before a is inserted, so that the assignment throws and leaves an entry that is not a value; and a map does not keep its order when a variable that was used as a key is changed, because the key is shared with it.", "quantifier": "existence", "why_tests_cant": "the failures are in valid looking programs; a test would have to choose key orders and sharing", "anchors": ["lube/var.cpp: var::operator [](var)", "lube/var.cpp: var::operator =", "lube/var.cpp: var::insert"]}
{"id": "C80", "title": "GEDCOM documents are read exactly", "statement": "A GEDCOM file with a header, submitter, person and family records and a trailer, whose lines use known tags (with NAME, TITL, SEX, HUSB, WIFE and CHIL at level 1, MARR only before a deeper line, and families after at least one person), is read as exactly the map with its persons and families in order: the last NAME, TITL and SEX of a person as text, members of a family as the positions of the persons they name (nil for an unknown reference), children in order. What follows the trailer does not matter.", "quantifier": "all documents of that form", "why_tests_cant": "files of any length with any nesting, any repeated or missing lines, and any references", "anchors": ["lube/gedfile.cpp: GEDCOM::doFile, doIndividual, doFamily, doBirth, doMarriage, doContinue, readLine"]}
{"id": "C81", "title": "Any GEDCOM file is read in finite time into a value of one shape", "statement": "For any non-empty file without NUL bytes the reader comes back: with a value of the expected shape (nil, or lists of person maps and family maps whose members are positions), with an exception, or in undefined behaviour from shifting an empty list of fields; in no other way. An empty file is undefined behaviour: the level is read from a nil.", "quantifier": "all file contents", "why_tests_cant": "arbitrary bytes; termination of seven mutually nested loops", "anchors": ["lube/gedfile.cpp: GEDCOM::loadFile and all readers", "lube/heap.cpp: Heap::shift"]}
{"id": "C82", "title": "An unknown GEDCOM tag ends the file", "statement": "After a line of level 1 with an unknown tag in a person or family record nothing else of the file is read, whatever it contains, and the result is as if the file had ended there; if the line has a single cross reference as argument the behaviour is undefined. The same holds for records of level 0 other than persons, families, submitters, header and trailer.", "quantifier": "all documents, all unknown tags, all continuations", "why_tests_cant": "holds for every continuation of the file", "anchors": ["lube/gedfile.cpp: GEDCOM::doFile, doIndividual, doFamily, knownToken"]}
{"id": "C83", "title": "A marriage without details swallows the rest of its family", "statement": "The lines of a family record after a MARR line that has no deeper line of its own are lost, members included, up to the end of the record.", "quantifier": "all documents with such a family last", "why_tests_cant": "any number of lines of any known kind", "anchors": ["lube/gedfile.cpp: GEDCOM::doFamily, doMarriage"]}
{"id": "C84", "title": "A family before all persons cannot be read", "statement": "A family record that names a member before any person record was read makes the reader throw, whatever follows.", "quantifier": "all such documents and continuations", "why_tests_cant": "holds for every continuation of the file", "anchors": ["lube/gedfile.cpp: GEDCOM::doFamily", "lube/var.cpp: var::at"]}
{"id": "C85", "title": "A GEDCOM file that does not open", "statement": "If the file cannot be opened, reading does not come back: the failure is only printed, and getline on the failed stream appends end-of-file characters for ever.", "quantifier": "all numbers of steps", "why_tests_cant": "non-termination", "anchors": ["lube/gedfile.cpp: GEDCOM::loadFile", "lube/string.cpp: var::getline"]}
{"id": "C86", "title": "product of matrices", "statement": "dot(a,b) for a of shape (M,K) and b of shape (K,N) gives shape (M,N), entry (i,j) being the left-to-right sum of the products of row i of a with column j of b, and changes nothing else; with rows of another length than b has rows it throws; a one-dimensional a with a two-dimensional b, and any b of three or more dimensions, throws.", "quantifier": "all shapes and contents", "why_tests_cant": "All shapes; transposed calls to BLAS go wrong only for some shapes.", "anchors": ["lube/math.cpp: Dot::alloc, Dot::vector", "lube/clapack.cpp: blas::gemm", "lube/func.cpp: ArithmeticFunctor::broadcast"]}
{"id": "C87", "title": "product of a stack of matrices and a matrix", "statement": "dot(a,b) for a of shape (P,R,K) looks at the first two dimensions of a instead of the last two: with R different from the number of rows of b it throws even if K matches; with P <= R = K only the first P rows of each matrix of the result are products and the other rows keep the value of fresh cells; with P > R = K it writes past the end of the result.", "quantifier": "all shapes and contents", "why_tests_cant": "A test with P = R = K passes; the overrun is silent.", "anchors": ["lube/math.cpp: Dot::vector", "lube/func.cpp: ArithmeticFunctor::broadcast"]}
{"id": "C88", "title": "sums and places of magnitudes", "statement": "asum adds the magnitudes of each row from left to right; iamax gives for each row the index, from 0, of the first of its elements of largest magnitude; both give shape (r..,1) and change nothing else.", "quantifier": "all shapes and contents", "why_tests_cant": "All shapes, all places of ties.", "anchors": ["lube/math.cpp: ASum, IAMax", "lube/clapack.cpp: blas::iamax"]}
{"id": "C89", "title": "sorting", "statement": "sort(a,a) makes each row of a a sorted permutation of itself and changes nothing outside a's cells; sort(a) always throws.", "quantifier": "all shapes and contents, any std::sort that sorts", "why_tests_cant": "All shapes and contents.", "anchors": ["lube/math.cpp: Sort::vector", "lube/func.cpp: UnaryFunctor::vector"]}
{"id": "C90", "title": "command line options", "statement": "When options are declared with distinct characters and a command line uses them as declared (flags grouped or apart, arguments joined or in the next word, plain words anywhere, -- before the last words), parse gives a sorted map with exactly the declared characters as keys: 1 for a flag given once, the last argument for an option with a default, and otherwise the default; args gives the plain words in order, nil if there are none.", "quantifier": "all sets of declarations, all command lines", "why_tests_cant": "All declarations and command lines.", "anchors": ["lube/config.cpp: Option::operator (), Option::parse, Option::args", "lube/config.h: Option::usage(int)"]}
{"id": "C91", "title": "repeated flags", "statement": "A flag given twice makes parse throw, whatever follows: after the first time its value is defined, so that an argument is asked for.", "quantifier": "all sets of declarations, all command lines in which a flag occurs twice before any mistake", "why_tests_cant": "All declarations and command lines.", "anchors": ["lube/config.cpp: Option::operator (), Option::parse, Option::args", "lube/config.h: Option::usage(int)"]}
{"id": "C92", "title": "mistakes on the command line", "statement": "An undeclared option, or an option at the end without its argument, prints the name, the usage line and a line for each declared option with its default, and ends the program with status 0, unless a flag occurred twice before it. Every command line is of one of the kinds of C90 to C92: parse gives a map, prints the help or throws about the missing argument.", "quantifier": "all sets of declarations, all command lines", "why_tests_cant": "All declarations and command lines.", "anchors": ["lube/config.cpp: Option::operator (), Option::parse, Option::args", "lube/config.h: Option::usage(int)", "lube/config.cpp: Option::usage"]}
{"id": "C93", "title": "listings of directories", "statement": "dir gives a sorted map with exactly the paths of the entries of a directory as keys, rdir one with the paths of everything below it at any depth; the values are nil, or the parent, stem and extension of the path: the stem and extension make up the name, which is split before its last dot unless that is its first character. An empty directory gives nil, a path that does not exist throws, and so does dir of a file; rdir of a file gives the file alone.", "quantifier": "all finite trees of files and directories in any listing order, all paths", "why_tests_cant": "All trees.", "anchors": ["lube/path.cpp: Path::dir, Path::rdir, bits"]}
{"id": "C94", "title": "trees of directories", "statement": "tree gives a sorted map with exactly the names in a directory as keys; a directory has its own tree as value, and files and empty directories have nil. The result does not depend on the path or on the order in which the system lists entries. It throws for files and paths that do not exist.", "quantifier": "all finite trees of files and directories in any listing order", "why_tests_cant": "All trees and listing orders.", "anchors": ["lube/path.cpp: Path::tree"]}
{"id": "C95", "title": "Fourier transforms of rows", "statement": "A Fourier transform applied to an array gives a new array whose last dimension is the size of the transform's output (size/2+1 for a forward transform of real values of even size, the size otherwise) and whose other dimensions are those of the input; each row is the transform of the first values of the input row, as many as the transform takes, divided by the size of the output for an inverse transform. Rows may be longer than that. Other arrays keep their contents. Applied into an existing array of that shape it changes nothing but the cells of that array's view.", "quantifier": "all shapes, views, sizes, directions, element types and all functions from rows to rows", "why_tests_cant": "All shapes and views.", "anchors": ["lube/dft-kiss.cpp: DFTBase::DFTBase, alloc, scalar, vector"]}
{"id": "C96", "title": "what Fourier transforms do not check", "statement": "The length of the rows is not compared with the size of the transform: when rows are shorter the transform of a row takes the cells that follow it in the array, and if the array ends before that it reads past the end. A transform of real values of odd size has no configuration and dereferences a null pointer when used. Double precision and other types throw on construction, arrays of the wrong type and complex transforms in place throw.", "quantifier": "all shapes, views, sizes, directions, element types", "why_tests_cant": "All shapes; undefined behaviour.", "anchors": ["lube/dft-kiss.cpp: DFTBase::DFTBase, scalar, vector"]}
{"id": "C97", "title": "reading sound files", "statement": "Reading a sound file with one channel gives its rate and a new array of exactly its samples, and other arrays keep their contents. A file with more than one channel cannot be read: the number of frames got is compared with the number of samples and read throws, or, when the file is empty, the transpose that follows divides by zero. A missing file throws.", "quantifier": "all rates, numbers of channels and samples", "why_tests_cant": "All files.", "anchors": ["lube/sndfile.cpp: sndfile::read"]}
{"id": "C98", "title": "writing sound files", "statement": "Writing a vector, or a matrix of one row, to a sound file stores one channel of exactly its values and the rate, and reading the file of a vector gives them back as 16 bits hold them. Writing an array of more than one channel always reads past the end of the transposed copy, as the number of values is passed as the number of frames.", "quantifier": "all arrays and views, all shapes", "why_tests_cant": "Undefined behaviour; all shapes.", "anchors": ["lube/sndfile.cpp: sndfile::write"]}
{"id": "C99", "title": "printed text of views", "statement": "Printing a view gives for one dimension its elements in brackets separated by a comma and a space; for a matrix a bracket, a line for each row indented by two more than the current level, with all elements separated by commas, and the closing bracket at the current level; for more dimensions the shape, the word tensor and the matrices one after the other in row order. Every element appears once and in row order, whatever the offset of the view.", "quantifier": "all shapes, offsets, contents and indentations, all ways of printing elements", "why_tests_cant": "All shapes.", "anchors": ["lube/json.cpp: JSON::formatView"]}
{"id": "C100", "title": "what is sent to gnuplot", "statement": "Strings are sent as lines, vectors as a line for each number and a line with an e, matrices as a line for each column, an empty line and a line with an e; before that the lines that choose the file, if one is given. At the first element that is nil, of another type or of more than two dimensions write throws; what comes before has been sent and nothing after. A string that is not inside an array sends only an empty line for each character.", "quantifier": "all arrays of strings, vectors and matrices, all views and contents", "why_tests_cant": "All inputs.", "anchors": ["lube/gnuplot.cpp: gnuplot::write, gnuplot::puts"]}
{"id": "C101", "title": "arithmetic of two numbers", "statement": "Adding, subtracting, multiplying or dividing two numbers takes the right one as a number of the left one's type (integers wrapped, floating point numbers truncated towards zero or rounded) and gives a number of that type: for int and long the exact result (division truncates), for char the result modulo 256, for float and double the IEEE result; the assigning operators give the same. Nothing else is ever given: an int or long result out of range, an integer divided by zero, and a floating point number too large for the integer type are undefined.", "quantifier": "all operators, all pairs of numbers of all types", "why_tests_cant": "All numbers of all pairs of types.", "anchors": ["lube/var.h: operator +, -, *, /, +=, -=, *=, /=", "lube/math.cpp: Add::scalar, Sub::scalar, Mul::scalar, Div::scalar", "lube/var.cpp: Cast::scalar"]}
{"id": "C102", "title": "text and nil in arithmetic", "statement": "Text on the right of an int counts as the decimal number it starts with, whatever follows; text without a digit throws and leaves the variable alone. nil on the left throws; nil on the right of a number is not noticed and reads a union member that was not written.", "quantifier": "all operators, numbers and texts", "why_tests_cant": "All texts.", "anchors": ["lube/var.cpp: Cast::scalar, var::get", "lube/math.cpp: Add::scalar, type"]}
{"id": "C103", "title": "a number with every element in place", "statement": "x op= y with a number y replaces every number in x, at every depth of arrays and maps, by its combination with y as in C101, keeps types, lengths and keys, and succeeds only then.", "quantifier": "all operators, all nested arrays and maps, all numbers", "why_tests_cant": "All nestings.", "anchors": ["lube/func.cpp: ArithmeticFunctor::broadcast", "lube/math.cpp: Add::scalar"]}
{"id": "C104", "title": "a number with every element into a new array", "statement": "x op y with a number y and a dense array x gives a new array of the combinations. For an array of vars or a map whose first element is a number it is undefined: the number is written over the pointer of an undefined element. An array that starts with a non-empty array is refused.", "quantifier": "all operators, arrays and numbers", "why_tests_cant": "All contents.", "anchors": ["lube/func.cpp: BinaryFunctor::alloc, ArithmeticFunctor::broadcast", "lube/var.cpp: var::copy, var::ptr"]}
{"id": "C105", "title": "arithmetic that throws half way", "statement": "When x op= y throws at an element of an array, the elements before it have already been changed, the element itself as far as it got, and the later ones not at all.", "quantifier": "all operators, arrays, positions and nested elements", "why_tests_cant": "All positions and contents.", "anchors": ["lube/func.cpp: ArithmeticFunctor::broadcast"]}
{"id": "C106", "title": "an array with its own element", "statement": "a op= a[k] combines the elements up to the k-th with a[k], and the later ones with what a[k] has become, since the right operand refers to the element.", "quantifier": "all operators, arrays and indexes", "why_tests_cant": "All arrays and indexes.", "anchors": ["lube/var.h: operator +=", "lube/func.cpp: ArithmeticFunctor::broadcast", "lube/var.cpp: var::operator []"]}
{"id": "C107", "title": "arithmetic of two arrays that are not of floating point numbers", "statement": "An array with an array of another size than one: different types are refused; of equal types x op= y throws and changes nothing while x + y and x - y fail an assertion; an empty x divides by zero. So text is never joined by +. Text with text of one visible character takes the code of the character as the number.", "quantifier": "all operators and arrays", "why_tests_cant": "All arrays.", "anchors": ["lube/func.cpp: ArithmeticFunctor::broadcast", "lube/math.cpp: Add::vector, Sub::vector, Mul::vector"]}
{"id": "C108", "title": "negation", "statement": "-x of an int or long is exact except for the least number, where it is undefined; of a char it wraps for -128; of every float and double, including zeros, infinities and subnormal numbers, it only changes the sign.", "quantifier": "all numbers", "why_tests_cant": "All floating point numbers.", "anchors": ["lube/var.h: operator -()", "lube/math.cpp: Mul::scalar"]}
{"id": "C109", "title": "functions of floating point numbers", "statement": "floor, sin, cos, tan, atan, sqrt, log and exp apply the library function of the type to a float or double, and refuse integers and characters. In place they apply to every number in nested arrays and maps. As functions they give a new array, also from an array of vars; from a map the keys are lost; an array that starts with a non-empty array is refused.", "quantifier": "all library functions, numbers, arrays and maps", "why_tests_cant": "All contents and nestings.", "anchors": ["lube/math.cpp: CMATH_UNARY_FUNCTOR, COMPLEX_UNARY_FUNCTOR", "lube/func.cpp: UnaryFunctor::broadcast, UnaryFunctor::operator()"]}
{"id": "C110", "title": "arithmetic in programs", "statement": "x += e and the like on a variable that is a number replace it by the result in its own type, and change nothing else. A new variable or an assignment from e + f gets the number, also when the variable assigned is an operand; no array is changed. Arithmetic on an undefined variable throws and leaves the state as it was.", "quantifier": "all reachable states, variables and operands that are numbers or references to numbers", "why_tests_cant": "All program states: what else the operation might touch.", "anchors": ["lube/var.h: 105-112", "lube/func.cpp: ArithmeticFunctor::operator()", "lube/math.cpp: ARITHMETIC_FUNCTOR"]}
{"id": "C111", "title": "arithmetic on elements and on values of keys", "statement": "a[i] += e, also through a reference, changes element i of the array and nothing else. m[k] += e on a key that is there changes its value; no key is added. When the key is not there it throws, but the key stays in the map with an undefined value.", "quantifier": "all reachable states, arrays, maps, keys and operands", "why_tests_cant": "All states; tests have no case of a missing key.", "anchors": ["lube/var.h: 105-108", "lube/var.cpp: 158-175, var::operator [](var)", "lube/func.cpp: ArithmeticFunctor::operator()"]}
{"id": "C112", "title": "finding a key", "statement": "m.at(k) for a variable that is a map refers to the value of the key if it is there and is undefined if not; in both cases the map and all other arrays are as they were. An undefined variable and an array that is not a map are refused. For a map that is itself an element it refers to the wrong array.", "quantifier": "all reachable states, maps and keys", "why_tests_cant": "All maps and keys.", "anchors": ["lube/var.cpp: var::at(var), var::binary, var::reference"]}
{"id": "C113", "title": "the keys of a map", "statement": "m.key(i) gives key i of the map, sharing it; a position outside the map and an array that is not a map are refused. Nothing changes.", "quantifier": "all reachable states, maps and positions", "why_tests_cant": "All maps and positions.", "anchors": ["lube/var.cpp: var::key", "lube/heap.cpp: heap::key"]}
{"id": "C114", "title": "variables made from a list of elements", "statement": "var x = {e1, e2, ...}: an empty list gives an undefined variable and one number that number. Two numbers of one type give a new array of that type, the further elements converted to it. A first element that is an array or undefined gives an array of vars that shares the elements. A number followed by anything of another type throws \"push(): Incompatible types\" and leaves everything as it was; so the README's own example var a = {1.3f, 1.2, 45} throws.", "quantifier": "all reachable states, lists of any length, all elements", "why_tests_cant": "All lists; the tests have lists of one type only.", "anchors": ["lube/var.cpp: var::var(std::initializer_list<var>)", "lube/var.cpp: var::push", "README.md: 30"]}
{"id": "C115", "title": "variables made from a size and a value", "statement": "var x(n, v) with a number v and n of two or more gives a new array of the type of v with n elements equal to v, a terminated string when v is a character. With n of 0 or 1 it gives the number itself, not an array. An array or an undefined value is refused with an exception and nothing changes.", "quantifier": "all reachable states, sizes and values", "why_tests_cant": "All sizes and values; the tests have no size below two.", "anchors": ["lube/var.cpp: var::var(int, var)"]}
{"id": "C116", "title": "comma initialisation", "statement": "a = x1, x2, ...; with two or more numbers makes a a new array of the type of x1 (a terminated string when x1 is a character) that holds x1 and the others converted to that type: a double after an int is truncated without complaint, where push and the initialiser list throw. Nothing else changes. On its own, (a, x); adds x, converted, to the array of a, which every variable that shares it sees.", "quantifier": "all reachable states, any number of numbers that are constants or other variables, all values for which the conversion is defined", "why_tests_cant": "All lengths, types and values; the tests use doubles, and ints that are converted to double without loss.", "anchors": ["lube/var.h: operator ,", "lube/var.cpp: var::append, var::insert", "test/test-var.cpp: 232"]}
{"id": "C117", "title": "roots of a polynomial", "statement": "roots(c) for a vector of three or more coefficients, the first not zero, gives the eigenvalues of the companion matrix of the polynomial c0 x^n + ... + cn. In exact arithmetic each result is a root of the polynomial and each root is among the results, if the eigenvalue routine finds eigenvalues and all of them. For two coefficients, a polynomial of degree one, it always throws \"var::view: Input not an array\".", "quantifier": "all fields, all coefficients, all degrees from two whose matrix size fits an int; any eigenvalue routine", "why_tests_cant": "All polynomials.", "anchors": ["lube/math.cpp: Roots::vector", "lube/clapack.cpp: math::geev"]}
{"id": "C118", "title": "products through BLAS", "statement": "The wrapper's gemm, called with the matrices swapped because BLAS stores columns, leaves in C at row r and column k the sum over l of alpha A(r,l) B(l,k), added in this order to beta C(r,k), for matrices stored row after row; a beta of 0 ignores what was in C. A matrix with empty rows stops the program. tbmv and sbmv with a band of width 0 multiply element by element; axpy, scal and dot do what their names say. Multiplying out of place (sbmv) adds the product to 0 and to 0 times alpha, so it may lose the sign of a zero that multiplying in place (tbmv) keeps.", "quantifier": "all sizes, all contents; any arithmetic for the order of the sums, rings for the matrix form", "why_tests_cant": "All sizes and contents.", "anchors": ["lube/clapack.cpp: math::gemm, math::tbmv, math::sbmv, math::axpy, math::scal, math::dot"]}
{"id": "C119", "title": "graphs", "statement": "addVertex gives the number of vertices there were, so vertices are numbered from 0 in the order they are made. addEdge keeps all edges in the order they were added, parallel ones too, and makes the vertices up to its ends if they are missing. The ends of every edge are vertices. The file written has one line for each vertex and then one for each edge, and tells the graph: two graphs with the same file are the same. The vertex -1 makes the edge be stored outside memory; other negative vertices throw.", "quantifier": "all sequences of calls, all vertices", "why_tests_cant": "All sequences of calls.", "anchors": ["lube/graph.cpp: Graph::addVertex, Graph::addEdge, Graph::writeGraphViz"]}
{"id": "C120", "title": "lives of modules and their instances", "statement": "A module object opens its library once, owns the instances its factory makes, deletes each of them exactly once, in order and before it closes the library, and closes the library once; this holds also when a cast to the wanted class throws and for several modules of the same library. So instances can be used exactly as long as the module object that made them lives. A library without a factory function stays open for ever. Copying a module object deletes its instances twice.", "quantifier": "all programs that make, use and destroy module objects, all libraries, all results of factories", "why_tests_cant": "All orders of construction, use and destruction, and failures of the dynamic loader.", "anchors": ["lube/module.cpp: module::module, module::~module, module::create", "lube/module.h: class module, class filemodule"]}
{"id": "C121", "title": "elements have the type of their array", "statement": "In every state a program can reach, also after exceptions, every element in the storage of an array of numbers, within its size and above, is either not initialised or a number of exactly the array's type; the elements, keys and values of arrays of vars and maps, and all variables, are initialised; the descriptor of a view is an array of ints. An array never changes its element type, and a view never changes the array it is a view of, as long as it lives. So whatever is read from an array of numbers has its type.", "quantifier": "all programs over all methods, all reachable states, all arrays and elements", "why_tests_cant": "Every sequence of resizes, shifts, insertions, conversions, views and exceptions.", "anchors": ["lube/var.cpp: operator =, resize, array, insert, remove, shift, unshift, append", "lube/heap.cpp: resize, alloc, shift, unshift, copy", "lube/view.cpp: View"]}
{"id": "C122", "title": "a transfer returns what was received", "statement": "When libcurl reports success, transfer returns a new string with exactly the bytes of the blocks given to the callback, one after the other in their order, terminated by a NUL, whatever variables and arrays there are, and none of those is changed; the string of the transfer itself is released. When libcurl reports a failure, transfer throws its text, makes no variable and leaves all others as they were.", "quantifier": "all reachable states, all sequences of blocks of less than 2^31 bytes together, all failures", "why_tests_cant": "Blocks arrive in any sizes and number over a network; a failure can come after any of them.", "anchors": ["lube/curl.cpp: Curly::transfer, Easy::perform, Easy::writeCallback"]}
{"id": "C123", "title": "a curve has the points given", "statement": "A curve has as many points as the shorter of the two arrays of doubles or views has elements, and pairs the elements of the same place in the order of rows; curves and titles given before stay until plot is called, which starts anew, whatever was in the window. A number gives at most one point and nil none. The data of other types are read as if they were doubles, and a curve or titles without a plot use an uninitialised pointer.", "quantifier": "all arrays and views of doubles of all shapes, all sequences of curves, all titles", "why_tests_cant": "All shapes, offsets and lengths; the tests only draw one curve on a screen.", "anchors": ["lube/qwt.cpp: MQwt::curve, MQwt::plot, MQwt::axes"]}
{"id": "C124", "title": "both transpositions are the same", "statement": "Compiled against the Math Kernel Library, transpose gives the same array, the same memory and the same exceptions as with the loops of its own, for every array and view, into a new array and in place; so C54 and C55 hold of it too.", "quantifier": "all arrays and views of all shapes and offsets of element types float and double", "why_tests_cant": "Every pair of rows and columns has its own cycles; only one of the files is compiled.", "anchors": ["lube/transpose-mkl.cpp: Transpose::alloc, scalar, vector", "lube/transpose-adhoc.cpp: inPlace, outOfPlace"]}
{"id": "C125", "title": "transforms over the Math Kernel Library", "statement": "Compiled against the Math Kernel Library, the transforms take float and double, real and complex rows of any size, odd ones too, and transform each row as C95 says; where dft-kiss works the results are the same. What the library reports against a size or a row is thrown, with the message of the first row it refuses. Wrong types and transforms in place throw.", "quantifier": "all shapes, sizes, transforms and reports of the library", "why_tests_cant": "The library and what it reports are arbitrary; only one of the files is compiled.", "anchors": ["lube/dft-mkl.cpp: DFTBase, alloc, scalar, vector, dftiCheck"]}
{"id": "C126", "title": "comparison of complex numbers", "statement": "Comparing two arrays of cdouble with == or != never returns if they have the same number of elements, at least one, and neither does < if both have elements; a variable with a single cdouble is such an array, so it cannot even be compared with itself. Arrays with different numbers of elements are unequal. References to elements of any type compare as the numbers do. Arrays of cfloat and of real numbers are unequal exactly when elements at the same place are. An array with elements differs from an undefined var and an empty one does not, but with the undefined var on the left the latter comparison, like comparing two undefined vars with != and comparing with one by <, calls a method of a null pointer.", "quantifier": "all contents, sizes and depths of calls", "why_tests_cant": "Every test on two cdouble variables overflows the stack; that no depth of calls suffices is not testable.", "anchors": ["lube/var.cpp: operator !=, operator <, var(cdouble)", "lube/heap.cpp: neq, lt, at"]}
{"id": "C127", "title": "conversion and assignment of complex numbers", "statement": "Assigning an element of an array to an element of another of the same type stores the whole number, except for cdouble, whose imaginary part becomes zero. Between different types the real part alone is stored, converted to the type of the target. A variable with a cfloat is stored whole in an array of cfloat and with its real part elsewhere. A variable with a cdouble is stored whole in an array of cdouble; anywhere else its pointer is read as a number. Taking an element into a variable first keeps both parts. No other element and no other array changes.", "quantifier": "all arrays, types, indices and numbers", "why_tests_cant": "The tests assign no element of type cdouble.", "anchors": ["lube/var.cpp: Cast<T>::scalar, cast, get, operator =, dereference"]}
{"id": "C128", "title": "arithmetic of complex numbers", "statement": "On an array of cdouble, a += b, a -= b, a *= b and a /= b change the first element only, using the first element of an array of cdouble on the right and the real part of anything else; a + b and so on give an array as long as a of which only the first element is computed and the rest are zero. A number on the left with a cdouble variable on the right reads the pointer of that as a number. On an array of cfloat every element takes part in +=, -= and /= with a number; *= throws. Of two arrays of cfloat only += works, element by element; the others throw.", "quantifier": "all arrays, operands and operations", "why_tests_cant": "The tests use single numbers only.", "anchors": ["lube/math.cpp: type, Add, Sub, Mul, Div", "lube/func.cpp: BinaryFunctor, ArithmeticFunctor::broadcast"]}
{"id": "C129", "title": "functions of complex numbers", "statement": "Functions of an array of cdouble (sin, cos, tan, atan, sqrt, log, exp, real, imag, abs, arg, norm) give the function of its first element, a single number. On arrays of float, double and cfloat they give an array of the function of every element, which for real, imag, abs, arg and norm of cfloat is an array of float. floor throws on complex arrays. The argument does not change.", "quantifier": "all arrays and functions", "why_tests_cant": "The tests use arrays of cfloat only; the functions are arbitrary.", "anchors": ["lube/math.cpp: COMPLEX_UNARY_FUNCTOR, CMATH_UNARY_FUNCTOR, RealUnaryFunctor::alloc", "lube/func.cpp: UnaryFunctor"]}
{"id": "C130", "title": "copies of complex numbers", "statement": "copy() throws on every array of cfloat or cdouble, a variable with a single cdouble included; other arrays of numbers are copied and the copy is independent. var(n, x) gives n times the number x, refuses a variable with a cdouble, and of a reference to an element of type cdouble keeps the imaginary part in the first element only.", "quantifier": "all arrays and sizes", "why_tests_cant": "The tests copy no complex array.", "anchors": ["lube/heap.cpp: copy, alloc", "lube/var.cpp: copy, var(int, var)"]}
{"id": "C131", "title": "string functors over arrays and maps", "statement": "toupper, tolower, strip and replace in place change every string of a tree of arrays and maps and keep its shape and keys. An undefined element throws, a blank non-empty string is undefined behaviour for strip, and what is before it has been changed. A number makes any string functor call itself for ever. A single char that is an element of an array of vars becomes the empty string. As new values, arrays of strings give arrays of results, maps lose all their keys, an array that holds a number or a non-empty array or map throws, and strip returns for empty strings only.", "quantifier": "all trees, all strings, all positions of the offending element, all regular expression engines, all depths of calls", "why_tests_cant": "The tests change single strings and one array; they cannot show that a call never returns.", "anchors": ["lube/string.cpp: StringFunctor::alloc, operator(), broadcast", "lube/string.cpp: Strip, Replace, ToUpper, ToLower", "lube/var.cpp: is, at"]}
{"id": "C132", "title": "searching and matching", "statement": "search and match of a string return nil when there is no match and otherwise the array of the groups; of an array of strings they return the array of what each string gives on its own. Only the part of a string before its first NUL takes part, and nothing of a single char. replace gives what the engine gives.", "quantifier": "all strings, all arrays of strings, all regular expression engines", "why_tests_cant": "A few expressions on a few strings are tested.", "anchors": ["lube/string.cpp: Search, Match, Replace"]}
{"id": "C133", "title": "sums and largest magnitude by type of element", "statement": "sum of an array of float, double or cfloat adds its elements from the left; sum of an array of cdouble is its first element. asum adds the magnitudes of floats or doubles; it throws for an array of cfloat, and for a single cfloat or any array of cdouble it stores a complex number where there is space for a real one only. iamax gives the first place with the largest magnitude for float, double and cfloat; for cdouble and for single numbers an assertion fails. Ints throw in all three; empty arrays read out of bounds or divide by zero.", "quantifier": "all arrays and all additions, magnitudes and orders of magnitudes", "why_tests_cant": "The tests sum one array of reals.", "anchors": ["lube/math.cpp: ASum, Sum, IAMax, type, scalarAlloc", "lube/func.cpp: UnaryFunctor::broadcast"]}
{"id": "C134", "title": "powers by type of element", "statement": "pow of an array of float, double or cfloat by a number is the power of every element, as a new array or in place; the exponent is converted to the type of the base. pow of an array of cdouble is the power of its first element, a single number, and in place the variable shrinks to that. Ints throw, and so does a power between two arrays.", "quantifier": "all arrays, all exponents", "why_tests_cant": "The tests raise one number to one power.", "anchors": ["lube/math.cpp: Pow::scalar", "lube/var.h: pow", "lube/func.cpp: ArithmeticFunctor::broadcast"]}
{"id": "C135", "title": "assigning to a view", "statement": "Assigning an array or view to a variable that is a view of the same shape and type of element copies elements and changes nothing else: no variable, count, size or other array. For float and double, from another array or from the same place or further on in the same one, each element becomes the corresponding one. From further back in the same array, overlapping, the elements between the two starts are repeated instead. For other types of element it throws and changes nothing. Two empty views divide by zero. A number, an undefined value, or an array or view of another shape or type of element takes the place of the view in the variable, and no element changes.", "quantifier": "all reachable states, views, shapes and elements", "why_tests_cant": "The tests assign no overlapping views, no views of int and no empty views.", "anchors": ["lube/var.cpp: var::operator =", "lube/view.cpp: View::copyable", "lube/math.cpp: Set", "lube/func.cpp: ArithmeticFunctor::broadcast"]}
{"id": "C136", "title": "in place arithmetic on arrays and views in memory", "statement": "a += x, a -= x, a *= x and a /= x on an array or view of numbers, x a number, replace every element of a by the result and change nothing else, not even the elements of the same storage outside a view. If x is an element of the same storage, +=, -= and /= use its changed value for the elements after it, and *= the value it had. *= throws for char, int and long elements. If x is an array or view of several elements it is applied to each row of a of the dimension of x, as many places as x has elements: more than a has changes the places after a, and beyond the allocation is out of bounds. From further back in the same storage, already changed elements are used. Only float and double elements do this; other types, unequal types, too many dimensions and an undefined x throw and change nothing. An empty a divides by zero.", "quantifier": "all reachable states, arrays, views, shapes and operands", "why_tests_cant": "The tests operate on a few arrays of doubles of matching shape and never on overlapping views or a longer operand.", "anchors": ["lube/var.h: operator +=", "lube/func.cpp: ArithmeticFunctor::broadcast", "lube/math.cpp: Add", "lube/math.cpp: Sub", "lube/math.cpp: Mul::scale", "lube/math.cpp: Div"]}
{"id": "C137", "title": "making a view in memory", "statement": "v.view(shape, d) of an array, or of a view that begins at an offset, makes one new array, the descriptor of that shape on the same storage, beginning at the offset plus d. It holds the storage once more; nothing else changes and no element is copied. If the shape and where it begins need more elements than the storage has it throws and changes nothing, and so do an empty shape and a number or undefined value in place of an array.", "quantifier": "all reachable states, arrays, views, shapes and offsets within int", "why_tests_cant": "The tests make a few small views of doubles and never look at who holds the storage, at other types or at shapes that do not fit.", "anchors": ["lube/var.cpp: var::view", "lube/view.cpp: View::View", "lube/view.cpp: View::setStrides"]}
{"id": "C138", "title": "moving a view in memory", "statement": "v.offset(d) and v.advance(d) on a view change only where that view begins: its shape, every other view, the storage and all holders stay as they were. They throw and change nothing if the view would then end after the storage, or if v is not a view.", "quantifier": "all reachable states, views and offsets from 0 within int", "why_tests_cant": "The tests move one view along one array.", "anchors": ["lube/var.cpp: var::offset", "lube/var.h: var::advance", "lube/view.cpp: View::offset"]}
{"id": "C139", "title": "view(shape, type) in memory", "statement": "view(shape, x) of a number that is not a char, or of nothing, makes a new array of that type, or of floats, with as many elements as the shape has, and returns a view of all of it that alone holds it. Only the first element is initialised: it is the number, or zero. Of a variable that is an array it makes no copy: that array itself is resized to the shape and the view shares it, its first elements unchanged. A shape with a negative product fails an assertion.", "quantifier": "all reachable states, operands and shapes whose products fit", "why_tests_cant": "The tests use two small shapes of doubles and never read the elements before writing them, nor pass an array.", "anchors": ["lube/var.cpp: libube::view", "lube/var.cpp: var::array", "lube/var.cpp: var::resize"]}
{"id": "C140", "title": "var({shape}, x) in memory", "statement": "var({..}, x) of a number makes a new array with as many elements of the type of x as the shape has, all equal to x, and is a view of all of it of that shape. Nothing else changes.", "quantifier": "all reachable states, numbers and shapes whose products fit", "why_tests_cant": "The tests make two such arrays of one type.", "anchors": ["lube/var.cpp: var::var"]}
{"id": "C141", "title": "call stack in the text of an error", "statement": "Where the system has backtrace(), an error adds to its text the number of frames and one line for each, in order: the demangled name, or the name itself if it is not a mangled one. Every symbol is either file(name+..., with an empty name file()..., or of some other form. The first empty name ends the text with (undefined). The first symbol of another form, such as one without brackets, writes through a null pointer, so making the error crashes instead of throwing. One block of memory is lost for every run of consecutive names that cannot be demangled, and everything allocated if a name is empty.", "quantifier": "all lists of symbols and all demanglers", "why_tests_cant": "The program throw.cpp says itself that the result differs between systems and crashes on some, so it is not run as a test.", "anchors": ["lube/var.cpp: error::backTrace", "lube/var.cpp: error::error"]}
{"id": "C142", "title": "maps inside maps", "statement": "Where m[a] is a map, other than m itself, m[a][b] is a reference to the entry of b in that inner map, which is added with an undefined value if it is not there, x = m[a][b] gives x the value of a key b that is there, and m[a][b] = v binds b to v in the inner map and leaves its other entries, the outer map and all other arrays and maps as they were. Where a is not a key of m, or m[a] is not defined, m[a][b] first binds a to a new map, whose only entry is b; the other entries of m stay.", "quantifier": "all reachable states, all keys and values", "why_tests_cant": "The tests index one nested map with a few keys; what is shared and what stays is a statement on all states.", "anchors": ["lube/var.cpp: var::operator[]", "lube/var.cpp: var::dereference", "lube/var.cpp: var::operator="]}
{"id": "C143", "title": "arrays inside maps", "statement": "Where m[a] is an array that is not also a key of m, m[a].push(x) appends x, converted to its type, to that array, m[a][i] = x replaces its element i, and x = m[a][i] gives x the value of the element; the entries of m, the variables and all other arrays and maps stay as they were. Where a is not a key of m, or m[a] is not defined, m[a].push(x) of a number binds a to that number. A string that is both a key of m and its value is one string: a push on the value changes the key, and the keys of m may no longer be in order.", "quantifier": "all reachable states, all keys, elements and values", "why_tests_cant": "The tests fill arrays in maps a few times and print them; that nothing else changes, and that a shared key does, is a statement on all states.", "anchors": ["lube/var.cpp: var::push", "lube/var.cpp: var::operator[]", "lube/var.cpp: var::dereference", "lube/var.cpp: var::size"]}
{"id": "C144", "title": "the names of types", "statement": "typeStr() gives a new string with the name of the var's type, for a reference that of the element it refers to, and \"array\" also for an undefined var; atypeStr() gives array[t] for an array or a view of elements of type t and the same as typeStr() for a number. Nothing else changes. No two type codes have the same name, and a code that is no type throws. atypeStr() of an undefined var, or of a reference to one, is undefined behaviour: it calls a method of a null pointer.", "quantifier": "all reachable states, all vars, all type codes", "why_tests_cant": "No test calls either function; a crash on undefined vars only shows when one is passed.", "anchors": ["lube/var.cpp: typeStr", "lube/var.cpp: var::typeStr", "lube/var.cpp: var::atypeStr"]}
{"id": "C145", "title": "functors of N arguments", "statement": "A functor of N arguments is called once for each place of the leading dimensions that the arguments and the output have in common, with an array of the parts of the arguments at that place and the part of the output there; with a vector() that writes a function of those parts, the output holds that function everywhere, and nothing else changes. Without an output, a new array like the first argument is made. Arguments whose element types differ, and an operation with more dimensions than the output, throw. A functor without its own vector() throws, naming the wrong class. Where an argument has just the common dimensions its part is a number: if the first argument is one and the second is not the call throws, and if at least two such arguments precede one with more dimensions the pointer to its view is read as a number. An output whose parts have no elements divides by zero.", "quantifier": "all numbers of arguments, all shapes, offsets and contents, all vector() functions", "why_tests_cant": "The tests call one functor of N arguments on one shape; arguments of mixed dimensions are not tested at all.", "anchors": ["lube/func.cpp: NaryFunctor::alloc, operator (), scalar, vector, broadcast", "lube/var.cpp: var::push"]}
{"id": "C146", "title": "eigenvectors and Schur form through LAPACK", "statement": "Given routines that do what LAPACK documents for matrices stored by columns, geev and gees call them properly for any n >= 1 (work space, leading dimensions, a null pointer only where no vectors are asked for). For matrices stored by rows, row j of vr is then a right and row j of vl a left eigenvector of a real eigenvalue j. For a pair of complex eigenvalues j, j+1 the rows j and j+1 are the real and imaginary parts of an eigenvector of eigenvalue j+1, the one with negative imaginary part, and not of eigenvalue j as LAPACK's convention has it. gees gives A = V^T T V with the rows of vs orthonormal and T, in place of A, lower instead of upper quasi-triangular.", "quantifier": "all sizes, all matrices, all routines meeting the LAPACK specification, exact arithmetic in any commutative ring", "why_tests_cant": "The test has one matrix with real eigenvalues only, so the conjugation never shows.", "anchors": ["lube/clapack.cpp: geev<float>, geev<double>, gees<float>", "lube/c++lapack.h: geev, gees"]}
{"id": "C147", "title": "dot product of complex vectors", "statement": "dot(x,y) of two vectors of cfloat is a number: the left-to-right sum of the products of the conjugates of x with y, over as many elements as y has; in exact arithmetic exchanging the vectors conjugates it, and dot(x,x) is real. If y is longer than x the call reads beyond the end of x, and if y is a single number it never returns, whatever the types. For vectors of cdouble an assertion fails, since an array of cdouble does not count as an array there, although the branch for it exists. Vectors of different types throw.", "quantifier": "all contents and lengths, all depths of calls, any arithmetic (any commutative ring for the two symmetry claims)", "why_tests_cant": "The tests only take dot products of real vectors; non-termination and the assertion concern whole classes of arguments.", "anchors": ["lube/math.cpp: Dot::alloc, Dot::vector, scalarAlloc, type", "lube/clapack.cpp: blas::dot<CFLOAT>, blas::dot<CDOUBLE>", "lube/func.cpp: ArithmeticFunctor::broadcast"]}
{"id": "C148", "title": "the number a text converts to", "statement": "Converting a text to double or float: white space, an optional sign, digits with or without a point, and an optional exponent e or E with its own sign give the floating point number nearest to the decimal written, zero keeping its sign; what follows is ignored; a value too large throws. A whole number, however it is written (25, 2.5e1, +25.), converts as the long with that value does. An exponent letter without an exponent behind it throws, although any other letter there is ignored; text with neither digit nor point after the space and sign throws for int, long, float and double.", "quantifier": "all texts, any number of digits, any exponent", "why_tests_cant": "The tests convert a handful of literals; the claim covers every way to write a number.", "anchors": ["lube/var.cpp: var::Cast, var::cast", "lube/stream.cpp: varstream"]}
