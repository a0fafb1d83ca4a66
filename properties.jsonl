{"id": "C01", "title": "bitset behaves as a sequence of Size booleans", "statement": "For every bitset size, any history of constructors and of set/reset/flip (all bits or one bit), &=, |=, ^=, ~, <<=, >>= and swap calls leaves the bitset with exactly the bits that the same history produces on a plain sequence of Size booleans, and every test()/const operator[] answers from that sequence.", "quantifier": "all bitset sizes, all finite operation histories, all operands and indices", "why_tests_cant": "Sizes, operands and histories are unbounded; tests use sizes 1..10 and a handful of histories.", "anchors": ["inc/ptl/bitset.hpp: bitset::set, reset, flip, operator&=, operator|=, operator^=, operator~, operator<<=, operator>>=, swap, test, operator[]"]}
{"id": "C02", "title": "bitset queries never see the padding bits", "statement": "In every reachable bitset whose size is not a multiple of eight, all(), any(), none(), count() and operator== answer as if only the Size bits existed: all() iff every bit is set, any() iff some bit is set, none() iff no bit is set, count() is the number of set bits, == iff all Size bits agree.", "quantifier": "all sizes, all reachable bitsets (pairs of them for ==)", "why_tests_cant": "The failure shows up only for particular combinations of size and previous operation leaving junk in the last byte.", "anchors": ["inc/ptl/bitset.hpp: clear_trailing_bits, determine_trailing_mask, all, any, none, count, operator==, operator!="]}
{"id": "C03", "title": "bitset shifts are logical shifts of the whole sequence", "statement": "b <<= n moves bit i to position i+n and fills with zeros, b >>= n moves bit i+n to position i and fills with zeros, for every n including n >= Size (result all zero) and across byte boundaries.", "quantifier": "all sizes, all bitsets, all shift counts", "why_tests_cant": "The shift count and size are unbounded and byte-carry bugs appear at specific bit positions only.", "anchors": ["inc/ptl/bitset.hpp: operator<<=, operator>>=, operator<<, operator>>"]}
{"id": "C04", "title": "bitset bitwise operators are pointwise", "statement": "(a & b)[i] = a[i] and b[i], (a | b)[i] = a[i] or b[i], (a ^ b)[i] = a[i] xor b[i], (~a)[i] = not a[i] for every i < Size, and the operands of the non-assigning forms are unchanged.", "quantifier": "all sizes, all pairs of bitsets, all indices", "why_tests_cant": "Exponentially many operand pairs.", "anchors": ["inc/ptl/bitset.hpp: operator&, operator|, operator^, operator~"]}
{"id": "C05", "title": "bitset checked access throws exactly when out of range", "statement": "at(i), test(i), set(i, v), reset(i) and flip(i) throw std::out_of_range exactly when i >= Size; when they throw, the bitset is unchanged, and when they do not, only bit i can change.", "quantifier": "all sizes including 0, all indices, all bitsets", "why_tests_cant": "Indices range over all of size_t.", "anchors": ["inc/ptl/bitset.hpp: at, test, set, reset, flip"]}
{"id": "C06", "title": "bitset from integer takes the low bits", "statement": "bitset(value)[i] equals bit i of value for every i < Size below the width of size_t, and is false for every further i; bits of value beyond Size are dropped.", "quantifier": "all sizes, all size_t values", "why_tests_cant": "2^64 values times all sizes.", "anchors": ["inc/ptl/bitset.hpp: bitset::bitset(size_type)"]}
{"id": "C07", "title": "bitset text round-trip", "statement": "Streaming a bitset out and extracting it again yields an equal bitset and consumes exactly the written characters, whatever follows them in the stream.", "quantifier": "all sizes >= 1, all bitsets, all following input", "why_tests_cant": "2^Size values and arbitrary following input.", "anchors": ["inc/ptl/bitset.hpp: operator<<(std::ostream&), operator>>(std::istream&)"]}
{"id": "C08", "title": "bitset extraction on arbitrary input", "statement": "Extraction skips leading whitespace, then consumes the longest prefix of at most Size characters '0'/'1'; if it is non-empty the bitset becomes that number (zero extended on the left), the first other character stays unread; if it is empty because of another character, the bitset is unchanged and failbit is set.", "quantifier": "all sizes, all previous contents, all character streams", "why_tests_cant": "Arbitrary input streams.", "anchors": ["inc/ptl/bitset.hpp: operator>>(std::istream&)"]}
{"id": "C09", "title": "bitset extraction stopping at end of input succeeds", "statement": "As with std::bitset, extracting from a stream that ends after k digits with 1 <= k < Size succeeds: the bitset holds those digits and failbit is not set.", "quantifier": "all sizes, all digit strings shorter than Size", "why_tests_cant": "Depends on the interaction of get()/unget() with end of input for every length.", "anchors": ["inc/ptl/bitset.hpp: operator>>(std::istream&)"]}
{"id": "C10", "title": "reading a bit through a mutable bitset returns that bit", "statement": "For a non-const bitset b and i < Size, converting b[i] (or b.at(i)) to bool terminates and returns bit i.", "quantifier": "all sizes, bitsets and indices", "why_tests_cant": "The unit tests only read through const bitsets; termination is a property of all executions.", "anchors": ["inc/ptl/bitset.hpp: bitset::reference::operator bool, operator[](size_type), at"]}
{"id": "C11", "title": "swapping two bit references exchanges the two bits", "statement": "swap(a[i], b[j]) exchanges bit i of a with bit j of b, for a and b the same or different bitsets, and changes nothing else.", "quantifier": "all sizes, all pairs of (possibly identical) bitsets, all index pairs", "why_tests_cant": "All aliasing combinations of object and index.", "anchors": ["inc/ptl/bitset.hpp: bitset::reference::swap"]}
{"id": "C12", "title": "writing through a bit reference changes only that bit", "statement": "b[i] = v and b[i].flip() set respectively toggle bit i of b and leave every other bit of b and every other bitset unchanged, for i < Size.", "quantifier": "all sizes, bitsets, indices and values", "why_tests_cant": "All sizes and indices.", "anchors": ["inc/ptl/bitset.hpp: bitset::reference::operator=(bool), flip"]}
{"id": "C13", "title": "equal bitsets hash equally", "statement": "Whenever two reachable bitsets of one size agree on all Size bits, std::hash gives the same value for both; the value is the FNV-1a hash of the packed bytes.", "quantifier": "all sizes, all pairs of reachable bitsets", "why_tests_cant": "All pairs of histories reaching the same bits.", "anchors": ["inc/ptl/bitset.hpp: std::hash<ptl::bitset>, operator=="]}
{"id": "C14", "title": "vector behaves as a sequence", "statement": "Any history of operations over any number of vectors (construction, copy, move, assignment, assign, push_back, emplace, insert, erase, pop_back, resize, reserve, shrink_to_fit, clear, swap, destruction) leaves every vector with exactly the elements that the same history yields on plain sequences; operations that report an exception count as not executed.", "quantifier": "all element types with the required members, all finite histories, all numbers of vectors, all allocation and copy failures", "why_tests_cant": "Unbounded histories times failure points.", "anchors": ["inc/ptl/vector.hpp: class vector"]}
{"id": "C15", "title": "vector never leaks, double-destroys or touches dead memory", "statement": "In no history (with preconditions respected) does a vector read or destroy an element that is not alive, construct over a live element, write outside its allocation, free memory twice or free memory with live elements in it; destroying all vectors leaves no element alive and no memory allocated.", "quantifier": "all finite histories, all allocation and copy failures", "why_tests_cant": "Memory errors depend on the exact interleaving of growth, removal and failures.", "anchors": ["inc/ptl/vector.hpp: storage_t, assign_impl, insert_impl, resize_impl, erase, pop_back, clear"]}
{"id": "C16", "title": "vector strong exception guarantee", "statement": "If any operation on a vector throws (element copy throws, allocation fails or max_size is exceeded), every vector still has the same elements as before and nothing is leaked.", "quantifier": "all operations, all states, all points at which a copy or an allocation can fail", "why_tests_cant": "Every copy of every operation is a potential failure point.", "anchors": ["inc/ptl/vector.hpp: assign_impl, insert_impl, resize_impl, reserve, vector(const vector &)"]}
{"id": "C17", "title": "vector arguments may alias the vector", "statement": "push_back, insert, assign and resize may be passed references to (or ranges of) elements of the same vector; the elements inserted are the values these had before the call, with or without reallocation.", "quantifier": "all vectors, positions, counts and aliased elements", "why_tests_cant": "Aliasing bugs depend on capacity, position and source index.", "anchors": ["inc/ptl/vector.hpp: assign_impl, insert_impl, resize_impl"]}
{"id": "C18", "title": "vector capacity bounds", "statement": "In every reachable vector size() <= capacity() <= max_size(), capacity() is 0 or at least 10, and data() is null exactly when capacity() is 0.", "quantifier": "all reachable vectors", "why_tests_cant": "All histories.", "anchors": ["inc/ptl/vector.hpp: storage_t, capacity, size, max_size"]}
{"id": "C19", "title": "vector operations within capacity do not move the buffer", "statement": "push_back, insert, emplace and assign whose elements fit (size() + count <= capacity()) and pop_back, erase and clear keep data() and capacity() unchanged and perform no allocation.", "quantifier": "all vectors and arguments", "why_tests_cant": "All states and argument sizes.", "anchors": ["inc/ptl/vector.hpp: insert_impl, assign_impl, erase, clear, pop_back"]}
{"id": "C20", "title": "reserve(n) makes room for n elements", "statement": "After v.reserve(n) succeeds, capacity() >= n, the elements are unchanged, and any sequence of push_back calls keeping size() <= n performs no allocation and leaves data() unchanged.", "quantifier": "all vectors, all n, all push_back sequences", "why_tests_cant": "All sequences up to arbitrary n.", "anchors": ["inc/ptl/vector.hpp: reserve, push_back, emplace_back"]}
{"id": "C21", "title": "resize keeps a previously reserved capacity", "statement": "v.resize(n) with n <= capacity() does not reduce capacity() and does not move the buffer.", "quantifier": "all vectors and all n <= capacity()", "why_tests_cant": "All states.", "anchors": ["inc/ptl/vector.hpp: resize_impl"]}
{"id": "C22", "title": "vector push_back is amortised constant", "statement": "Starting from an empty vector, n calls of push_back relocate at most 2n elements in total.", "quantifier": "all n", "why_tests_cant": "Asymptotic claim over all n.", "anchors": ["inc/ptl/vector.hpp: insert_impl, storage_t(std::size_t)"]}
{"id": "C23", "title": "vector at() is checked", "statement": "at(i) throws std::out_of_range exactly when i >= size() and otherwise yields element i; operator[], front() and back() agree with it on valid indices.", "quantifier": "all vectors and indices", "why_tests_cant": "All indices of size_t.", "anchors": ["inc/ptl/vector.hpp: at, operator[], front, back"]}
{"id": "C24", "title": "vector copies are independent, moves transfer the buffer", "statement": "A copy equals its source and later changes to either do not affect the other; move construction/assignment transfers data() and the elements without touching them, leaves the source empty and usable, never throws; self-assignment and self-swap change nothing.", "quantifier": "all pairs of vectors including identical ones", "why_tests_cant": "All states of both operands.", "anchors": ["inc/ptl/vector.hpp: copy/move constructor and assignment, storage_t::operator=, swap"]}
{"id": "C25", "title": "vector comparison is lexicographic order", "statement": "==, !=, <, >, <=, >= on vectors are those of the lexicographic order of the element sequences; if the element order is total, exactly one of <, ==, > holds and <= is transitive.", "quantifier": "all pairs/triples of vectors, all element orders", "why_tests_cant": "All pairs and triples.", "anchors": ["inc/ptl/vector.hpp: operator<, operator>, operator<=, operator>=, operator==, operator!="]}
{"id": "C26", "title": "oversized vector requests are rejected", "statement": "Requests that would exceed max_size() (resize, reserve, construction with a count, assign(n, v), insert(pos, n, v)) throw std::length_error and change nothing.", "quantifier": "all vectors and all counts up to SIZE_MAX", "why_tests_cant": "Counts near SIZE_MAX wrap around; tests never pass them.", "anchors": ["inc/ptl/vector.hpp: storage_t(std::size_t), assign_impl, insert_impl, resize_impl, reserve"]}
{"id": "C27", "title": "vector::shrink_to_fit keeps the elements and is safe to call", "statement": "shrink_to_fit keeps all elements, never increases capacity() beyond max(10, size()) when it reallocates, and returns normally whatever the allocator does.", "quantifier": "all vectors, all allocator behaviours", "why_tests_cant": "Allocation failure inside a noexcept function.", "anchors": ["inc/ptl/vector.hpp: shrink_to_fit"]}
{"id": "C28", "title": "erasing an empty range changes nothing", "statement": "v.erase(it, it) leaves every element exactly as it was.", "quantifier": "all vectors, positions and element types", "why_tests_cant": "Depends on self-move-assignment behaviour of the element type.", "anchors": ["inc/ptl/vector.hpp: erase"]}
{"id": "C29", "title": "string behaves as a sequence of characters", "statement": "Any history of operations over any number of strings (construction, copy, move, assignment, append, insert, replace, erase, push_back, pop_back, resize, reserve, shrink_to_fit, clear, swap, substr, concatenation) leaves every string with exactly the characters the same history yields on plain character sequences, regardless of whether a string is stored inline or on the heap.", "quantifier": "all finite histories, all numbers of strings, all allocation failures", "why_tests_cant": "The inline/heap boundary interacts with every operation and history.", "anchors": ["inc/ptl/string.hpp: class string"]}
{"id": "C30", "title": "string is always null-terminated", "statement": "After any history, c_str()[size()] is the null character and c_str()[0..size()) are the characters of the string.", "quantifier": "all reachable strings", "why_tests_cant": "Every mutating path must re-establish the terminator.", "anchors": ["inc/ptl/string.hpp: storage_t::set_size, c_str, data"]}
{"id": "C31", "title": "string memory safety", "statement": "No operation (preconditions respected) reads uninitialised or out-of-bounds characters, reads the inactive union member, or frees a buffer twice; destroying all strings frees every buffer.", "quantifier": "all finite histories, all allocation failures", "why_tests_cant": "Depends on inline/heap transitions.", "anchors": ["inc/ptl/string.hpp: storage_t, append, insert, replace, assign, swap, shrink_to_fit"]}
{"id": "C32", "title": "string strong exception guarantee", "statement": "If a string operation throws (allocation failure or max_size exceeded), every string has the same characters as before and nothing leaks.", "quantifier": "all operations, states and failing allocations", "why_tests_cant": "Every allocation is a failure point.", "anchors": ["inc/ptl/string.hpp: reserve, append, assign, insert, replace, resize"]}
{"id": "C33", "title": "string arguments may alias the string", "statement": "append, assign, insert and replace with a range or string_view into the same string use the characters as they were before the call.", "quantifier": "all strings, positions, sub-ranges, capacities", "why_tests_cant": "Depends on overlap, capacity and inline storage.", "anchors": ["inc/ptl/string.hpp: append, assign, insert, replace (ForwardIterator overloads)"]}
{"id": "C34", "title": "string capacity and storage form", "statement": "In every reachable string size() <= capacity(); capacity() is the inline capacity or at least twice the inline footprint and a multiple of it; shrink_to_fit makes the string inline exactly when its size fits inline and keeps the characters.", "quantifier": "all reachable strings", "why_tests_cant": "All histories.", "anchors": ["inc/ptl/string.hpp: storage_t(std::size_t), capacity, shrink_to_fit"]}
{"id": "C35", "title": "string move and swap", "statement": "Moving gives the target the source's characters without allocating or throwing; the source becomes empty if it was on the heap and keeps its characters if inline; swap exchanges the characters in all four storage combinations; self-move-assignment and self-swap change nothing.", "quantifier": "all pairs of strings including identical ones, all storage forms", "why_tests_cant": "All combinations of storage and contents.", "anchors": ["inc/ptl/string.hpp: storage_t move constructor/assignment, swap"]}
{"id": "C36", "title": "string comparison and hash agree with the characters", "statement": "==, !=, <, <=, >, >= (string/string, string/string_view, string_view/string) are those of the lexicographic order of the characters as unsigned bytes, and equal strings hash equally.", "quantifier": "all pairs of strings", "why_tests_cant": "All pairs.", "anchors": ["inc/ptl/string.hpp: operator==, operator<, ..., std::hash<ptl::string>"]}
{"id": "C37", "title": "oversized string requests are rejected", "statement": "string(n, c), append(n, c), insert(pos, n, c), replace(f, l, n, c), resize(n), reserve(n) whose result would exceed max_size() throw and change nothing.", "quantifier": "all strings and all counts up to SIZE_MAX", "why_tests_cant": "Counts near SIZE_MAX wrap around.", "anchors": ["inc/ptl/string.hpp: storage_t(std::size_t), string(size_type, char), append_no_aliasing, insert_no_aliasing, replace_no_aliasing, reserve, resize"]}
{"id": "C38", "title": "string push_back is amortised constant", "statement": "There is a constant k such that n push_back calls on an empty string copy at most k*n characters.", "quantifier": "all n", "why_tests_cant": "Asymptotic claim.", "anchors": ["inc/ptl/string.hpp: push_back, reserve, storage_t(std::size_t)"]}
{"id": "C39", "title": "string literal operators keep the whole literal", "statement": "\"...\"_s and \"...\"_sr denote the whole literal, also when it contains embedded null characters.", "quantifier": "all literals", "why_tests_cant": "All literals.", "anchors": ["inc/ptl/string.hpp: literals::operator\"\"_s", "inc/ptl/string_ref.hpp: literals::operator\"\"_sr"]}
{"id": "C40", "title": "string concatenation and substr", "statement": "lhs + rhs (string, string_view and char operands) is the concatenation and leaves the operands unchanged; substr(o) and substr(o, n) yield the characters from o (n of them) for lvalue and rvalue strings; the lvalue form leaves the string unchanged.", "quantifier": "all strings and valid offsets", "why_tests_cant": "All operand sizes across the inline/heap boundary.", "anchors": ["inc/ptl/string.hpp: concat, operator+, substr"]}
{"id": "C41", "title": "string noexcept operations do not allocate", "statement": "pop_back, clear, erase, shrink_to_fit, swap, move construction/assignment and rvalue substr never allocate and never throw.", "quantifier": "all strings", "why_tests_cant": "All states.", "anchors": ["inc/ptl/string.hpp: pop_back, clear, erase, shrink_to_fit, swap, substr &&"]}
{"id": "C42", "title": "string operations within capacity keep the buffer", "statement": "append, assign and insert of a range that fits (size() + count <= capacity()), push_back below capacity, pop_back, erase, clear and replace that fits keep data() and capacity(); reserve(n) followed by push_backs up to n performs no allocation.", "quantifier": "all strings and arguments", "why_tests_cant": "All states.", "anchors": ["inc/ptl/string.hpp: append, assign, insert, replace, push_back, reserve"]}
{"id": "C43", "title": "optional behaves as a value-or-nothing", "statement": "Any history of construction, copy, move, assignment (from optional, value, nullopt), emplace, reset, swap and destruction over any number of optionals leaves each with exactly the value-or-nothing of the same history on plain option values; has_value(), operator bool, value(), value_or() answer accordingly.", "quantifier": "all histories, all numbers of optionals, all copy failures", "why_tests_cant": "Unbounded histories times failure points.", "anchors": ["inc/ptl/optional.hpp: class optional"]}
{"id": "C44", "title": "optional destroys its value exactly once", "statement": "No history reads or destroys a value that is not alive or constructs over a live one; destroying all optionals leaves no value alive.", "quantifier": "all histories, all copy failures", "why_tests_cant": "Lifetime errors depend on histories and failure points.", "anchors": ["inc/ptl/optional.hpp: reset, emplace, operator=, swap, ~optional"]}
{"id": "C45", "title": "optional exception safety", "statement": "If copying a value into an empty optional throws, the optional stays empty; if emplace throws, the optional is unchanged; a failed operation never changes whether an optional has a value.", "quantifier": "all states and failing copies", "why_tests_cant": "All failure points.", "anchors": ["inc/ptl/optional.hpp: operator=, emplace, constructors"]}
{"id": "C46", "title": "value() throws exactly when empty", "statement": "value() throws bad_optional_access exactly when has_value() is false, otherwise returns the value; value_or(d) returns the value or d.", "quantifier": "all optionals and defaults", "why_tests_cant": "All values.", "anchors": ["inc/ptl/optional.hpp: value, value_or", "inc/ptl/optional_ref.hpp: value, value_or"]}
{"id": "C47", "title": "optional comparisons form one order with nullopt lowest", "statement": "All comparison operators between optionals, an optional and nullopt, and an optional and a value (both operand orders) are those of the order in which nullopt is below every value and values compare as themselves.", "quantifier": "all pairs, all element orders", "why_tests_cant": "Twenty-four operators over all operand pairs.", "anchors": ["inc/ptl/optional.hpp: operator==, !=, <, <=, >, >="]}
{"id": "C48", "title": "variant always holds exactly one alternative", "statement": "Any history of construction, copy, move, assignment, converting assignment, emplace and swap over any number of variants leaves each variant holding exactly the alternative and value of the same history on plain tagged values; a variant is never valueless and reports exactly one alternative through holds().", "quantifier": "all alternative lists, all histories, all copy failures", "why_tests_cant": "Unbounded histories times failure points.", "anchors": ["inc/ptl/variant.hpp: class variant"]}
{"id": "C49", "title": "variant destroys each alternative exactly once with its own type", "statement": "No history reads or destroys a value as another alternative or a value that is not alive, or constructs over a live one; destroying all variants leaves nothing alive.", "quantifier": "all histories, all copy failures", "why_tests_cant": "Lifetime errors depend on histories.", "anchors": ["inc/ptl/variant.hpp: internal_variant::destroy, assign, emplace"]}
{"id": "C50", "title": "variant strong exception guarantee", "statement": "If copy construction or in-place construction of an alternative throws during assignment or emplace, the variant keeps its old alternative and value.", "quantifier": "all states, alternatives and failing constructions", "why_tests_cant": "All failure points.", "anchors": ["inc/ptl/variant.hpp: operator=, emplace"]}
{"id": "C51", "title": "variant access", "statement": "holds<T>() is true exactly when T is the current alternative; get_if<T>() is non-null exactly then; get<T>() yields the value then and throws bad_variant_access otherwise; visit invokes the visitor exactly once, with the current alternative's value.", "quantifier": "all variants and alternatives", "why_tests_cant": "All alternatives and states.", "anchors": ["inc/ptl/variant.hpp: holds, get_if, get, visit, determine_index"]}
{"id": "C52", "title": "variant comparisons", "statement": "Variants compare first by alternative index, then by value; all six operators belong to one order whenever each alternative's operators do.", "quantifier": "all pairs of variants", "why_tests_cant": "All pairs.", "anchors": ["inc/ptl/variant.hpp: operator==, !=, <, <=, >, >="]}
{"id": "C53", "title": "emplace from the variant's own value", "statement": "v.emplace<T>(v.get<T>()) leaves v holding a T equal to the value it held.", "quantifier": "all variants and alternatives, throwing and non-throwing constructors", "why_tests_cant": "Depends on which construction path is selected at compile time.", "anchors": ["inc/ptl/variant.hpp: emplace"]}
{"id": "C54", "title": "variant alternative lookup is exact", "statement": "For up to 254 alternatives, looking up a listed type yields its position and an unlisted type is rejected; the uniqueness check accepts exactly the duplicate-free lists; the storage is as large as the largest alternative.", "quantifier": "all type lists", "why_tests_cant": "All lists up to the limit.", "anchors": ["inc/ptl/variant.hpp: determine_index, validate_unique, max_sizeof, determine_type", "inc/ptl/variant_ref.hpp: determine_index, validate_unique"]}
{"id": "C55", "title": "variant_ref refers to the bound object", "statement": "A variant_ref constructed from an object reports that object's type, yields exactly that object through get/get_if/visit, and copies/assignments refer to the same object; an rvalue or const object never binds to a mutable alternative.", "quantifier": "all type lists, all bound objects, all histories of rebinding", "why_tests_cant": "All lists and value categories.", "anchors": ["inc/ptl/variant_ref.hpp: class variant_ref"]}
{"id": "C56", "title": "optional_ref refers to the bound object", "statement": "optional_ref constructed from an object or a non-empty optional/pointer refers to that very object (writes are visible through both), from nullopt, an empty optional or a null pointer it is empty; value() throws exactly when empty; copies rebind.", "quantifier": "all objects and optionals", "why_tests_cant": "All aliasing histories.", "anchors": ["inc/ptl/optional_ref.hpp: class optional_ref"]}
{"id": "C57", "title": "function_ref forwards the call to the referenced callable", "statement": "Calling a function_ref (or any copy of it) calls the referenced function or functor exactly once with the given arguments and returns its result, observing the functor's state at call time; assignment rebinds.", "quantifier": "all callables, arguments and histories", "why_tests_cant": "All callables.", "anchors": ["inc/ptl/function_ref.hpp: class function_ref, invoker, storage_t"]}
{"id": "C58", "title": "function_ref with a const signature calls the const overload", "statement": "A function_ref whose signature is const-qualified invokes the functor as const and therefore never modifies it.", "quantifier": "all functors and arguments", "why_tests_cant": "Depends on overload sets of the functor.", "anchors": ["inc/ptl/function_ref.hpp: function_ref(F &&), invoker::functor, invoker::const_"]}
{"id": "C59", "title": "array_ref sub-views denote the right elements", "statement": "first(n), last(n), subrange(o), subrange(o, n) of a view denote the first n, last n, from o, n from o elements of the viewed array, share storage with it, and compose; at(i) throws exactly when i >= size().", "quantifier": "all views and valid arguments", "why_tests_cant": "All sizes and offsets.", "anchors": ["inc/ptl/array_ref.hpp: first, last, subrange, at, operator[], front, back, size, data"]}
{"id": "C60", "title": "string_ref views denote the right characters", "statement": "remove_prefix, remove_suffix, substr, the constructors and the conversion to and from string_view denote the right characters of the referenced string without copying; comparison is lexicographic on unsigned bytes and equal views hash equally; at(i) throws exactly when i >= size().", "quantifier": "all strings, views and valid arguments", "why_tests_cant": "All sizes and offsets.", "anchors": ["inc/ptl/string_ref.hpp: class string_ref"]}
{"id": "C61", "title": "iterators traverse the container once in order", "statement": "For every container or view, iterating begin()..end() visits the elements in index order exactly once, rbegin()..rend() in reverse order, and the iterator operators satisfy the random access laws (it + n - n == it, (it + n) - it == n, it[n] == *(it + n), ordering agrees with distance).", "quantifier": "all containers, positions and distances", "why_tests_cant": "All distances.", "anchors": ["inc/ptl/vector.hpp: contiguous_iterator", "inc/ptl/string.hpp: contiguous_iterator", "inc/ptl/array.hpp: contiguous_iterator", "inc/ptl/array_ref.hpp: contiguous_iterator", "inc/ptl/string_ref.hpp: iterator"]}
{"id": "C62", "title": "array is a fixed sequence of Size elements", "statement": "Construction initialises element i with argument i and value-initialises the rest; fill, swap, at, operator[], front, back and get<I> act on exactly the denoted elements; at(i) throws exactly when i >= Size.", "quantifier": "all sizes including 0, all contents", "why_tests_cant": "All sizes and contents.", "anchors": ["inc/ptl/array.hpp: class array"]}
{"id": "C63", "title": "array comparison is lexicographic order", "statement": "==, !=, <, >, <=, >= on arrays are those of the lexicographic order.", "quantifier": "all pairs of arrays, all element orders", "why_tests_cant": "All pairs.", "anchors": ["inc/ptl/array.hpp: operator==, operator<, ..."]}
{"id": "C64", "title": "tuple is a heterogeneous sequence with lexicographic order", "statement": "get<I> yields the I-th constructor argument, writing through it changes only that component, swap exchanges all components, == holds iff all components are equal and < is lexicographic.", "quantifier": "all arities and contents", "why_tests_cant": "All arities.", "anchors": ["inc/ptl/tuple.hpp: class tuple, storage_t"]}
{"id": "C65", "title": "string literals report allocation failure", "statement": "If the memory for \"...\"_s cannot be allocated the operator throws std::bad_alloc like the other constructors; it never terminates the program.", "quantifier": "all literals and all allocation failures", "why_tests_cant": "Needs every allocation failure; test drivers do not inject failing allocations into literal operators.", "anchors": ["inc/ptl/string.hpp:623 operator\"\"_s"]}
{"id": "C66", "title": "function_ref returns the callee's reference", "statement": "If the signature of a function_ref returns a reference and the referenced callable returns a reference, calling the function_ref returns a reference to that same object.", "quantifier": "all callables, arguments and signatures returning a reference that compile", "why_tests_cant": "a dangling reference usually still reads the old value, so a test passes by luck; the claim is about every callable and every object", "anchors": ["inc/ptl/function_ref.hpp: invoke_r, invoker::functor"]}
{"id": "C67", "title": "array accepts the initialisers its elements accept", "statement": "array<Type, Size>{args...} compiles exactly if args are at most Size expressions that initialise elements (of any value category), or one array to copy or move; other argument lists are rejected by overload resolution rather than inside the constructor.", "quantifier": "all element types, all conversions between the program's types, all argument lists", "why_tests_cant": "A test instantiates finitely many element types and argument lists; calls that do not compile cannot even be written in a test.", "anchors": ["inc/ptl/array.hpp:177-179: array(Args &&...) and its enable_if"]}
{"id": "C68", "title": "tuples are copied by copy construction", "statement": "Constructing a tuple from a tuple of the same type, of any value category and constness, copies or moves it; a tuple is constructible from exactly the argument lists its traits report (one initialiser per component, or none if it is default constructible).", "quantifier": "all lists of component types, all conversions of the program, all argument lists", "why_tests_cant": "Each component list is a different instantiation and calls that do not compile cannot be part of a test.", "anchors": ["inc/ptl/tuple.hpp:89-91: tuple(Args &&...)", "inc/ptl/tuple.hpp:46-47: storage_t(Arg &&, Args &&...)"]}
{"id": "C69", "title": "binary layouts are the documented ones", "statement": "optional<T> is T followed by one byte, variant is its largest alternative followed by one byte with all alternatives at its start, tuple consists of its components and nothing else, array<T,N> of its N elements, array<T,0> of a pointer, bitset<N> of the bytes needed for N bits, the views and owners of the documented number of pointers; members never overlap.", "quantifier": "all element types of any size and alignment, all component lists, all array and bitset sizes, all pointer sizes", "why_tests_cant": "The tests assert the size of a few instantiations; the promise of a binary stable layout is about every instantiation.", "anchors": ["inc/ptl/*.hpp: data members", "test/*.cpp: static_assert(sizeof(...) == ...)"]}
{"id": "C70", "title": "references to contained values are aligned", "statement": "Wherever a container object may be placed, the address of a contained value is a multiple of the alignment of its type.", "quantifier": "all element types, all addresses suitable for the container", "why_tests_cant": "x86 tolerates misaligned accesses, so tests pass although the behaviour is undefined; other addresses are never tried.", "anchors": ["inc/ptl/optional.hpp:13 #pragma pack(push, 1)", "inc/ptl/variant.hpp:177", "inc/ptl/tuple.hpp:43", "inc/ptl/vector.hpp:48 std::calloc"]}
{"id": "C71", "title": "library types nest", "statement": "Every type of the library whose element types are standard-layout types is a standard-layout type itself, as the static_asserts on element types demand.", "quantifier": "all element types and component lists", "why_tests_cant": "Each combination is a new instantiation; those that fail do not compile and cannot be tested.", "anchors": ["inc/ptl/*.hpp: static_assert(std::is_standard_layout_v<Type>)", "inc/ptl/tuple.hpp:12-16"]}
{"id": "C72", "title": "memory is released by the module that allocated it", "statement": "In a program of several modules with separate heaps, every buffer of a vector or string is released by the deallocation function of the module whose code allocated it, wherever the object was moved, swapped, reallocated or destroyed in between.", "quantifier": "all histories of calls, all assignments of the allocations to modules, all allocation failures", "why_tests_cant": "The tests are one executable with one heap, where any deallocation function works; the error needs a second module with another runtime.", "anchors": ["inc/ptl/vector.hpp:36,47: dealloc", "inc/ptl/vector.hpp:54-74: move and destruction of storage_t", "inc/ptl/vector.hpp:88: swap", "inc/ptl/string.hpp:24,57: dealloc", "inc/ptl/string.hpp:66-80: move and destruction of storage_t", "inc/ptl/string.hpp:98-137: shrink_to_fit and swap"]}
{"id": "C73", "title": "visit calls the matching visitor and returns its result", "statement": "variant::visit and variant_ref::visit call, exactly once, the call operator that overload resolution selects among all visitors for the held value with the constness and value category of the variant, and return its result; this works for visitors of any value category, in any order, and compiles exactly if every alternative has a match and all results have the same type.", "quantifier": "all lists of alternatives, visitors, call operators and result types, all held values, all four overloads of visit", "why_tests_cant": "The tests use one pair of types with eight lambdas that return void; every other set of visitors is another instantiation.", "anchors": ["inc/ptl/variant.hpp:99-121: internal_variant::visit", "inc/ptl/variant.hpp:266-277: visit", "inc/ptl/variant_ref.hpp:75-84: internal_variant_ref::visit", "inc/ptl/variant_ref.hpp:133-145: visit"]}
{"id": "C74", "title": "emplace is available for every constructible alternative", "statement": "emplace<T>(args...) and emplace<Index>(args...) of a variant compile exactly if the alternative is constructible from the arguments; so do the in-place constructors and the construction from a value.", "quantifier": "all lists of alternatives, all argument lists, all sets of constructors", "why_tests_cant": "The only emplace in the tests uses a throwing constructor; calls that do not compile cannot be tested.", "anchors": ["inc/ptl/variant.hpp:44-49: storage_t::set", "inc/ptl/variant.hpp:123-129: internal_variant::emplace", "inc/ptl/variant.hpp:203-221: constructors", "inc/ptl/variant.hpp:252-264: emplace"]}
{"id": "C75", "title": "array_ref views the range it is made from", "statement": "An array_ref<T> is constructible from every contiguous range of T that would not lose a const, array_ref(ptr, n) is the view of n elements, the deduced element type is that of the range, and every view that compiles refers to exactly the elements of the range.", "quantifier": "all ranges (raw arrays, containers, views; const or not, lvalue or temporary), all element types and class hierarchies, all counts", "why_tests_cant": "Needs ranges of derived classes, literal zero counts and views of const elements; code that must not compile cannot be a test.", "anchors": ["inc/ptl/array_ref.hpp:13-61: traits", "inc/ptl/array_ref.hpp:169-192: constructors", "inc/ptl/array_ref.hpp:247-255: deduction guides"]}
{"id": "C76", "title": "Assignment to an optional selects the right overload", "statement": "opt = x makes opt what x is: empty for std::nullopt and {}, a copy for an optional, the (converted) value otherwise; it moves exactly from modifiable temporaries and has no overload exactly if x does not convert.", "quantifier": "all types, all categories and constness of the right-hand side, all ranks of conversions", "why_tests_cant": "Overload resolution depends on the type; the tests never assign {}.", "anchors": ["inc/ptl/optional.hpp:51-91: operator=", "inc/ptl/optional.hpp:31-44: constructors"]}
{"id": "C77", "title": "Containers store the value they are given", "statement": "Wherever optional, variant and vector store a copy of a value, or a value moved from, the stored value equals it, however often it is copied; push_back and insert store the same.", "quantifier": "all copyable types with any set of constructors, all values, all places in the code that store one, any number of copies", "why_tests_cant": "Depends on the constructors of the element type; the tests have no element type with an initializer_list constructor.", "anchors": ["inc/ptl/optional.hpp:37-49,78,87,173,178: Type{...}", "inc/ptl/variant.hpp:48: Head{...}", "inc/ptl/vector.hpp:298-301,355-361: push_back, insert, emplace"]}
{"id": "C78", "title": "emplace constructs like a constructor call", "statement": "emplace, emplace_back and in-place construction from arguments construct what Type(args...) constructs, and compile exactly if that does (as std::is_constructible says).", "quantifier": "all types with any set of constructors, all argument lists", "why_tests_cant": "Depends on overload resolution for arbitrary element types; calls that do not compile cannot be tested.", "anchors": ["inc/ptl/optional.hpp:49,159-162: in_place, emplace", "inc/ptl/variant.hpp:44-49: set", "inc/ptl/vector.hpp:301,361: emplace_back, emplace"]}
{"id": "C79", "title": "max_size() is what can exist", "statement": "max_size() of vector is the largest count whose elements occupy at most PTRDIFF_MAX bytes, that of string the largest for which characters and terminator do, that of string_ref the largest difference of pointers; no reachable vector or string exceeds it.", "quantifier": "all element sizes and widths of std::size_t, all reachable objects", "why_tests_cant": "Tests cannot allocate objects of that size; all element sizes.", "anchors": ["inc/ptl/vector.hpp:31-33,295: max_capacity, max_size", "inc/ptl/string.hpp:386-387: max_size", "inc/ptl/string_ref.hpp:151-152: max_size"]}
{"id": "C80", "title": "optional_ref binds to the objects and optionals it should", "statement": "An optional_ref<R> can be constructed from exactly std::nullopt, variables that an R & can refer to (it then refers to that variable) and expressions of optional types (std::optional, pointers, optional_ref) whose value a pointer to R can refer to; constness is never lost, and it never refers to a temporary object created by the call.", "quantifier": "all types R, all argument types with any operator*, conversions and class hierarchy, all value categories", "why_tests_cant": "Overload resolution and SFINAE over arbitrary user types; calls that must not compile cannot be tested.", "anchors": ["inc/ptl/optional_ref.hpp:19-71: is_compatible_optional", "inc/ptl/optional_ref.hpp:73-83: constructors"]}
{"id": "C81", "title": "optional_ref deduces the type it refers to", "statement": "optional_ref{x} refers to *x if x is an optional, a pointer or an optional_ref, else to x, and refers to const exactly if that object is const; from a temporary optional nothing is deduced that compiles.", "quantifier": "all argument types and value categories", "why_tests_cant": "Deduction over arbitrary user types; calls that must not compile cannot be tested.", "anchors": ["inc/ptl/optional_ref.hpp:112-116: deduction guides", "inc/ptl/optional_ref.hpp:78-79: implicit guide"]}
{"id": "C82", "title": "function_ref accepts exactly the callables it can call", "statement": "A function_ref is constructible from exactly the functions, pointers to functions and objects that can be called as its signature says (const and noexcept included); every construction that is accepted compiles and keeps the promise of the signature. Functions are referred to directly even if given by a pointer, a function_ref of the same type is copied, another one gives a reference to the same callable; assignment is possible from functions and function_refs only.", "quantifier": "all signatures, all callable types with any overloads of operator() and any result types", "why_tests_cant": "Overload resolution, SFINAE and template bodies over arbitrary user types; calls that do not compile cannot be tested.", "anchors": ["inc/ptl/function_ref.hpp:45-67: invoke_r, is_invocable_using, functor", "inc/ptl/function_ref.hpp:110-130: constructors, assignment, deduction guide"]}
{"id": "C83", "title": "exceptions of element comparisons reach the caller", "statement": "If an operator of an element throws during a comparison of two vectors, arrays, tuples, optionals or variants, the caller of the comparison gets that exception; if none throws the comparison answers.", "quantifier": "all element operators (throwing for any pairs of values), all contents, all six operators", "why_tests_cant": "Tests use element types whose operators do not throw.", "anchors": ["inc/ptl/vector.hpp:380-392", "inc/ptl/array.hpp:254-272", "inc/ptl/tuple.hpp:69-72, 113-131", "inc/ptl/optional.hpp:191-313", "inc/ptl/variant.hpp:152-158, 323-363"]}
{"id": "C84", "title": "comparisons use only the element operators they need", "statement": "Vectors, arrays and tuples are compared by == and < of their elements only, pair by pair in order, at most one call per pair for == and != (none if the lengths differ) and two for the others, and nothing after the pair that decides; optionals and variants call the same operator of the element, with the operands in the given order, exactly once if both hold a value of the same alternative and else not at all.", "quantifier": "all element operators, lawful or not, all contents, all six operators", "why_tests_cant": "The calls made are not observable with built-in types; sequences of any length.", "anchors": ["inc/ptl/vector.hpp:380-392", "inc/ptl/array.hpp:254-272", "inc/ptl/tuple.hpp:69-72, 113-131", "inc/ptl/optional.hpp:191-313", "inc/ptl/variant.hpp:152-158, 323-363"]}
{"id": "C85", "title": "comparisons compile for all usable element operators", "statement": "A comparison of containers compiles exactly if the element types have the operator it needs with a result that is implicitly convertible to bool: < or == for vectors, arrays and tuples, the operator itself for optionals and variants.", "quantifier": "all element types with any set of operators and any result types", "why_tests_cant": "Result types of operators are arbitrary; code that does not compile cannot be tested.", "anchors": ["inc/ptl/variant.hpp:152-158: compare", "inc/ptl/optional.hpp:193-313", "inc/ptl/tuple.hpp:69-72"]}
{"id": "C86", "title": "structured bindings name the elements", "statement": "get of arrays, tuples and bitsets yields the element with that index, with the constness and value category of the container, for valid indices and compiles for no others; tuple_size is the number of elements and tuple_element their types. A structured binding compiles exactly if there is one name per element and the container can bind; each name has its element's type, const where the declaration or the referenced container is. Names declared by reference are the elements: writes to either are seen through the other. Names declared by value start with the elements' values and are independent of the container.", "quantifier": "all arrays, tuples and bitsets, element types, declarations (auto, auto &, auto && with or without const), initialisers of any constness and value category, and histories of reads and writes of names and elements", "why_tests_cant": "Infinitely many types; declarations that do not compile cannot be tested; aliasing shows only in particular orders of writes and reads.", "anchors": ["inc/ptl/array.hpp:42-69: get", "inc/ptl/array.hpp:279-285", "inc/ptl/tuple.hpp:49-60, 94-105: get", "inc/ptl/tuple.hpp:138-147", "inc/ptl/bitset.hpp:66-72: get", "inc/ptl/bitset.hpp:412-418"]}
{"id": "C87", "title": "printing writes the contents as one formatted field", "statement": "operator<< of strings, string_refs and bitsets writes all characters (null characters included) or digits from the highest bit, padded to the stream's width with its fill character on the side it selects, and resets the width; a stream that is not good receives nothing and fails; one whose buffer is full fails without forgetting what it took. The text of a bitset is read back as the same bitset.", "quantifier": "all contents, widths, fill characters, adjustments, stream states and buffer capacities", "why_tests_cant": "Contents and widths are unbounded; tests print without field width.", "anchors": ["inc/ptl/string.hpp:612-613: operator<<", "inc/ptl/string_ref.hpp:213-214: operator<<", "inc/ptl/bitset.hpp:333-337: operator<<"]}
{"id": "C88", "title": "texts of different types compare by their characters", "statement": "Two texts of which one is a string or string_ref - the other a string, string_ref, std::string_view, std::string, null-terminated array or pointer - can be compared with all six operators in either order; the selected operators answer the lexicographical question about their characters, and none of them ends in itself.", "quantifier": "all pairs of operand types and value categories, classes of the program with any set of conversion functions, all characters and operators", "why_tests_cant": "Whether an overload set is ambiguous or an operator calls itself depends on each pair of types; expressions that do not compile cannot be tested at run time; contents are unbounded.", "anchors": ["inc/ptl/string.hpp:572-610: operator==, !=, <, >, <=, >=", "inc/ptl/string.hpp:550-553: operator std::string_view", "inc/ptl/string_ref.hpp:193-218", "inc/ptl/string_ref.hpp:119-137"]}
{"id": "C89", "title": "text is accepted wherever text is taken", "statement": "Every text (string, string_ref, std::string_view, std::string, null-terminated pointer) is accepted by construction, assignment, assign, +=, append, insert, replace and + of string and by construction and parameters of string_ref, without ambiguity, and its characters are what the operation gets; no overload ends in itself. For every other argument the operation does what the declared overloads say or does not compile.", "quantifier": "all argument types including braces, numbers, null pointer constants and classes of the program with any set of conversion functions; all values", "why_tests_cant": "Calls that do not compile cannot be tested at run time; each combination of overloads and argument types resolves separately.", "anchors": ["inc/ptl/string.hpp:299-361", "inc/ptl/string.hpp:440-457", "inc/ptl/string.hpp:490-525", "inc/ptl/string_ref.hpp:119-137"]}
{"id": "C90", "title": "numbers and null pointers are not text", "statement": "An integer or a null pointer constant is no text: it is rejected where text is taken; where a single character is taken, an integer is the character with that code.", "quantifier": "all integers, null pointer constants and null pointers; all operations of C88 and C89", "why_tests_cant": "Rejection happens at compile time; accepting a null pointer shows at run time only as undefined behaviour.", "anchors": ["inc/ptl/string.hpp:299-361", "inc/ptl/string.hpp:572-610", "inc/ptl/string_ref.hpp:124-125", "inc/ptl/string_ref.hpp:193-211"]}
{"id": "C91", "title": "counts are counts and ranges are ranges", "statement": "Constructing, assigning, appending, inserting or replacing with two iterators of the same type stores the elements of the range, for iterators of every category; with a number and a value it stores that many copies, even if both have the same type. No other pair of arguments is accepted, and whether elements are accepted does not depend on the category. The members that use these calls themselves get the overload they mean.", "quantifier": "all element types, argument types, iterator categories including derived ones, and conversions between them", "why_tests_cant": "Calls that do not compile cannot be tested at run time, and there are infinitely many argument types; a wrongly selected overload shows only for particular combinations such as vector<int>(5, 3).", "anchors": ["inc/ptl/vector.hpp:257-263", "inc/ptl/vector.hpp:333-338: assign", "inc/ptl/vector.hpp:349-359: insert", "inc/ptl/string.hpp:308-324", "inc/ptl/string.hpp:421-458: append, assign", "inc/ptl/string.hpp:467-529: insert, replace"]}
{"id": "C92", "title": "numbers are not vectors", "statement": "vector<T>(n) has n value-initialised elements. A number is not accepted where a vector is expected (parameters, assignment, push_back, comparison), and vector<vector<T>>{n} has as many elements as vector<vector<T>>(n).", "quantifier": "all numbers and vectors nested to any depth", "why_tests_cant": "That an expression does not compile cannot be tested at run time; nesting is unbounded.", "anchors": ["inc/ptl/vector.hpp:262: vector(size_type)", "inc/ptl/vector.hpp:255", "inc/ptl/vector.hpp:265", "inc/ptl/vector.hpp:298-299: push_back", "inc/ptl/vector.hpp:389-390: operator=="]}
{"id": "C93", "title": "function_ref passes arguments on unchanged", "statement": "A call through a function_ref gives the callable the arguments of the call: objects themselves where the signature and the callable have references, otherwise the value of the argument at the call. Only rvalues are moved from, and only for a parameter by value; each argument is copied at most once and only if it is an lvalue or const and some parameter takes it by value; temporaries are never copied. Parameters are destroyed on return and on exceptions. With a noexcept signature the program ends only if the callable throws.", "quantifier": "all signatures and callables with any number of parameters of types T, T &, const T &, T &&, all categories of arguments, values, objects, callables and exceptions of copies", "why_tests_cant": "Combinations of parameter kinds, argument categories and failing copies for any number of parameters are unbounded.", "anchors": ["inc/ptl/function_ref.hpp:45-50: invoke_r", "inc/ptl/function_ref.hpp:65-67: functor", "inc/ptl/function_ref.hpp:69-73: operator()"]}
{"id": "C94", "title": "element requirements are sufficient", "statement": "If a type passes the static_asserts of the containers it is built from, then every special member and swap that type traits report for it compiles, lets no exception of an element reach a noexcept and does not throw where it is declared noexcept; so do the members of vector that are instantiated on use.", "quantifier": "all types built by nesting vector, string, optional, variant, array, bitset, tuple (with const components) and the reference types over any types of the program, to any depth, and all operations", "why_tests_cant": "Nestings are unbounded, and members of templates are only compiled for the types a test happens to use.", "anchors": ["inc/ptl/vector.hpp:20-27: static_asserts", "inc/ptl/array.hpp:30-38: static_asserts", "inc/ptl/optional.hpp:18-24: static_asserts", "inc/ptl/variant.hpp:180-191: static_asserts", "inc/ptl/tuple.hpp:13-24: is_abi_compatible_v"]}
{"id": "C95", "title": "library types are accepted as elements", "statement": "Every type of the library whose own static_asserts hold meets the element requirements of vector, array, optional, variant and tuple.", "quantifier": "all accepted types of the library, nested to any depth over any types of the program, and all five containers", "why_tests_cant": "Nestings are unbounded; a rejected combination is a compile error that no test program can contain.", "anchors": ["inc/ptl/vector.hpp:20-27: static_asserts", "inc/ptl/variant_ref.hpp:127-134: copy constructor, assignment", "inc/ptl/function_ref.hpp:110-120: constructors", "inc/ptl/tuple.hpp:82-91: tuple"]}
{"id": "C96", "title": "class template argument deduction", "statement": "array, tuple, optional and vector deduce from the arguments of a declaration the types that would be stored by value, and a single argument of the same template is copied, not nested.", "quantifier": "all argument lists of any length, types (nested to any depth), constness and value categories; for vector also all iterator types and types convertible to std::size_t of the program", "why_tests_cant": "A test fixes the types; a deduction that fails is a compile error that no test program can contain.", "anchors": ["inc/ptl/array.hpp:275-276: deduction guide", "inc/ptl/vector.hpp:395-396: deduction guide", "inc/ptl/tuple.hpp:134-135: deduction guide", "inc/ptl/optional.hpp:42-44: constructors"]}
{"id": "C97", "title": "constexpr functions are usable in constant expressions", "statement": "Every function that the headers mark constexpr can be evaluated in a constant expression of C++17, if the operations of the elements that it needs can.", "quantifier": "all functions marked constexpr of array, bitset and its references, optional, variant, tuple, array_ref, string_ref, optional_ref, variant_ref and function_ref, all element types (arrays nested to any depth) and sizes", "why_tests_cant": "Tests call the functions at run time; templates that can never be constant expressions need no diagnostic.", "anchors": ["inc/ptl/array.hpp:220-272: fill, swap, comparisons", "inc/ptl/bitset.hpp:150-333: all to operator bool", "inc/ptl/optional.hpp:31-94: constructors and destructor", "inc/ptl/tuple.hpp:46-47: storage_t", "inc/ptl/variant_ref.hpp:112-128: constructors", "inc/ptl/function_ref.hpp:63-71: functor, operator()"]}
{"id": "C98", "title": "iterators and const_iterators work together", "statement": "In i == j, i != j, i < j, i <= j, i > j, i >= j and i - j, where i and j are iterators (or reverse iterators) into the same container, either or both may be a const_iterator; iterators convert to const_iterators and not back; numbers can be added and subtracted; pointers, numbers and iterators of other containers are not compared with iterators.", "quantifier": "all containers and views with iterators, all element types, both iterator types on either side, all positions, inside and outside of members", "why_tests_cant": "The tests compare iterators of the same type; an expression that does not compile cannot be in a test.", "anchors": ["inc/ptl/vector.hpp:92-187: contiguous_iterator", "inc/ptl/string.hpp:140-235: contiguous_iterator", "inc/ptl/array.hpp:71-163: contiguous_iterator", "inc/ptl/array_ref.hpp:63-155: contiguous_iterator", "inc/ptl/string_ref.hpp:26-114: iterator"]}
{"id": "C99", "title": "values are constructed in the storage of their holder", "statement": "optional, variant and vector construct the values they hold in their own storage, whatever operator new the element type declares: after construction, assignment, emplace, swap, push_back and the like the value is in the storage of the object and nowhere else.", "quantifier": "all element types with or without operators new of their own, all values, all addresses, all states of memory", "why_tests_cant": "Tests use element types without an operator new; there are unboundedly many others.", "anchors": ["inc/ptl/optional.hpp:37-49: constructors", "inc/ptl/optional.hpp:75-91: operator=", "inc/ptl/optional.hpp:157-186: emplace, swap", "inc/ptl/variant.hpp:44-49: set", "inc/ptl/vector.hpp:298-301: push_back, emplace_back", "inc/ptl/vector.hpp:313-318: resize", "inc/ptl/vector.hpp:355-361: insert, emplace"]}
{"id": "C100", "title": "concurrent use", "statement": "Threads may use library objects at the same time under the rules of [res.on.data.races]: functions on objects that are only read (const member functions, comparisons, sources of copies) and on objects of the calling thread never cause a data race or an access outside of the objects, whatever the interleaving, and every thread gets results and objects that it could have got alone; no memory is lost and none of others is touched. Threads may also change different elements of one vector, and different bits of one bitset.", "quantifier": "all programs of any number of threads over 41 functions of vector, string, bitset and optional (calls may depend on earlier results), all contents, all addresses, all failures of allocation, all interleavings of single memory accesses", "why_tests_cant": "The number of interleavings is exponential in the number of memory accesses, and a race may show no effect when it is run.", "anchors": ["inc/ptl/vector.hpp:30-91: storage_t", "inc/ptl/vector.hpp:298-361: modifiers", "inc/ptl/string.hpp:19-135: storage_t", "inc/ptl/bitset.hpp:192-196: operator&=", "inc/ptl/bitset.hpp:279-326: set, reset, flip", "inc/ptl/optional.hpp:58-91: assignment"]}
{"id": "C101", "title": "noexcept functions do not end the program", "statement": "If the types meet the static_asserts of the class, no exception of an operation of an element type or of an argument ever leaves a noexcept function (which would call std::terminate): moving, assigning, resetting and swapping optionals and variants, moving, erasing, clearing and swapping vectors, swapping arrays and tuples, constructing array_ref from a range and optional_ref from an optional. Functions of variant that are not noexcept pass exceptions on to the caller.", "quantifier": "all types and arguments (any set of operations may throw), all contents, all executions (any operation that may throw throws at any time)", "why_tests_cant": "A test throws from chosen operations of chosen types; the claim is about every operation of every type the static_asserts accept.", "anchors": ["inc/ptl/optional.hpp:18-24: static_asserts", "inc/ptl/optional.hpp:39: move constructor", "inc/ptl/optional.hpp:169-186: swap", "inc/ptl/variant.hpp:133-143: assign", "inc/ptl/variant.hpp:182-187: static_asserts", "inc/ptl/variant.hpp:223-246: assignment", "inc/ptl/vector.hpp:341-347: erase", "inc/ptl/array_ref.hpp:192: array_ref(ContiguousRange &&)", "inc/ptl/optional_ref.hpp:83: optional_ref(Optional &)"]}
{"id": "C102", "title": "layouts are the same for all compilers", "statement": "Every type of the library has the same size, alignment and offsets of members, down to the innermost member, whether it is laid out by the rules of the Itanium C++ ABI (GCC, Clang) or by those of the Microsoft C++ ABI (MSVC, clang-cl), as the Readme promises: the binary representation is portable between compilers.", "quantifier": "all types that can be written with the templates of the library (any nesting, any lists of components, any sizes of arrays and bitsets) over all types of the program of any size and alignment, all pointer sizes", "why_tests_cant": "A test runs with one compiler and compares the sizes of a few instantiations with constants; the claim compares two compilers on all instantiations.", "anchors": ["Readme.md:9: portable between different compilers", "inc/ptl/optional.hpp:13: #pragma pack(push, 1)", "inc/ptl/tuple.hpp:29-45: storage_t", "inc/ptl/tuple.hpp:74: storage_t<>", "inc/ptl/variant.hpp:15-23, 177: storage_t, #pragma pack", "inc/ptl/*.hpp: data members"]}
{"id": "C103", "title": "headers can be included alone, in any order and in several translation units", "statement": "Every header of the library declares everything it uses or includes a header of the standard library that is guaranteed to, so that it compiles alone and together with the others in any order; including it again changes nothing; after it the packing of the program is in force as before and optional, variant and the storage of tuple are packed by 1 whatever the program has set; what is defined does not depend on the order; and several translation units that include the headers are one valid program (one definition rule).", "quantifier": "all sequences of #include directives of headers of the library and of the standard library, in any order and with repetitions; all packings set before; all finite families of translation units", "why_tests_cant": "Every test includes the headers of the test framework, and with them most of the standard library, next to one header of the library, with one implementation of the standard library that includes more than it must; there are no two sequences of directives to compare, and violations of the one definition rule are not diagnosed.", "anchors": ["inc/ptl/tuple.hpp:7-8: #pragma once, #include <type_traits> only", "inc/ptl/vector.hpp:8-13: #include; 47-54, 85: std::free, std::calloc, std::exchange, std::swap", "inc/ptl/variant.hpp:91-98: static determine_type; 251: emplace names it", "inc/ptl/optional.hpp:13, 315; inc/ptl/tuple.hpp:43, 76; inc/ptl/variant.hpp:177, 365: #pragma pack", "inc/ptl/string.hpp:622, inc/ptl/string_ref.hpp:226: inline literals"]}
{"id": "C104", "title": "vector operations cost what they should", "statement": "Every operation of vector copies or default-constructs exactly the elements that are new, allocates at most once (for ranges of unknown length at most once each time the length doubles, and once more to insert) and relocates at most the elements there are (for ranges of unknown length two more for each new element); moves, swaps, erasure, clear and element access do none of these. Any sequence of insertions, anywhere and in any portions, relocates altogether a number of elements linear in the final size, also if some of them throw. The same holds for growing by resize, and assigning no more elements than capacity() does not allocate.", "quantifier": "all operations, all reachable states, all sequences of insertions of any length, all failures of allocations and element constructors, all element types", "why_tests_cant": "Tests compare contents; a superfluous copy, allocation or relocation changes nothing they look at, and the sum over a sequence shows only for long sequences.", "anchors": ["inc/ptl/vector.hpp:189-202: assign_impl", "inc/ptl/vector.hpp:204-220: insert_impl", "inc/ptl/vector.hpp:222-233: resize_impl", "inc/ptl/vector.hpp:257-265, 332-361: ranges of unknown length"]}
{"id": "C105", "title": "string operations allocate no more often than they must", "statement": "Every operation of string allocates at most once, and only if the resulting text (for reserve: the requested capacity) is longer than what fits into the object; moves, swaps, self-assignment, erasure, shrink_to_fit, clear and element access never do. Building a string from a range of unknown length allocates at most once each time the length doubles, and appending, inserting or replacing from one allocates once more. Assigning a text that is not longer than capacity() does not allocate.", "quantifier": "all operations, all reachable states, all texts and ranges of any length, all allocation failures, all pointer sizes with an even number of bytes", "why_tests_cant": "Tests compare texts; a superfluous allocation changes nothing they look at, and the number of allocations for a range of unknown length shows only for long ranges.", "anchors": ["inc/ptl/string.hpp:55-64: storage_t(required)", "inc/ptl/string.hpp:308-309, 421-425, 444-445, 467-471, 495-500: ranges of unknown length", "inc/ptl/string.hpp:390-412: push_back, reserve, resize", "inc/ptl/string.hpp:446-455: assign"]}
{"id": "C106", "title": "pointers to elements of a vector stay valid", "statement": "Pointers, references and iterators to an element of a vector stay valid, and refer to the same position of the vector that has the buffer afterwards, through all calls that leave those of std::vector valid: operations on other vectors, element access and assignment, insertion behind the element within capacity() including push_back and emplace, erasure behind it, reserve and resize within capacity(), self-assignment, and swap, move construction and move assignment, after which the element belongs to the other vector; and through all calls that throw.", "quantifier": "all operations and arguments, all reachable states, all vectors and elements, all allocation and constructor failures, all element types and ABI sizes", "why_tests_cant": "A dangling pointer usually still reads the old value; tests would need to keep pointers into every vector across every call, with capacities on both sides of the limit.", "anchors": ["inc/ptl/vector.hpp:189-233: assign_impl, insert_impl, resize_impl", "inc/ptl/vector.hpp:303-331: pop_back, reserve, resize, shrink_to_fit, clear", "inc/ptl/vector.hpp:340-361: erase, insert, emplace", "inc/ptl/vector.hpp:54-89, 376: moves and swap"]}
{"id": "C107", "title": "pointers into a string stay valid", "statement": "Pointers and iterators into a string stay valid, and read the new text through to its null character, if the call leaves that string alone or its new text fits into capacity(): assignment, append, insert, replace, erase, push_back, pop_back, resize, clear, reserve within capacity(), shrink_to_fit of a text that stays on the heap. Moving from or swapping a string on the heap hands its buffer over, so that the pointers refer to the other string; moving from a short string leaves them with it. A call that throws changes neither addresses nor texts.", "quantifier": "all operations and arguments including aliasing ranges, all reachable states, all strings short or on the heap, all allocation failures, all ABI sizes", "why_tests_cant": "A dangling pointer usually still reads the old text; tests would need to keep pointers into every string across every call, with short and long texts and capacities on both sides of the limit.", "anchors": ["inc/ptl/string.hpp:66-137: moves, shrink_to_fit and swap of storage_t", "inc/ptl/string.hpp:247-282: append_no_aliasing, assign_no_aliasing, insert_no_aliasing, replace_no_aliasing", "inc/ptl/string.hpp:390-419: push_back, pop_back, reserve, resize, shrink_to_fit, clear", "inc/ptl/string.hpp:421-529: append, assign, erase, insert, replace"]}
{"id": "C108", "title": "recursive data structures", "statement": "A struct may refer to itself, and structs to each other in any way, through pointers and the views of the library (array_ref, optional_ref, variant_ref, function_ref), also inside containers. What it has inside (through optional, variant, tuple, non-empty array) must be defined before, and that is all: a vector or an empty array of the struct itself is fine, as with std::vector. A family of structs can be put in an order that compiles iff no struct contains itself.", "quantifier": "all translation units of struct declarations and definitions, all member types built from the class templates of the library at any nesting depth and arity", "why_tests_cant": "Whether a template may be instantiated with an incomplete type shows only when some user program does so; the nestings and orders of declarations are unbounded.", "anchors": ["inc/ptl/vector.hpp:20-33: static_asserts and sizeof of the element type", "inc/ptl/array.hpp:30-40: static_asserts of the element type", "inc/ptl/optional.hpp:18-29, inc/ptl/variant.hpp:179-196, inc/ptl/tuple.hpp:82-87", "inc/ptl/array_ref.hpp:24-25, inc/ptl/optional_ref.hpp:16-17, inc/ptl/variant_ref.hpp:95-105, inc/ptl/function_ref.hpp:99-108"]}
{"id": "C109", "title": "the members of the unions of a variant are used while they are alive", "statement": "The storage of a variant is a union of the first alternative and a storage for the others. Whenever a member function of such a storage, or the value in it, is used, that member of the union is alive, so that every history of calls within the contract is defined and the i-th alternative lives behind i nested unions.", "quantifier": "all lists of alternatives, all histories of calls on any number of variants, all outcomes of the copies (including the ones that throw)", "why_tests_cant": "Compilers accept calls on members whose lifetime never began and generate the code one expects, so tests and most sanitizers see nothing; the rule only shows in constant evaluation or with a stricter optimizer.", "anchors": ["inc/ptl/variant.hpp:18-57: storage_t and its union", "inc/ptl/variant.hpp:46-49: set calls next.set without constructing next", "inc/ptl/variant.hpp:118-170: visit, emplace, assign, swap, destroy on a storage"]}
{"id": "C110", "title": "const and value categories along access paths", "statement": "A part of a const object cannot be changed through any chain of accessors, iterators, pointers and views made from it, and a part of an object that is not const can, unless a member on the way is declared const. Parts of an lvalue are never offered as rvalues unless the program says std::move; parts inside an rvalue can be had as rvalues. All accessors of a container agree in the const they yield. The const of a view is not that of what it refers to, for all its accessors.", "quantifier": "all types built from the class templates at any nesting depth and arity, all const qualifications and value categories of the object and of the views, all chains of accessors, conversions and constructions of views of any length", "why_tests_cant": "Overload sets are selected per qualification of the object at every link of a chain; the chains and nestings are unbounded, and a wrong overload usually compiles silently.", "anchors": ["inc/ptl/vector.hpp:272-289, 363-374; inc/ptl/string.hpp:363-381, 555-566; inc/ptl/array.hpp:42-69, 181-246", "inc/ptl/optional.hpp:96-137; inc/ptl/variant.hpp:266-313; inc/ptl/tuple.hpp:49-105", "inc/ptl/array_ref.hpp:194-246: begin() const returns const_iterator, operator[] const returns reference", "inc/ptl/optional_ref.hpp:78-101; inc/ptl/variant_ref.hpp:112-164; inc/ptl/string_ref.hpp:143-191"]}
{"id": "C111", "title": "views of a vector follow it", "statement": "A program may call vectors and, through array_refs made of them and cut from each other, read and write their elements, in any order. As long as the rules of std::vector say that the elements of a view stay where they are, every access through the view is valid, what is read is the current content of that section of the vector (also after the elements have changed hands by a move or a swap), what is written is seen through the vector and all other views, at() throws exactly outside of the section, and calls that throw leave all views as they are.", "quantifier": "all finite programs of vector calls and view operations over any number of vectors and views, all element values, all patterns of failing allocations and constructions", "why_tests_cant": "Validity depends on the whole history of capacities and owners of the buffer; stale views usually read plausible values, and overlapping views and interleavings are unbounded.", "anchors": ["inc/ptl/array_ref.hpp:25, 178-232", "inc/ptl/vector.hpp:189-233, 288-376"]}
{"id": "C112", "title": "the members of the unions of a variant_ref are used while they are alive", "statement": "The storage of a variant_ref is a union of a pointer to the first alternative and a storage for the others. Whenever a member function of such a storage, or the pointer in it, is used, that member of the union is alive, so that every history of calls within the contract is defined and the pointer to an object bound as the i-th alternative lives behind i nested unions.", "quantifier": "all lists of alternatives, all histories of calls on any number of variant_refs and objects", "why_tests_cant": "Compilers accept calls on members whose lifetime never began and generate the code one expects, so tests and sanitizers see nothing; the rule only shows in constant evaluation or with a stricter optimizer.", "anchors": ["inc/ptl/variant_ref.hpp:15-40: storage_t and its union; set calls next.set without making next alive", "inc/ptl/variant_ref.hpp:58-85: assign, get and visit on a storage", "inc/ptl/variant_ref.hpp:112-134: constructors and assignment"]}
{"id": "C113", "title": "views of a string follow it", "statement": "A program may call strings and read their characters through string_refs made of them or of their c_str() and cut by substr, remove_prefix and remove_suffix, in any order. As long as the rules of std::string say that the characters of a view stay where they are, every access through the view is valid, what is read is the current content of that section of the text (also after the text has changed hands by a move or a swap), a view of a c_str() ends at the first null character, at() throws exactly outside of the section, views of empty strings are never dereferenced, and calls that throw leave all views as they are.", "quantifier": "all finite programs of string calls and view operations over any number of strings and views, all characters, both forms of storage, all patterns of failing allocations", "why_tests_cant": "Validity depends on the whole history of capacities, forms of storage and owners of the buffer; stale views usually read plausible characters, and interleavings are unbounded.", "anchors": ["inc/ptl/string_ref.hpp:16, 124-181", "inc/ptl/string.hpp:379-381, 550-553"]}
