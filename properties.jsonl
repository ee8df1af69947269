{"id": "C01", "title": "Integer and bool ordinals are a bijection", "statement": "For bool, u8, i8, u16, i16, u32 and i32: ordinal() returns a number in 0..ORDINAL_SIZE without panicking, from_ordinal(x.ordinal()) == Some(x), every i < ORDINAL_SIZE is the ordinal of exactly from_ordinal(i).unwrap(), and from_ordinal(i) == None for every other usize i. On a 32-bit target u32/i32 are rejected at compile time instead.", "quantifier": "every value of each type, every usize argument, both pointer widths, overflow checks on or off", "why_tests_cant": "u32/i32 have 2^32 values and from_ordinal takes 2^64 arguments; the repository's tests only probe the end points", "anchors": ["ordinal-map/src/ordinal/impls/primitive.rs: impl Ordinal for bool/u8/i8/u16/i16/u32/i32"]}
{"id": "C02", "title": "NonZero integer ordinals are a bijection", "statement": "For NonZero{U,I}{8,16,32,64,size}: the same bijection law as C01 (the gap at zero is skipped, every ordinal is below ORDINAL_SIZE, out-of-range ordinals give None, nothing panics). NonZeroU64/I64 are rejected at compile time on 32-bit targets.", "quantifier": "every value of the ten types, every usize argument, both pointer widths", "why_tests_cant": "the 32/64-bit types have up to 2^64-1 values; tests only probe four points", "anchors": ["ordinal-map/src/ordinal/impls/non_zero.rs"]}
{"id": "C03", "title": "char ordinals are a bijection over Unicode scalar values", "statement": "char::ordinal maps the Unicode scalar values one-to-one, in code point order, onto 0..ORDINAL_SIZE (0x10F800 values, the surrogate gap removed) and from_ordinal inverts it on that range.", "quantifier": "every char, every ordinal below ORDINAL_SIZE", "why_tests_cant": "must hold across the surrogate gap for all 1112064 values on both pointer widths", "anchors": ["ordinal-map/src/ordinal/impls/char.rs"]}
{"id": "C04", "title": "char::from_ordinal rejects every out-of-range ordinal", "statement": "char::from_ordinal(i) == None for every usize i >= char::ORDINAL_SIZE.", "quantifier": "every usize argument at or above ORDINAL_SIZE, both pointer widths", "why_tests_cant": "the argument space is 2^64; the test only tries ORDINAL_SIZE and usize::MAX", "anchors": ["ordinal-map/src/ordinal/impls/char.rs: from_ordinal"]}
{"id": "C05", "title": "Option keeps the ordinal law", "statement": "If A obeys the Ordinal law and A::ORDINAL_SIZE < usize::MAX then Option<A> obeys it with size A+1, None first; out-of-range rejection is inherited from A.", "quantifier": "every lawful element type A, every value, every usize argument", "why_tests_cant": "quantifies over all element types", "anchors": ["ordinal-map/src/ordinal/impls/std.rs: impl Ordinal for Option"]}
{"id": "C06", "title": "Result and Either keep the ordinal law", "statement": "If A and B obey the Ordinal law and the sum of their sizes fits usize, Result<A,B> and Either<A,B> obey it with the summed size, all Ok/Left before all Err/Right; out-of-range rejection needs only B to reject.", "quantifier": "every pair of lawful types, every value, every usize argument", "why_tests_cant": "quantifies over all element types", "anchors": ["ordinal-map/src/ordinal/impls/std.rs: impl Ordinal for Result", "ordinal-map/src/ordinal/impls/either.rs"]}
{"id": "C07", "title": "Box, Ordering, Infallible obey the ordinal law", "statement": "Box<T> has exactly T's ordinals; Ordering is numbered Less, Equal, Greater; Infallible has size 0 and from_ordinal always returns None.", "quantifier": "every lawful T, every value, every usize argument", "why_tests_cant": "quantifies over all T and all usize arguments", "anchors": ["ordinal-map/src/ordinal/impls/boxed.rs", "ordinal-map/src/ordinal/impls/ordering.rs", "ordinal-map/src/ordinal/impls/std.rs: impl Ordinal for Infallible"]}
{"id": "C08", "title": "Arrays keep the ordinal law", "statement": "If T obeys the law and T::ORDINAL_SIZE^N fits usize then [T;N] obeys it with that size (last element varies fastest), ordinal/from_ordinal never panic or overflow, and every ordinal outside the range is rejected - even when T itself accepts out-of-range ordinals, when N = 0, and when T is empty.", "quantifier": "every lawful T, every N, every array, every usize argument", "why_tests_cant": "unbounded in N and T", "anchors": ["ordinal-map/src/ordinal/impls/array.rs"]}
{"id": "C09", "title": "Tuples of every arity keep the ordinal law", "statement": "The generated impl for a tuple of any arity is a bijection whenever its components are and the product of sizes compiles; every out-of-range ordinal is rejected; no panic, overflow or division by zero.", "quantifier": "every arity (0..=16 are emitted, the proof is for any), every lawful component types, every value, every usize argument", "why_tests_cant": "quantifies over all component types", "anchors": ["ordinal-map-derive/src/ordinal.rs: impl_ordinal_for_tuple_n, struct_ordinal, struct_from_ordinal", "ordinal-map/src/ordinal/impls/tuple.rs"]}
{"id": "C10", "title": "Derived structs keep the ordinal law", "statement": "The code generated by #[derive(Ordinal)] for a unit, tuple or record struct is a bijection onto 0..ORDINAL_SIZE whenever the field types obey the law and ORDINAL_SIZE compiles; out-of-range ordinals give None; nothing panics.", "quantifier": "every struct declaration (any number of fields of any lawful types), every value, every usize argument", "why_tests_cant": "quantifies over all programs the macro can be applied to", "anchors": ["ordinal-map-derive/src/ordinal.rs: StructGen, struct_ordinal, struct_from_ordinal, SizeExpr"]}
{"id": "C11", "title": "Derived enums keep the ordinal law", "statement": "The code generated by #[derive(Ordinal)] for an enum (any mix of unit, tuple, record variants, including no variants and variants with no values) is a bijection onto 0..ORDINAL_SIZE whenever the field types obey the law and ORDINAL_SIZE compiles; out-of-range ordinals give None; nothing panics or underflows.", "quantifier": "every enum declaration, every value, every usize argument", "why_tests_cant": "quantifies over all programs the macro can be applied to", "anchors": ["ordinal-map-derive/src/ordinal.rs: EnumGen"]}
{"id": "C12", "title": "Derived numbering is positional", "statement": "The ordinal of an enum value is the number of values of all variants declared before it plus the mixed-radix number of its fields with the last field varying fastest; explicit discriminants do not matter; for structs and tuples it is the mixed-radix number alone, and an array has the same ordinals as the tuple of its elements.", "quantifier": "every declaration, every value", "why_tests_cant": "quantifies over all declarations; users persist ordinals and rely on exact numbers", "anchors": ["ordinal-map-derive/src/ordinal.rs: EnumGen::ordinal, struct_ordinal", "ordinal-map/src/ordinal/impls/array.rs", "ordinal-map/src/ordinal/traits.rs doc"]}
{"id": "C13", "title": "Ordinals agree with Ord", "statement": "For every provided impl and derive (without explicit discriminants): a < b in Rust's Ord if and only if a.ordinal() < b.ordinal().", "quantifier": "every type built from the provided impls and derives, every pair of values", "why_tests_cant": "infinitely many types, and all pairs of values", "anchors": ["ordinal-map/src/ordinal/traits.rs doc 'Relation to Ord and PartialOrd'"]}
{"id": "C14", "title": "ORDINAL_SIZE is the number of values", "statement": "Whenever ORDINAL_SIZE of a type compiles it equals the exact number of values of the type; if the number of values exceeds usize::MAX then ORDINAL_SIZE is a compile-time error, never a wrapped number.", "quantifier": "every type built from the provided impls and derives, both pointer widths", "why_tests_cant": "infinitely many types", "anchors": ["ordinal-map/src/ordinal/traits.rs: ORDINAL_SIZE", "ordinal-map-derive/src/ordinal.rs: SizeExpr"]}
{"id": "C15", "title": "Every type with at most usize::MAX values is accepted", "statement": "If a type has at most usize::MAX values, its ORDINAL_SIZE compiles.", "quantifier": "every type built from the provided impls and derives", "why_tests_cant": "infinitely many types", "anchors": ["ordinal-map-derive/src/ordinal.rs: SizeExpr::expr", "ordinal-map/src/ordinal/traits.rs: ORDINAL_SIZE"]}
{"id": "C16", "title": "Types with too many values cannot silently collide", "statement": "If a type has more than usize::MAX values, calling ordinal() is a compile-time error or a panic; it never returns the same ordinal for two different values.", "quantifier": "every type built from the provided impls, every pair of values, overflow checks on or off", "why_tests_cant": "needs types of more than 2^64 values", "anchors": ["ordinal-map/src/ordinal/impls/std.rs", "ordinal-map/src/ordinal/impls/array.rs", "ordinal-map/src/ordinal/traits.rs: 'It is compile-time error if ...'"]}
{"id": "C17", "title": "The ordinal law is closed under composition", "statement": "Any type built by nesting the provided impls and derived structs/enums to any depth, whose ORDINAL_SIZE compiles, obeys the bijection law: distinct values get distinct ordinals below ORDINAL_SIZE, from_ordinal inverts ordinal, every ordinal below ORDINAL_SIZE is hit, and nothing panics.", "quantifier": "every finite type expression, every value", "why_tests_cant": "infinitely many types", "anchors": ["ordinal-map/src/ordinal/impls", "ordinal-map-derive/src/ordinal.rs"]}
{"id": "C18", "title": "Out-of-range ordinals are rejected under composition", "statement": "For any nesting as in C17 in which char does not occur bare or directly under Option/Box/second argument of Result/Either, from_ordinal(i) == None for every usize i >= ORDINAL_SIZE; on 32-bit targets this holds without the exception.", "quantifier": "every finite type expression, every usize argument", "why_tests_cant": "infinitely many types, 2^64 arguments", "anchors": ["ordinal-map/src/ordinal/impls", "ordinal-map-derive/src/ordinal.rs"]}
{"id": "C19", "title": "derive(Ordinal) works for arbitrary field names", "statement": "Deriving Ordinal for a struct or enum compiles whatever its fields are called.", "quantifier": "every declaration, every choice of field names", "why_tests_cant": "quantifies over all declarations", "anchors": ["ordinal-map-derive/src/ordinal.rs: struct_from_ordinal, field_vars", "ordinal-map/src/ordinal/traits.rs doc 'works for arbitrary structs and enums'"]}
{"id": "C20", "title": "all_values enumerates every value once in order", "statement": "T::all_values() yields every value of T exactly once in increasing ordinal order.", "quantifier": "every lawful type of any size", "why_tests_cant": "all types, sizes up to 2^64-1", "anchors": ["ordinal-map/src/values.rs", "ordinal-map/src/ordinal/traits.rs: all_values"]}
{"id": "C21", "title": "all_values is a correct double-ended exact-size iterator", "statement": "Under any interleaving of next() and next_back() the iterator hands out the ends of the remaining sequence, never yields a value twice, stays None once exhausted, and at every point len(), size_hint(), count() are the exact number of remaining values and last() is the last remaining value.", "quantifier": "every lawful type, every finite sequence of next/next_back calls", "why_tests_cant": "exponentially many call schedules", "anchors": ["ordinal-map/src/values.rs: Iterator, DoubleEndedIterator, ExactSizeIterator"]}
{"id": "C22", "title": "Debug of OrdinalValues describes the remaining range", "statement": "After any sequence of next/next_back, the Debug text is '[]' when nothing is left, '[first..]' when the upper end is untouched, '[only]' when one value is left of a shrunk range, otherwise '[first..=last]', with first and last the actual remaining end values; formatting does not change the iterator.", "quantifier": "every lawful type, every call schedule, every element formatter", "why_tests_cant": "exponentially many schedules", "anchors": ["ordinal-map/src/values.rs: impl Debug"]}
{"id": "C23", "title": "AtomicOrdinal is an atomic register of T", "statement": "Under any interleaving of load, store and compare_exchange by any number of threads (sequentially consistent executions) every call behaves as on a single variable of type T: load returns the last stored value, compare_exchange succeeds exactly if the current value equals old and then returns it, otherwise returns the current value and changes nothing.", "quantifier": "every lawful T, any number of threads, every interleaving of every program", "why_tests_cant": "schedules", "anchors": ["ordinal-map/src/atomic.rs"]}
{"id": "C24", "title": "AtomicOrdinal never panics on decode under weak memory", "statement": "Even if loads may return any value ever written to the cell (any coherent memory model, any ordering arguments), every value returned by load or compare_exchange is one previously passed to new, store or a successful compare_exchange, and the internal decode never panics.", "quantifier": "every lawful T, every execution in which reads may return any previous write", "why_tests_cant": "schedules and weak-memory reorderings", "anchors": ["ordinal-map/src/atomic.rs: load, compare_exchange"]}
{"id": "C25", "title": "AtomicOrdinal panics exactly on illegal orderings", "statement": "load panics exactly for Release/AcqRel, store exactly for Acquire/AcqRel, compare_exchange exactly when the failure ordering is Release/AcqRel; in those cases the stored value is unchanged.", "quantifier": "every lawful T, every stored value, every combination of orderings", "why_tests_cant": "combination with every state; contract inherited from AtomicUsize", "anchors": ["ordinal-map/src/atomic.rs"]}
{"id": "C26", "title": "OrdinalMap behaves like a partial map", "statement": "Starting from new(), any sequence of insert, get, get_mut writes, remove, entry operations, retain-free bulk operations (clear, drain, iter_mut/values_mut writes), len, is_empty and iteration returns what a mathematical partial map K -> V would return (insert/remove return the previous value, other keys are unaffected) and never panics.", "quantifier": "every lawful key type, every value type, every finite sequence of operations", "why_tests_cant": "all histories over all key types", "anchors": ["ordinal-map/src/map/map.rs"]}
{"id": "C27", "title": "OrdinalMap::contains_key agrees with get", "statement": "contains_key(k) is true if and only if get(k) is Some.", "quantifier": "every reachable map, every key", "why_tests_cant": "all histories", "anchors": ["ordinal-map/src/map/map.rs: contains_key"]}
{"id": "C28", "title": "OrdinalMap allocates lazily and exactly once", "statement": "A new map holds no storage; reads, removals, clear, drain and iteration never allocate; the first insert or entry allocates exactly ORDINAL_SIZE slots and no later operation changes that.", "quantifier": "every lawful key type, every finite sequence of operations", "why_tests_cant": "all histories", "anchors": ["ordinal-map/src/map/map.rs: new, init_full_map"]}
{"id": "C29", "title": "OrdinalArrayMap behaves like a partial map", "statement": "Same as C26 for OrdinalArrayMap, including contains_key (true iff get is Some) and retain.", "quantifier": "every lawful key type, every value type, every finite sequence of operations", "why_tests_cant": "all histories over all key types", "anchors": ["ordinal-map/src/map/array_map.rs"]}
{"id": "C30", "title": "Sparse map iteration is complete, ordered and duplicate free", "statement": "iter(), keys(), values(), iter_mut(), drain(), into_iter() and IntoIterator for &map of both sparse maps yield exactly the present entries, each once, in increasing key-ordinal order; keys/values are the projections of iter().", "quantifier": "every lawful key type, every map content", "why_tests_cant": "all map contents", "anchors": ["ordinal-map/src/map/iter.rs", "ordinal-map/src/map/enumerate.rs"]}
{"id": "C31", "title": "Sparse map iterators are correctly double ended", "statement": "For any interleaving of next() and next_back(), Iter, Keys, Values, IterMut, ValuesMut, Drain, IntoIter and IntoIterArray hand out the ends of the remaining entries with the right keys, never repeat an entry, terminate, and keep returning None after exhaustion.", "quantifier": "every map content, every finite sequence of next/next_back calls", "why_tests_cant": "exponentially many call schedules", "anchors": ["ordinal-map/src/map/iter.rs: DoubleEndedIterator impls"]}
{"id": "C32", "title": "Mutable iteration hands out disjoint slots of the right keys", "statement": "iter_mut/values_mut of every map type never hand out two references to the same slot; the reference paired with key k is k's slot; writing through the collected references in any order changes exactly those keys' values and nothing else.", "quantifier": "every map content, every call schedule, every order of later writes", "why_tests_cant": "all schedules of calls and writes", "anchors": ["ordinal-map/src/map/iter.rs: IterMut, ValuesMut", "ordinal-map/src/map/total/iter.rs: IterMut"]}
{"id": "C33", "title": "drain empties the map whenever it is dropped", "statement": "Whatever number of elements is consumed from either end before the Drain is dropped, each consumed element is yielded once and the map is empty afterwards; if the Drain is leaked instead, exactly the consumed entries are gone. clear() empties the map.", "quantifier": "every map content, every consumption schedule, every drop point", "why_tests_cant": "drop points and schedules", "anchors": ["ordinal-map/src/map/iter.rs: Drain", "ordinal-map/src/map/map.rs: drain, clear", "ordinal-map/src/map/array_map.rs: drain, clear"]}
{"id": "C34", "title": "Entry API is get-or-insert", "statement": "entry(k) is Occupied iff k is present; or_insert(v) returns a reference to k's slot holding the old value if present and v otherwise; VacantEntry::insert stores the value; OccupiedEntry get/get_mut never panic and reach k's value; key() is k; no other key changes.", "quantifier": "every lawful key type, every map content, every key and value", "why_tests_cant": "all states", "anchors": ["ordinal-map/src/map/entry.rs", "ordinal-map/src/map/map.rs: entry", "ordinal-map/src/map/array_map.rs: entry"]}
{"id": "C35", "title": "Building from an iterator: last write wins", "statement": "FromIterator for both sparse maps gives k the value of the last pair with key k, and no value if there is none.", "quantifier": "every finite sequence of pairs", "why_tests_cant": "unbounded input", "anchors": ["ordinal-map/src/map/map.rs: FromIterator", "ordinal-map/src/map/array_map.rs: FromIterator"]}
{"id": "C36", "title": "retain keeps exactly the accepted entries", "statement": "OrdinalArrayMap::retain calls the predicate exactly once per present entry in key-ordinal order, lets it mutate the value, keeps the (mutated) entry iff it returned true, and touches no other key, for stateful predicates too.", "quantifier": "every map content, every stateful predicate", "why_tests_cant": "all predicates", "anchors": ["ordinal-map/src/map/array_map.rs: retain"]}
{"id": "C37", "title": "len and is_empty count the present keys", "statement": "len() of the sparse maps is the number of keys with a value and is_empty() is len() == 0, in every reachable state.", "quantifier": "every reachable map", "why_tests_cant": "all histories", "anchors": ["ordinal-map/src/map/map.rs: len, is_empty", "ordinal-map/src/map/array_map.rs: len, is_empty"]}
{"id": "C38", "title": "Clones are faithful and independent", "statement": "clone() of every map and set has the cloned value for every key (same members for sets), and cloned iterators continue with the same remaining elements.", "quantifier": "every content, every element clone function, every iterator position", "why_tests_cant": "all states", "anchors": ["ordinal-map/src/map/map.rs: Clone", "ordinal-map/src/map/array_map.rs: Clone", "ordinal-map/src/map/total", "ordinal-map/src/set"]}
{"id": "C39", "title": "Heap map and array map agree", "statement": "Any sequence of operations available on both OrdinalMap and OrdinalArrayMap (except contains_key, see C27) returns the same results.", "quantifier": "every lawful key type, every finite sequence of operations", "why_tests_cant": "all histories", "anchors": ["ordinal-map/src/map/map.rs", "ordinal-map/src/map/array_map.rs"]}
{"id": "C40", "title": "size_hint of sparse iterators is sound", "statement": "At any point of any iteration the number of elements still to come lies within size_hint(), for Iter, IterMut, Keys, Values, ValuesMut, Drain, IntoIter, IntoIterArray and the set Iter.", "quantifier": "every content, every call schedule", "why_tests_cant": "exponentially many schedules", "anchors": ["ordinal-map/src/map/iter.rs: size_hint", "ordinal-map/src/set/iter.rs: size_hint"]}
{"id": "C41", "title": "Total map construction calls init once per key in order", "statement": "try_new of both total maps calls init on the keys in increasing ordinal order, each at most once, stops at the first Err and returns that error, and otherwise returns the map holding init(k) for every k; new and default are the error-free case. Holds for stateful init.", "quantifier": "every lawful key type, every stateful init function", "why_tests_cant": "all callbacks", "anchors": ["ordinal-map/src/map/total/map.rs: try_new, new", "ordinal-map/src/map/total/array_map.rs: try_new, new"]}
{"id": "C42", "title": "Total maps behave like total functions", "statement": "After construction, any sequence of get, get_mut, index, index_mut, insert, iter_mut, values_mut operations on either total map behaves as a function K -> V; insert returns the previous value; lookups never panic.", "quantifier": "every lawful key type, every finite sequence of operations", "why_tests_cant": "all histories", "anchors": ["ordinal-map/src/map/total/map.rs", "ordinal-map/src/map/total/array_map.rs"]}
{"id": "C43", "title": "Total map len is ORDINAL_SIZE", "statement": "len() of a total map built by new/try_new is ORDINAL_SIZE, equals the number of entries iterated, and is_empty() iff the key type has no values.", "quantifier": "every lawful key type, every such map", "why_tests_cant": "all key types", "anchors": ["ordinal-map/src/map/total/map.rs: len, is_empty", "ordinal-map/src/map/total/array_map.rs: len, is_empty"]}
{"id": "C44", "title": "from_array only accepts arrays of ORDINAL_SIZE", "statement": "OrdinalTotalArrayMap::from_array is a compile-time error unless S == ORDINAL_SIZE, so lookups in its result never panic and len() is always ORDINAL_SIZE.", "quantifier": "every key type, every S, every array, every key", "why_tests_cant": "all key types and sizes", "anchors": ["ordinal-map/src/map/total/array_map.rs: from_array, len"]}
{"id": "C45", "title": "Total map iteration pairs each key with its value at both ends", "statement": "iter, iter_mut, into_iter, values, keys of the total maps yield every key once in order with its own value, under any interleaving of next and next_back, with exact len() at every point.", "quantifier": "every lawful key type, every content, every call schedule", "why_tests_cant": "exponentially many schedules", "anchors": ["ordinal-map/src/map/total/iter.rs", "ordinal-map/src/map/enumerate.rs"]}
{"id": "C46", "title": "Exact-size iterators report exact size_hint", "statement": "Every iterator of the crate that implements ExactSizeIterator returns size_hint() == (len(), Some(len())) as that trait requires.", "quantifier": "every ExactSizeIterator type of the crate, every position", "why_tests_cant": "every type and every position", "anchors": ["ordinal-map/src/map/total/iter.rs: IntoIterArray", "ordinal-map/src/map/total/iter.rs", "ordinal-map/src/values.rs", "ordinal-map/src/set/set64.rs"]}
{"id": "C47", "title": "map, map_values and zip are pointwise", "statement": "OrdinalTotalArrayMap::map calls f once per key in order and stores f(k, v) at k; map_values likewise; zip pairs the two values of each key; values/into_values/values_array list the values in key order.", "quantifier": "every lawful key type, every contents, every stateful f", "why_tests_cant": "all callbacks", "anchors": ["ordinal-map/src/map/total/array_map.rs: map, map_values, zip"]}
{"id": "C48", "title": "as_ref and as_mut views refer to the original slots", "statement": "as_ref gives for every k the value of k in the original; as_mut gives for every k a reference to k's own slot, all distinct, so a write through it changes exactly that key.", "quantifier": "every lawful key type, every content", "why_tests_cant": "all key types", "anchors": ["ordinal-map/src/map/total/array_map.rs: as_ref, as_mut", "ordinal-map/src/array_as_mut.rs"]}
{"id": "C49", "title": "Array construction is memory safe and leak free", "statement": "Building a fixed array (try_new, new, map, zip, [T;N]::from_ordinal) never reads or drops an uninitialised slot and never writes out of bounds, and whether it succeeds, fails with an error, or a callback panics at any point, every value handed in is either in the resulting array or dropped exactly once. Holds even for unlawful Ordinal impls.", "quantifier": "every push sequence, every S, every failing or panicking point", "why_tests_cant": "crash points; undefined behaviour is invisible to tests", "anchors": ["ordinal-map/src/array_builder.rs", "ordinal-map/src/array_from_iter.rs", "ordinal-map/src/array_as_mut.rs"]}
{"id": "C50", "title": "OrdinalSet behaves like a set", "statement": "From new(), any sequence of insert, contains and iteration behaves as a mathematical set: insert returns true iff the element was absent; no other element's membership changes; it never panics (key type with 1 ..= usize::MAX-64 values).", "quantifier": "every lawful key type in that range, every finite sequence of operations, debug assertions on or off", "why_tests_cant": "all histories; small and large representation", "anchors": ["ordinal-map/src/set/set.rs", "ordinal-map/src/set/set_ref.rs", "ordinal-map/src/set/set_mut.rs"]}
{"id": "C51", "title": "OrdinalArraySet behaves like a set", "statement": "Same as C50 for OrdinalArraySet with S = ordinal_array_set_s::<T>().", "quantifier": "every lawful key type, every finite sequence of operations", "why_tests_cant": "all histories", "anchors": ["ordinal-map/src/set/array.rs"]}
{"id": "C52", "title": "OrdinalSet64 behaves like a set", "statement": "Same for OrdinalSet64 with any key type of at most 64 values; no shift overflow ever occurs in insert/contains/from_iter/iter.", "quantifier": "every lawful key type with at most 64 values, every finite sequence of operations", "why_tests_cant": "all histories", "anchors": ["ordinal-map/src/set/set64.rs"]}
{"id": "C53", "title": "OrdinalSet iteration is sorted, complete and double ended", "statement": "iter() of an OrdinalSet yields exactly the members, once each, in ordinal order, and under any interleaving of next/next_back hands out the ends of the remaining members.", "quantifier": "every set content, every call schedule", "why_tests_cant": "exponentially many schedules", "anchors": ["ordinal-map/src/set/iter.rs"]}
{"id": "C54", "title": "OrdinalSet64 iteration is sorted, exact-size and double ended", "statement": "iter() of OrdinalSet64 yields the members in ordinal order under any interleaving of next/next_back; len() and size_hint() are exact at every point; exhausted iterators stay exhausted.", "quantifier": "every set content, every call schedule", "why_tests_cant": "exponentially many schedules; bit tricks on all 2^64 words", "anchors": ["ordinal-map/src/set/set64.rs: Iter64"]}
{"id": "C55", "title": "OrdinalSet64::all contains every element", "statement": "OrdinalSet64::<T>::all() contains every value of T, for every T accepted by the size assertion (at most 64 values).", "quantifier": "every lawful key type with at most 64 values, overflow checks on or off", "why_tests_cant": "boundary depends on type size and build profile", "anchors": ["ordinal-map/src/set/set64.rs: all"]}
{"id": "C56", "title": "OrdinalSet64 equality is set equality", "statement": "Two OrdinalSet64 values reachable through the API are == iff they contain the same elements.", "quantifier": "every pair of reachable sets", "why_tests_cant": "all pairs of histories", "anchors": ["ordinal-map/src/set/set64.rs: derive(Eq, PartialEq)"]}
{"id": "C57", "title": "Sets built from iterators contain exactly the given elements", "statement": "FromIterator of the three set types yields a set containing x iff x occurs in the input.", "quantifier": "every finite input", "why_tests_cant": "unbounded input", "anchors": ["ordinal-map/src/set/set.rs, set/array.rs, set/set64.rs: FromIterator"]}
{"id": "C58", "title": "OrdinalSet works for every small key type including empty ones", "statement": "OrdinalSet::new().iter() and Debug never panic, also for a key type without values.", "quantifier": "every lawful key type of at most 64 values, every build profile", "why_tests_cant": "depends on type size and build profile", "anchors": ["ordinal-map/src/set/set.rs: as_ref", "ordinal-map/src/set/set_ref.rs: new"]}
{"id": "C59", "title": "OrdinalSet::insert works for every key type", "statement": "OrdinalSet::insert never panics (other than by failing to allocate), for any key type whose ORDINAL_SIZE compiles.", "quantifier": "every lawful key type", "why_tests_cant": "boundary near usize::MAX", "anchors": ["ordinal-map/src/set/set.rs: insert"]}
{"id": "C60", "title": "The three set types agree", "statement": "The same sequence of operations on OrdinalSet, OrdinalArraySet and (for at most 64 values) OrdinalSet64 returns the same results.", "quantifier": "every lawful key type of 1..=64 (two types: any supported size) values, every sequence of operations", "why_tests_cant": "all histories", "anchors": ["ordinal-map/src/set"]}
{"id": "C61", "title": "ordinal_array_set_s is the least sufficient word count", "statement": "ordinal_array_set_s::<T>() is the least S with 64*S >= ORDINAL_SIZE, is computed without overflow for every size, and OrdinalArraySet operations are compile-time errors for any other S.", "quantifier": "every lawful key type, every S", "why_tests_cant": "all sizes up to usize::MAX", "anchors": ["ordinal-map/src/set/array.rs: ordinal_array_set_s, ASSERT"]}
{"id": "C62", "title": "Debug output lists the elements", "statement": "Debug of sets, maps and their iterators lists exactly the (remaining) elements in ordinal order and does not change the formatted object.", "quantifier": "every content, every iterator position", "why_tests_cant": "all states", "anchors": ["ordinal-map/src/set/set_ref.rs, set/iter.rs, set/set64.rs, map/iter.rs, map/total/iter.rs: Debug"]}
{"id": "C63", "title": "AtomicOrdinal calls are wait-free", "statement": "Every load, store, compare_exchange and Debug with legal orderings completes after a bounded number of steps of its own thread (begin, one atomic access, return), whatever the other threads do.", "quantifier": "every lawful T, any number of threads, every schedule", "why_tests_cant": "all schedules", "anchors": ["ordinal-map/src/atomic.rs"]}
{"id": "C64", "title": "No undefined behaviour with a wrong Ordinal impl", "statement": "Ordinal is a safe trait: for an arbitrary impl (wrong ORDINAL_SIZE, out-of-range or shared ordinals, from_ordinal disagreeing with ordinal, panics, answers changing between calls) every function of the crate on every state returns, panics or is rejected at compile time; it never reaches undefined behaviour, never hands out an invalid reference and never loops forever. Composed impls (Option, Result, Either, Box, arrays, tuples, derives) keep this guarantee.", "quantifier": "every impl whose own functions finish without UB, every program over the maps, total maps, sets, iterators and AtomicOrdinal, every starting state", "why_tests_cant": "all wrong impls, all programs", "anchors": ["ordinal-map/src/map/map.rs", "ordinal-map/src/map/array_map.rs", "ordinal-map/src/map/total", "ordinal-map/src/set", "ordinal-map/src/array_builder.rs", "ordinal-map/src/values.rs", "ordinal-map/src/atomic.rs"]}
{"id": "C65", "title": "all_values yields from_ordinal of every index, for any impl", "statement": "OrdinalValues hands out from_ordinal(0), from_ordinal(1), ... from the front and from_ordinal(ORDINAL_SIZE-1), ... from the back, each index once, whatever the Ordinal impl does: an index decoding to None panics (unwrap) at exactly that call, a panicking from_ordinal panics there; len, size_hint, count, last and clone always describe the indices not yet handed out.", "quantifier": "every impl (no law assumed) with an ORDINAL_SIZE, every schedule of next/next_back calls", "why_tests_cant": "all wrong impls, all schedules", "anchors": ["ordinal-map/src/values.rs"]}
{"id": "C66", "title": "Inherited iterator methods act on the remaining elements", "statement": "nth, nth_back, fold, rfold, last, count, find, rfind, position, any, all, rev and collect, which the crate's iterators inherit from std, act on exactly the list of remaining elements (the one C30, C45, C53, C54, C20 give), and methods that leave the iterator usable leave it at the right place.", "quantifier": "every iterator of the crate over every reachable collection, every index, predicate and accumulator", "why_tests_cant": "all collections, all predicates", "anchors": ["ordinal-map/src/map/iter.rs", "ordinal-map/src/map/total/iter.rs", "ordinal-map/src/set/iter.rs", "ordinal-map/src/set/set64.rs", "ordinal-map/src/values.rs"]}
{"id": "C67", "title": "Provided impls number like the equivalent derived types", "statement": "Option, Result, Either, bool, Ordering, Infallible, Box and tuples number their values exactly as derive(Ordinal) does on the equivalent declaration (enum { None, Some(T) }, ...), whatever the discriminants; field names do not affect the numbering; a single-variant enum numbers like the struct with its fields.", "quantifier": "every payload type, every discriminant, every field list, every value and ordinal", "why_tests_cant": "all types and values", "anchors": ["ordinal-map/src/ordinal/impls", "ordinal-map-derive/src/ordinal.rs"]}
{"id": "C68", "title": "Adding variants at the end keeps the existing ordinals", "statement": "Adding variants at the end of a derived enum changes neither the ordinal of an existing value nor the value of an existing ordinal; the new values take exactly the ordinals from the old ORDINAL_SIZE on.", "quantifier": "every derived enum with lawful payload types, every list of added variants", "why_tests_cant": "all enums", "anchors": ["ordinal-map-derive/src/ordinal.rs"]}
{"id": "C69", "title": "Collecting what a collection yields rebuilds it", "statement": "The entries yielded by into_iter of any map, collected in any order into either sparse map, give a map with the same get; the elements yielded by a set's iterator, collected in any order and with any repetitions into any of the set types that can hold the type, give a set with the same contains.", "quantifier": "every reachable map and set; every order of the entries; element types with at least one value (or debug assertions off) for OrdinalSet::iter, see C53, and at most usize::MAX-64 values for OrdinalSet's FromIterator, see C57", "why_tests_cant": "all collections, all orders", "anchors": ["ordinal-map/src/map/map.rs", "ordinal-map/src/map/array_map.rs", "ordinal-map/src/map/iter.rs", "ordinal-map/src/map/total/iter.rs", "ordinal-map/src/set"]}
{"id": "C70", "title": "Heap total map and array total map agree", "statement": "An OrdinalTotalMap and an OrdinalTotalArrayMap with the same values answer every program of operations identically and end with the same values; their try_new constructors call init alike (same state afterwards) and end alike (equal maps, the same error or the same panic).", "quantifier": "every pair of reachable total maps, every program, every init function", "why_tests_cant": "all programs", "anchors": ["ordinal-map/src/map/total/map.rs", "ordinal-map/src/map/total/array_map.rs"]}
{"id": "C71", "title": "Constant folding in derive(Ordinal) preserves values", "statement": "SizeExpr::product and SizeExpr::sum return an expression whose value is the product (sum) of the operands' values, whatever mixture of constants, sums, products and Rust expressions they get; they abort macro expansion exactly when the constants multiplied (added) so far exceed u64::MAX; expr and const_expr succeed on every expression they build, and the emitted code, evaluated with overflow checks, yields that value or stops.", "quantifier": "every list of size expressions, every assignment of sizes and ordinals", "why_tests_cant": "all expression trees", "anchors": ["ordinal-map-derive/src/ordinal.rs"]}
{"id": "C72", "title": "derive(Ordinal) works for arbitrary variant names", "statement": "Deriving Ordinal for an enum compiles and obeys the law whatever its variants are called.", "quantifier": "all enums with lawful field types and all lists of variant names", "why_tests_cant": "The set of identifiers is infinite; the failing one is an identifier nobody would try.", "anchors": ["ordinal-map-derive/src/ordinal.rs:63-78", "ordinal-map-derive/src/ordinal.rs:389-428", "ordinal-map-derive/src/ordinal.rs:439-473"]}
{"id": "C73", "title": "derive(Ordinal) does not depend on its surroundings", "statement": "The derived impl is the same wherever the declaration stands: constants, statics, structs, imported variants, const parameters and modules in scope, and inherent constants of the type, make no difference.", "quantifier": "all structs and enums with lawful field types, all sets of names in scope, all inherent constants", "why_tests_cant": "Tests derive in one module; the claim ranges over every environment the macro may be expanded in.", "anchors": ["ordinal-map-derive/src/ordinal.rs:44-60", "ordinal-map-derive/src/ordinal.rs:63-78", "ordinal-map-derive/src/ordinal.rs:260-303", "ordinal-map-derive/src/ordinal.rs:474-480"]}
{"id": "C74", "title": "Macro expansion succeeds", "statement": "derive(Ordinal) never panics while expanding a struct or tuple; for an enum it panics exactly when its variants without fields cannot be counted in a u64. An enum of variants without fields expands to literals.", "quantifier": "all structs, tuples and enums, with any number of variants and fields of any types", "why_tests_cant": "The macro has asserts, expects and a length-mismatch branch; which declarations reach them is a question about all declarations.", "anchors": ["ordinal-map-derive/src/ordinal.rs:111-164", "ordinal-map-derive/src/ordinal.rs:171-210", "ordinal-map-derive/src/ordinal.rs:230-250", "ordinal-map-derive/src/ordinal.rs:364-482"]}
{"id": "C75", "title": "OrdinalSet allocates lazily and exactly once", "statement": "An OrdinalSet over a type with at most 64 values is one word in place for ever. Over a larger type it has no storage until the first insertion, and from then on exactly the least sufficient number of words, whatever is done with it.", "quantifier": "all Ordinal impls (lawful or not), all sequences of operations", "why_tests_cant": "The vector is a private field; its length matters only through debug assertions and silent misses of contains.", "anchors": ["ordinal-map/src/set/set.rs:32-80"]}
{"id": "C76", "title": "Iteration follows Ord", "statement": "all_values and the iterators of all maps and sets yield keys in strictly increasing order of Rust's Ord from the front and decreasing from the back, and exactly the present entries, as BTreeMap and BTreeSet do.", "quantifier": "all types built from the provided impls and derives without explicit discriminants, all reachable collections, all schedules of next and next_back", "why_tests_cant": "It combines every impl with every collection; tests check single combinations.", "anchors": ["ordinal-map/src/map/iter.rs:9-60", "ordinal-map/src/set/iter.rs:22-52", "ordinal-map/src/map/total/iter.rs:13-60", "ordinal-map/src/values.rs:8-60"]}
{"id": "C77", "title": "Panicking destructors", "statement": "When the destructor of a value panics inside Drain::drop, clear, retain or ArrayBuilder::drop, no value is dropped twice and no uninitialised slot is dropped: the destructors run in order until the first panic, the entry being dropped has already left the map, and the map holds exactly the entries whose destructors were not reached (for retain: also those already kept). Without a panic everything is dropped exactly once.", "quantifier": "all lawful impls, all reachable maps, all schedules of next/next_back before the drop, all stateful destructors and retain closures, any of which may panic at any point; all builders", "why_tests_cant": "No test uses a destructor that panics, and a double drop is undefined behaviour that a test may not notice.", "anchors": ["ordinal-map/src/map/iter.rs:278-310", "ordinal-map/src/map/map.rs:142-144", "ordinal-map/src/map/array_map.rs:140-156", "ordinal-map/src/array_builder.rs:14-22"]}
{"id": "C78", "title": "Collecting from arbitrary iterators", "statement": "from_iter of OrdinalMap, OrdinalArrayMap, OrdinalSet, OrdinalArraySet and OrdinalSet64 takes items until the first None and no further (also from iterators that are not fused), ends exactly when the iterator does, applies the items in order with later values replacing earlier ones, drops each replaced value exactly once and at once, and propagates a panic of the iterator or of a destructor with the collection in the state after the last item taken.", "quantifier": "all lawful impls (OrdinalSet: up to usize::MAX - 64 values), all stateful iterators and destructors that may panic, including endless iterators", "why_tests_cant": "Tests collect from vectors; iterators that panic, resume after None or never end are not tried.", "anchors": ["ordinal-map/src/map/map.rs:154-162", "ordinal-map/src/map/array_map.rs:166-174", "ordinal-map/src/set/set.rs:95-103", "ordinal-map/src/set/array.rs:86-94", "ordinal-map/src/set/set64.rs:141-149"]}
{"id": "C79", "title": "Calls to ordinal and from_ordinal compile per type, and types with too many values degrade predictably", "statement": "Whether a call of `ordinal` or `from_ordinal` compiles depends on the type alone, never on the value or number. It compiles exactly when the value count of the type, and of every part whose ORDINAL_SIZE the instantiated bodies mention, stays within usize::MAX: only the outermost layers of Box, Option, the right side of Result or Either, and one array may exceed it (u32::from_ordinal also compiles on 32-bit targets). Whenever it compiles, from_ordinal returns for every usize, every number below both the value count and 2^width decodes to a value that encodes back, and with overflow checks every ordinal returned decodes back to the value, even for types with more than usize::MAX values.", "quantifier": "for every type expression built from the provided impls and derives, every value, every usize, every target width and build profile", "why_tests_cant": "A type that is rejected at compile time cannot appear in a test at all, and the types at the border have about 2^64 values.", "anchors": ["ordinal-map/src/ordinal/impls/std.rs:5-41", "ordinal-map/src/ordinal/impls/either.rs:7-24", "ordinal-map/src/ordinal/impls/array.rs:4-42", "ordinal-map/src/ordinal/impls/boxed.rs:3-13", "ordinal-map/src/ordinal/impls/primitive.rs:75-106", "ordinal-map/src/ordinal/impls/non_zero.rs:167-199", "ordinal-map-derive/src/ordinal.rs:63-78"]}
{"id": "C80", "title": "Iterators stay usable after a caught panic", "statement": "If from_ordinal of the key type panics (or returns None) inside next or next_back and the panic is caught, the iterator goes on with the elements it has not tried yet. Every ordinal is tried at most once, and a pair of a key and a value that is handed out later is still a right pair.", "quantifier": "for all key types and user from_ordinal functions, with or without a state of their own, all schedules of next and next_back calls with each panic caught, and all map contents", "why_tests_cant": "The tests use impls that never panic and stop at the first panic; which state an unwinding call leaves behind depends on the position of the failure, the direction of every call and the number of earlier failures.", "anchors": ["ordinal-map/src/values.rs:40-43", "ordinal-map/src/values.rs:76-79", "ordinal-map/src/set/set64.rs:20-28", "ordinal-map/src/set/set64.rs:46-50", "ordinal-map/src/map/enumerate.rs:25-30", "ordinal-map/src/map/enumerate.rs:49-53", "ordinal-map/src/map/iter.rs:27-32"]}
{"id": "C81", "title": "Collections never confuse keys of a type with too many values", "statement": "A program over one of the crate's maps or sets, or over AtomicOrdinal, either does not compile, or panics, or gives the answers of the abstract collection, also for key types with more than usize::MAX values. Two different keys are never taken for each other. For key types whose ORDINAL_SIZE compiles no program is rejected except by the assertions on lengths.", "quantifier": "for all key types built from the crate's impls and derives, all programs of operations on each collection, all configurations", "why_tests_cant": "A compile error has no run-time test, and whether a constant is evaluated depends on which functions a program instantiates; key types with 2^64 values cannot be enumerated.", "anchors": ["ordinal-map/src/map/map.rs:37-102", "ordinal-map/src/map/array_map.rs:46-50", "ordinal-map/src/map/total/map.rs:27-56", "ordinal-map/src/map/total/array_map.rs:46-89", "ordinal-map/src/set/set.rs:32-70", "ordinal-map/src/set/array.rs:43-109", "ordinal-map/src/set/set64.rs:80-132", "ordinal-map/src/atomic.rs:50-84"]}
{"id": "C82", "title": "Draining and clearing lose no value when from_ordinal panics", "statement": "If from_ordinal of the key type panics while a map is drained or cleared, every value is handed out, dropped, or still in its slot of the map, exactly once, and all other slots are empty. The destructor of Drain, which goes on with the entries not tried yet, lets the process abort only if from_ordinal fails a second time.", "quantifier": "for all key types and user from_ordinal functions, with or without a state of their own, all map contents, all schedules of next and next_back calls before the drop, and every position of a failure", "why_tests_cant": "The tests use impls that never panic; a destructor that runs during unwinding depends on which call failed, and an abort ends the test process.", "anchors": ["ordinal-map/src/map/iter.rs:268-310", "ordinal-map/src/map/map.rs:136-144", "ordinal-map/src/map/array_map.rs:134-142", "ordinal-map/src/map/enumerate.rs:25-30"]}
{"id": "C83", "title": "derive(Ordinal) on generic types", "statement": "The impl derived for a generic struct or enum is accepted exactly if the bounds written in the declaration give every field type an Ordinal impl. In an accepted program no permitted instance fails to have an impl later, and every instance obeys the law of Ordinal. The derive adds no bounds of its own.", "quantifier": "for all programs of declarations with type and constant parameters and Ordinal bounds, all instances", "why_tests_cant": "The tests derive for no generic type; which instances exist is unlimited, and a rejected declaration is a compile error.", "anchors": ["ordinal-map-derive/src/ordinal.rs:39-61", "ordinal-map-derive/src/ordinal.rs:97-101", "ordinal-map-derive/src/ordinal.rs:217-219"]}
{"id": "C84", "title": "Recursive types are rejected, others are not", "statement": "If a type contains itself, directly, through Box or through other declarations, or never ends because its arguments grow, no use of its Ordinal impl compiles, whatever the compiler's limits. Every other accepted type has an impl once the limit is high enough, and the limit has no influence on the numbering. Without parameters the endless types are those that have a type inside itself.", "quantifier": "for all programs of (mutually recursive, generic) declarations, all types, all limits", "why_tests_cant": "A rejected type is a compile error, and there are unlimited ways for declarations to refer to each other.", "anchors": ["ordinal-map-derive/src/ordinal.rs:39-78", "ordinal-map/src/ordinal/impls/boxed.rs:3-13"]}
{"id": "C85", "title": "Every call of user code", "statement": "For user code with a state, whose ordinal, from_ordinal and closures may answer differently every time and may panic, each operation of the maps, total maps, sets, OrdinalSet64, AtomicOrdinal and the array impl calls exactly the user functions given by a table in the spec, in that order, and stops at the first panic. The table depends on the operation and on the stored slots, for sets also on the answers. try_new, new, map and retain pair each key with its closure call, store what the closure returned, and drop what was made when they stop early. With an impl that is a pair of functions the dialogues give the results of the model used by all other properties.", "quantifier": "for all user code, all its states, all operations, all stored values, all configurations", "why_tests_cant": "Calls depend on the answers, and user code with a state has unboundedly many behaviours; tests use derived impls, which never panic or change.", "anchors": ["ordinal-map/src/map/map.rs:33-145", "ordinal-map/src/map/array_map.rs:43-157", "ordinal-map/src/map/total/map.rs:25-110", "ordinal-map/src/map/total/array_map.rs:45-188", "ordinal-map/src/set/set_ref.rs:14-36", "ordinal-map/src/set/set_mut.rs:12-34", "ordinal-map/src/set/iter.rs:1-68", "ordinal-map/src/set/set64.rs:16-133", "ordinal-map/src/atomic.rs:47-85", "ordinal-map/src/ordinal/impls/array.rs:4-50"]}
{"id": "C86", "title": "No undefined behaviour with user code that changes its answers", "statement": "If the user functions themselves return or panic, then every program of operations on a map, total map, set or OrdinalSet64 returns or panics, without undefined behaviour, even if ordinal and from_ordinal change their answers in the middle of an operation. The same holds for the constructors with closures, map, retain, the calls of AtomicOrdinal and the array impl.", "quantifier": "for all user code that has no undefined behaviour itself, all its states, all programs, all configurations", "why_tests_cant": "The unsafe blocks rely on ordinals that safe code may change between two calls; no test has such an impl.", "anchors": ["ordinal-map/src/map/iter.rs:1-429", "ordinal-map/src/map/array_map.rs:144-157", "ordinal-map/src/array_builder.rs:1-59", "ordinal-map/src/atomic.rs:47-85", "ordinal-map/src/set/set64.rs:16-133"]}
{"id": "C87", "title": "Where changing answers can be told apart", "statement": "A single operation of a map or total map, try_new, new, map, retain, and contains of a set give for any user code an outcome that some impl made of two fixed functions gives as well. Not so for insert of a set, insert of OrdinalSet64, set iterators and compare_exchange: there is safe user code with an outcome that no fixed impl gives (insert returns true and adds nothing; OrdinalSet64::insert returns false and adds an element; an iterator visits one of two equal keys; exchanging a value for itself changes the cell).", "quantifier": "for all user code, all its states, all operations, all stored values, all configurations", "why_tests_cant": "It compares behaviour under every stateful impl with behaviour under every pure impl.", "anchors": ["ordinal-map/src/map/map.rs:33-145", "ordinal-map/src/map/array_map.rs:43-157", "ordinal-map/src/map/total/map.rs:25-110", "ordinal-map/src/map/total/array_map.rs:45-188", "ordinal-map/src/set/set_ref.rs:14-36", "ordinal-map/src/set/set_mut.rs:12-34", "ordinal-map/src/set/iter.rs:1-68", "ordinal-map/src/set/set64.rs:16-133", "ordinal-map/src/atomic.rs:68-85"]}
{"id": "C88", "title": "The project's unit tests and documentation examples pass", "statement": "Each of the 50 #[test] functions without quickcheck and each of the 10 examples in the documentation ends without a panic, on 64-bit targets under any flags. On 32-bit targets the same holds of all but test_non_zero_u32 and test_non_zero_i32: these do not compile. test_more_than_64, which is commented out with the remark that it fails at compilation time, does not compile under any configuration. The loop of the crate's example counts, for any list of errors and any classification, the errors of each category.", "quantifier": "for all tests and examples, all configurations, all lists of errors, all classifications", "why_tests_cant": "A run of the tests covers one target and one set of flags, and the example is run on one list.", "anchors": ["ordinal-map/src/tests/util.rs:1-81", "ordinal-map/src/tests/derive.rs:1-198", "ordinal-map/src/lib.rs:13-34"]}
{"id": "C89", "title": "What test_ordinal establishes", "statement": "test_ordinal(expected) passes exactly if ORDINAL_SIZE is the length of expected, neighbours in expected are in order, the element at position i has ordinal i and i is converted back to it, and from_ordinal gives None for ORDINAL_SIZE and for usize::MAX. If expected lists all values, passing it makes the impl a bijection with expected as its enumeration, and every lawful impl whose order follows ordinals passes. It sees neither ordinals strictly between ORDINAL_SIZE and usize::MAX (test_char passes on 64-bit targets although from_ordinal accepts 2^32) nor values that expected leaves out (there is an impl that is no bijection and passes).", "quantifier": "for all types and impls with fixed functions, all lists, all configurations", "why_tests_cant": "It is a statement about the test.", "anchors": ["ordinal-map/src/tests/util.rs:1-70"]}
{"id": "C90", "title": "The quickcheck tests pass on all inputs", "statement": "The quickcheck tests of OrdinalMap, OrdinalArrayMap (insert/get/len and retain), OrdinalSet (insert and iter), OrdinalArraySet and OrdinalSet64 (iterator, double ended iterator, exact size) pass for every pair of vectors, for the key types the project picks and for any key type with a lawful impl (for tests that sort: whose order follows ordinals). Sets need at most usize::MAX - 64 values (OrdinalSet) or 64 (OrdinalSet64), and iterating an OrdinalSet of an uninhabited type needs debug assertions off.", "quantifier": "for all vectors, all lawful key types, all value types, all configurations", "why_tests_cant": "quickcheck tries 100 random vectors for one key type.", "anchors": ["ordinal-map/src/map/map.rs:205-220", "ordinal-map/src/map/array_map.rs:218-246", "ordinal-map/src/set/set.rs:124-172", "ordinal-map/src/set/array.rs:118-130", "ordinal-map/src/set/set64.rs:184-203"]}
{"id": "C91", "title": "AtomicOrdinal when ordinal panics on some values", "statement": "Let ordinal return on some values and panic on the others, and from_ordinal undo it wherever it returns (every lawful implementation, every type with too many values under overflow checks, implementations that refuse values by a panic). Then any number of threads using one AtomicOrdinal see a single variable of type T; a thread panics only in a call whose argument has no ordinal, with that panic, or whose orderings are illegal, and this call has no effect; decoding never panics, also when loads may return any earlier write; and a thread none of whose calls panics completes within three steps per call, whatever becomes of the others.", "quantifier": "for all such implementations, any number of threads, all programs, all schedules", "why_tests_cant": "all schedules; panics in other threads at every point", "anchors": ["ordinal-map/src/atomic.rs:40-84"]}
{"id": "C92", "title": "Several AtomicOrdinals under any memory model are variables of type T", "statement": "Let threads use any number of AtomicOrdinals, each thread choosing its next call from the results so far. For every memory model that judges an execution by its events, their orderings and which write each read takes its value from, the results that AtomicOrdinals allow are exactly those that variables of type T allow. In particular no decode ever panics, a thread panics only in a call whose argument has no ordinal or whose orderings are illegal, and every value returned is the initial one of that variable or one written to it by a store or successful compare_exchange, even if the model allows values out of thin air.", "quantifier": "for all implementations whose from_ordinal undoes ordinal, any number of threads and variables, all adaptive programs, all axiomatic memory models", "why_tests_cant": "weak-memory executions of all architectures and compilers; all programs", "anchors": ["ordinal-map/src/atomic.rs:40-84"]}
{"id": "C93", "title": "The text written by {:?} and {:#?}", "statement": "Whatever the Debug implementations of the keys, values and elements do: {:?} of a map, set or iterator of the crate writes its entries in ordinal order in the format of the standard collections, and {:#?} the same entries one per line with every line of an entry indented by four spaces. If an implementation returns an error or panics, exactly the text up to that point has been written and the error or panic is the result. If the implementations pass on the errors of the sink, a string refused by the sink is the last one offered and the result is an error. OrdinalValues ignores the alternate flag. AtomicOrdinal writes what the value writes. A set over a type without values panics before it writes anything when debug assertions are on.", "quantifier": "every key type with a bijective Ordinal, every reachable map and set, every point of every schedule of next and next_back calls, every Debug implementation of keys, values and elements, both flags, every sink", "why_tests_cant": "The tests compare a few {:?} texts of small collections; they cannot cover element implementations that write several lines, fail or panic, nor sinks that fail at any point.", "anchors": ["ordinal-map/src/map/map.rs:173-177", "ordinal-map/src/map/array_map.rs:184-188", "ordinal-map/src/map/total/map.rs:141-145", "ordinal-map/src/map/total/array_map.rs:219-223", "ordinal-map/src/map/iter.rs:62-66", "ordinal-map/src/map/iter.rs:116-120", "ordinal-map/src/map/iter.rs:165-169", "ordinal-map/src/map/iter.rs:214-218", "ordinal-map/src/map/iter.rs:260-264", "ordinal-map/src/map/iter.rs:358-362", "ordinal-map/src/map/iter.rs:417-421", "ordinal-map/src/map/total/iter.rs:60-64", "ordinal-map/src/map/total/iter.rs:110-114", "ordinal-map/src/map/total/iter.rs:164-168", "ordinal-map/src/map/total/iter.rs:216-220", "ordinal-map/src/set/set_ref.rs:47-51", "ordinal-map/src/set/iter.rs:64-68", "ordinal-map/src/set/set64.rs:63-67", "ordinal-map/src/set/set64.rs:160-164", "ordinal-map/src/set/set.rs:114-118", "ordinal-map/src/set/array.rs:105-109", "ordinal-map/src/values.rs:92-107", "ordinal-map/src/atomic.rs:40-45"]}
{"id": "C94", "title": "Clone and Default of values with effects", "statement": "Whatever the Clone implementation and the destructor of the values do: clone of a map, and of an owning iterator at any point of any schedule, clones every remaining value exactly once, in ordinal order. If all these calls return, the result has the same keys with the clones as values, it is a map that a client program could also have built, respectively an iterator that yields the remaining keys with the clones from both ends and has the same length bounds. If a call panics, no further value is cloned, the clones made so far are dropped in order, and the panic goes on, unless one of these destructors panics, which aborts the process. default of the total maps calls V::default once per key in order, up to the first panic. For a Clone that only computes a value these are the clones of C38.", "quantifier": "every key type with a bijective Ordinal, every reachable map of each of the four types, every point of every schedule of next and next_back calls on its owning iterator, every Clone and Default implementation and destructor of the values", "why_tests_cant": "The tests clone maps of integers; they do not have a Clone that counts its calls or panics at some element, nor destructors that panic during the unwinding.", "anchors": ["ordinal-map/src/map/map.rs:164-171", "ordinal-map/src/map/array_map.rs:176-182", "ordinal-map/src/map/total/map.rs:112-116", "ordinal-map/src/map/total/map.rs:132-139", "ordinal-map/src/map/total/array_map.rs:204-217", "ordinal-map/src/map/iter.rs:364-371", "ordinal-map/src/map/iter.rs:423-429", "ordinal-map/src/map/total/iter.rs:156-162", "ordinal-map/src/map/total/iter.rs:222-228", "ordinal-map/src/map/enumerate.rs:56-65"]}
{"id": "C95", "title": "Documented running times hold, except that first insertions and iteration over sets are not constant time", "statement": "Count as a step each call of ordinal or from_ordinal, each read or write of a slot or word, each slot or word of new storage, and each advance of a slice iterator or range; everything else between two steps takes bounded time. Then, for every implementation of the trait and every state of the collection, also when a call panics: get, get_mut and contains_key of OrdinalMap take at most 2 steps, remove 3, insert 3 and entry 2 once the slots exist; the first insert takes ORDINAL_SIZE + 3; any program of key operations on a new map takes at most ORDINAL_SIZE + 6 per operation (map.rs:17-21, 35); entry operations take at most 2 (entry.rs:21); len takes exactly 3 * slots + 1 steps (map.rs:62, array_map.rs:54), is_empty 3 per slot up to the first value, clear 4 * slots + 1; array maps and total maps are constant per key; every map iterator looks at each slot once, whatever the schedule; contains of a set takes at most 3 steps, insert 7, and the first insert into a large set ceil(ORDINAL_SIZE / 64) more; OrdinalSet64 operations and steps of its iterator are constant; iterating an OrdinalSet or OrdinalArraySet costs 4 to 5 steps for every value of the type, not for every member. So \"All operations are constant time\" (set.rs:20) fails for the first insertion into a large set and for iteration: for [bool; L] they cost 2^(L-6) + 7 and more than 4 * 2^L steps.", "quantifier": "all implementations of Ordinal, all maps, sets, iterators, schedules, programs of key operations, all lengths L > 6 with 2^L + 64 <= usize::MAX, all configurations", "why_tests_cant": "Tests check results, not costs, and timings on a few small key types cannot show a bound for every type, state and schedule.", "anchors": ["ordinal-map/src/map/map.rs:17-21", "ordinal-map/src/map/map.rs:35", "ordinal-map/src/map/map.rs:46-102", "ordinal-map/src/map/map.rs:142-144", "ordinal-map/src/map/entry.rs:20-22", "ordinal-map/src/map/iter.rs:27-49", "ordinal-map/src/map/array_map.rs:54-100", "ordinal-map/src/set/set.rs:20-80", "ordinal-map/src/set/iter.rs:27-51", "ordinal-map/src/set/set64.rs:20-50"]}
{"id": "C96", "title": "A caught panic of ordinal leaves every map and set as if the call had not been made", "statement": "For every implementation of the trait: when a call on a map or set panics and the panic is caught (catch_unwind), no slot or word has changed, except that the slots of an OrdinalMap or the words of a large OrdinalSet may have been created, empty; clear, drain and retain apart (C80, C82). So if an implementation is lawful except that its ordinal panics on some keys, then in any program that makes each call inside catch_unwind, every call with a key panics exactly if ordinal panics on the key, every other call of a map returns, collecting into a set stops at the first element whose ordinal panics, iterating or printing a set panics only if ordinal panics on some value of the type, and all results are those of the same program without the calls that panicked. The one exception is OrdinalMap::contains_key: it reports whether slots exist (C27), so a caught panic of the first insert turns its answer from false to true for every key.", "quantifier": "all key types, all implementations of Ordinal (left behind) or all lawful ones with ordinal panicking on any set of keys with any panics (programs), all programs over the four maps and the three sets, all configurations", "why_tests_cant": "No test has an implementation that panics, and tests cannot cover every subset of keys and every program.", "anchors": ["ordinal-map/src/map/map.rs:46-102", "ordinal-map/src/map/array_map.rs:61-155", "ordinal-map/src/map/total/map.rs:49-109", "ordinal-map/src/map/total/array_map.rs:60-187", "ordinal-map/src/set/set.rs:50-102", "ordinal-map/src/set/set_mut.rs:28-33", "ordinal-map/src/set/array.rs:52-108", "ordinal-map/src/set/set64.rs:110-148"]}
{"id": "C97", "title": "An overridden all_values makes array maps panic, total maps look up other keys' values, and sets hide elements, but nothing worse", "statement": "Ordinal::all_values is a provided method, so an implementation may override it; it can panic or return an OrdinalValues over any range of ordinals. Whatever it does, on whatever implementation, the containers have no undefined behaviour, and each value made by the callback of an array map's constructor is in the map or dropped, exactly once. For an implementation that is otherwise lawful with n values: OrdinalTotalArrayMap::{try_new, new, default, as_ref} and OrdinalArrayMap::{new, default, from_iter} do what they do with the default all_values if the range is 0..n (or empty and n is 0), and otherwise call the callback for the keys of the range in order and panic, unless the callback fails or panics first. OrdinalTotalMap does not check: for a range lo..hi within 0..n each lookup of the key with ordinal i gives the value made for the key with ordinal lo+i, or panics if there is none, len is n all the same, so that all lookups are right exactly if the range is; for a range past n construction panics. Iteration and {:?} of the sets never show an element that is not in the set, and show exactly those of its elements whose ordinals are in the range; {:?} panics if the range runs past n. If all_values panics, its callers panic before any call of the callback.", "quantifier": "all implementations of Ordinal (no undefined behaviour, conservation, no element shown that is not contained) or all otherwise lawful ones (the rest), all ranges, all panics, all callbacks and callback states, all sets reachable by programs, all configurations", "why_tests_cant": "No implementation in the crate or its tests overrides all_values.", "anchors": ["ordinal-map/src/ordinal/traits.rs:90-103", "ordinal-map/src/map/total/map.rs:27-44", "ordinal-map/src/map/total/map.rs:69-76", "ordinal-map/src/map/total/array_map.rs:51-70", "ordinal-map/src/map/total/array_map.rs:102-104", "ordinal-map/src/map/total/array_map.rs:146-156", "ordinal-map/src/map/array_map.rs:46-50", "ordinal-map/src/set/iter.rs:15-21", "ordinal-map/src/set/set_ref.rs:47-51"]}
{"id": "C98", "title": "A call that does not get the memory it needs changes nothing", "statement": "Let allocation fail: a request for more than isize::MAX bytes panics with capacity overflow, and any other request may be granted, panic, or abort, as the allocator chooses, depending on all earlier requests. For any implementation of Ordinal with n values and slots of any size: OrdinalMap::{insert, entry} ask for the memory of n slots, and only if the map has no slots yet; OrdinalMap::clone and OrdinalTotalMap::clone ask for the slots they have; OrdinalTotalMap::{try_new, new} ask for n slots before they call init; collecting into an OrdinalMap asks at most once; OrdinalSet::insert asks for (n + 63) / 64 words of 8 bytes, only if n is more than 64 and the set has none yet; OrdinalSet::clone asks for the words it has, and collecting into an OrdinalSet asks at most once; no other operation asks for any, nor is memory asked for values of size 0. A call whose request is refused panics or aborts and leaves the object, and the state of init, as they were; otherwise it does what it does when memory is unlimited. So a program that catches the panics sees what the program without the refused calls sees and leaves the same object; for a lawful key every other call returns what a mathematical map or set returns, apart from contains_key and from sets of types with no values in debug builds or with more than usize::MAX - 64 values, which differ without an allocator too (C27 and the properties of sets). A map that would have more than isize::MAX bytes of slots panics in every insert and entry and stays empty; a set of a lawful type never panics with capacity overflow. If all requests are granted and the slots fit, a program that does not panic leaves the map or set of the model without an allocator; each request is for all n slots, or for all (n + 63) / 64 words; there is one by the first call that may have to store something, one by each clone of what has slots or words, and one for each non-empty collected set (none if the slots have no size). A set of a type of at most 64 values makes no request.", "quantifier": "all implementations of Ordinal (calls, programs, number of requests) or all lawful ones (what the calls return, too large maps), all slot sizes, all allocators that answer by the history of requests, all programs of any length, all configurations", "why_tests_cant": "The tests run with an allocator that always has memory for their small types.", "anchors": ["ordinal-map/src/map/map.rs:74-96", "ordinal-map/src/map/map.rs:154-171", "ordinal-map/src/map/total/map.rs:27-44", "ordinal-map/src/map/total/map.rs:132-139", "ordinal-map/src/set/set.rs:64-80", "ordinal-map/src/set/set.rs:95-111"]}
{"id": "C99", "title": "Ordinals do not depend on the target or the build settings (NonZeroIsize apart)", "statement": "Let a type built from the provided impls and derives compile in two configurations (pointer width, overflow checks, debug assertions). If the pointers have the same width, or no part of the type is NonZeroIsize, then a value that is written the same way in both has the same ordinal in both, two values with the same ordinal are the same value, and from_ordinal gives the same value for every ordinal of both. ORDINAL_SIZE is the same in both, or it is usize::MAX of each, the size of NonZeroUsize; if no part is NonZeroUsize or NonZeroIsize it is the same, the lists of all values are the same, and a type that is accepted for 32-bit pointers is accepted for 64-bit pointers with the same size. NonZeroIsize is an exception: the ordinal of 1 is 2^31 with 32-bit and 2^63 with 64-bit pointers.", "quantifier": "all types built from the provided impls and derives (any nesting), all pairs of configurations, all values and ordinals", "why_tests_cant": "Tests run on one target, mostly with one set of build settings.", "anchors": ["ordinal-map/src/ordinal/impls/primitive.rs:1-110", "ordinal-map/src/ordinal/impls/non_zero.rs:1-165", "ordinal-map/src/ordinal/impls/char.rs:1-34", "ordinal-map/src/ordinal/impls/std.rs:1-53", "ordinal-map/src/ordinal/impls/array.rs:1-60", "ordinal-map-derive/src/ordinal.rs:1-541"]}
{"id": "C100", "title": "The ordinal of a value is its rank, and no other numbering agrees with Ord", "statement": "For every type built from the provided impls and derives without explicit discriminants, the ordinal of a value is the number of values that Rust's < puts before it; and every implementation of Ordinal for the type that obeys the law and agrees with < has the same size and numbers the values in the same way. (For enums with explicit discriminants < follows the discriminants and the ordinal does not, so the rank may differ.)", "quantifier": "all types built from the provided impls and derives (any nesting), all configurations, all values, all other implementations", "why_tests_cant": "Tests compare single ordinals with constants; they cannot range over other implementations.", "anchors": ["ordinal-map/src/ordinal/traits.rs:1-104", "ordinal-map-derive/src/ordinal.rs:1-541"]}
{"id": "C101", "title": "Collecting from an iterator is collecting the list of its elements, whatever the implementation", "statement": "For every implementation of Ordinal, lawful or not, and every iterator of the caller: from_iter of OrdinalMap, OrdinalArrayMap, OrdinalSet, OrdinalArraySet and OrdinalSet64 makes of an iterator that ends what it makes of the list of its elements, and asks for nothing after the end; a panic of the iterator reaches the caller after the elements before it have been inserted; if inserting an element panics (because ordinal does, for instance), that panic reaches the caller and the iterator is not asked for another element; if the empty collection cannot be made the iterator is not asked at all; and if neither the iterator nor an insertion ever fails or ends, the loop does not end.", "quantifier": "all key types and implementations of Ordinal, all stateful iterators (that may panic, never end, or resume after their end), all configurations; maps: values without a destructor that panics (C78 has those)", "why_tests_cant": "Tests collect from vectors with lawful keys.", "anchors": ["ordinal-map/src/map/map.rs:154-162", "ordinal-map/src/map/array_map.rs:166-174", "ordinal-map/src/set/set.rs:95-103", "ordinal-map/src/set/array.rs:86-94", "ordinal-map/src/set/set64.rs:141-149"]}
{"id": "C102", "title": "Values are neither lost nor duplicated, whatever the implementation of Ordinal", "statement": "In every program of calls on a map, each call inside its own catch_unwind and with any implementation of Ordinal (lawful or not, and possibly another one in each call), the values balance, call by call and in sum: the values in the map before a call together with those given to it are, as a multiset, the values taken out of the map (returned, or replaced through a reference), the values dropped, and the values in the map after it. Which values are given, taken and dropped is said for every operation and every result: insert, get_mut, remove and the entry operations drop nothing; clear and a finished drain leave nothing; retain drops exactly the values for which the closure said false; a call that panics takes and drops nothing, except clear and drain (values already taken out are dropped) and retain (which has treated a first part of the values). Collecting puts each value into the map or drops it, and an owning iterator hands out each value or still holds it.", "quantifier": "all key and value types, all implementations of Ordinal, all maps (OrdinalMap, OrdinalArrayMap, OrdinalTotalMap, OrdinalTotalArrayMap), all programs that do not abort, all schedules of iterators, all configurations", "why_tests_cant": "Tests look at the results of lawful keys; a lost or doubled value under a colliding or panicking ordinal is a leak or a double drop that no assertion looks at.", "anchors": ["ordinal-map/src/map/map.rs:44-150", "ordinal-map/src/map/array_map.rs:40-165", "ordinal-map/src/map/entry.rs:5-70", "ordinal-map/src/map/iter.rs:268-312", "ordinal-map/src/map/total/map.rs:60-150", "ordinal-map/src/map/total/array_map.rs:80-200"]}
{"id": "C103", "title": "The public types are Send, Sync and Unpin exactly when what they hold allows it", "statement": "For all key and value types: a collection, owning iterator, set, AtomicOrdinal or OrdinalValues is Send (Sync) iff K and V are; a shared iterator (Iter, Keys, Values, total::Iter) is Send iff K is Send and V is Sync, and Sync iff both are Sync; an iterator with exclusive access (IterMut, ValuesMut, Drain, total::IterMut) or an entry is Send (Sync) iff K and V are. Unpin asks only for what is stored inline: K always, V for the array maps and the owning iterators.", "quantifier": "all 26 types that clients can get hold of, all key and value types (any combination of the three traits, and types made of them), all lifetimes and lengths", "why_tests_cant": "Auto traits are decided by the compiler from private fields; no test of the crate asks for them, and a change of a PhantomData would go unnoticed until a client's program stops compiling.", "anchors": ["ordinal-map/src/atomic.rs:35-38", "ordinal-map/src/values.rs:20-23", "ordinal-map/src/map/map.rs:27-31", "ordinal-map/src/map/array_map.rs:39-41", "ordinal-map/src/map/entry.rs:3-27", "ordinal-map/src/map/iter.rs:11-13", "ordinal-map/src/map/iter.rs:268-270", "ordinal-map/src/map/total/iter.rs:14-16", "ordinal-map/src/map/enumerate.rs:5-9", "ordinal-map/src/set/set.rs:13-29", "ordinal-map/src/set/set64.rs:74-77", "ordinal-map/src/set/iter.rs:8-11"]}
{"id": "C104", "title": "Which instances of a public type are subtypes of which", "statement": "For all lifetimes, lengths, key and value types, an instance of a public type is a subtype of another instance iff: its lifetime (if it has one) outlives the other's; the lengths (if any) are equal; its key type is a subtype of the other's; and its value type is a subtype of the other's, in both directions for the types that lend values exclusively (IterMut, ValuesMut, Drain, total::IterMut, Entry, OccupiedEntry, VacantEntry). So collections, shared and owning iterators are covariant, and no public type is invariant in its key type (AtomicOrdinal included).", "quantifier": "all 26 types that clients can get hold of, all outlives relations between lifetimes, all subtype relations between client types and types made of them", "why_tests_cant": "Variance is computed by the compiler from private fields; a test would have to be a program that must, or must not, compile.", "anchors": ["ordinal-map/src/atomic.rs:35-38", "ordinal-map/src/map/map.rs:27-31", "ordinal-map/src/map/entry.rs:3-27", "ordinal-map/src/map/iter.rs:11-13", "ordinal-map/src/map/iter.rs:70-72", "ordinal-map/src/map/iter.rs:268-270", "ordinal-map/src/map/total/iter.rs:69-71", "ordinal-map/src/map/enumerate.rs:5-9"]}
{"id": "C105", "title": "What maps and sets do does not depend on the target or the build settings", "statement": "For every implementation of Ordinal, lawful or not, and every program that calls the operations and catches panics: maps of all four kinds and their iterators, retain and map give the same results, the same panics and the same object on every target and with every setting of overflow checks and debug assertions (sizes being within usize). So do OrdinalArraySet, OrdinalSet unless the type has no values and debug assertions differ, or has more than usize::MAX - 64 values and the widths differ, and OrdinalSet64 unless the type has no values and debug assertions differ, or an ordinal is 64 or more and overflow checks differ; OrdinalSet64::all differs exactly for 64 values if overflow checks differ. A run of a set with all checks on in which none fails is the same run in every build for the target.", "quantifier": "all pairs of configurations, all implementations of Ordinal (for maps, another one at each call), all programs with caught panics, all schedules of iterators, all states of user code", "why_tests_cant": "Tests run in one build on one target with the implementations they have; the claim compares all pairs of builds for all implementations.", "anchors": ["ordinal-map/src/map/enumerate.rs:24-54", "ordinal-map/src/map/map.rs:33-240", "ordinal-map/src/map/array_map.rs:24-180", "ordinal-map/src/map/total/map.rs", "ordinal-map/src/map/total/array_map.rs", "ordinal-map/src/set/set.rs:64-80", "ordinal-map/src/set/set_ref.rs:14-40", "ordinal-map/src/set/set_mut.rs:12-40", "ordinal-map/src/set/set64.rs:20-163"]}
{"id": "C106", "title": "Which public types may cross catch_unwind", "statement": "For all key and value types: every set, AtomicOrdinal, OrdinalValues and set iterator is UnwindSafe (RefUnwindSafe) iff the key type is; a collection is UnwindSafe (RefUnwindSafe) iff K and V are; a shared iterator (Iter, Keys, Values, total::Iter) is UnwindSafe iff K is UnwindSafe and V is RefUnwindSafe; an iterator with exclusive access (IterMut, ValuesMut, Drain, total::IterMut) or an entry never is UnwindSafe; the owning iterators of the array maps are iff K and V are, those of the heap maps iff K and V are and V is RefUnwindSafe too. Every type holding values is RefUnwindSafe iff K and V are.", "quantifier": "all 26 types that clients can get hold of, all key and value types (any combination of the traits, and types made of them), all lifetimes and lengths", "why_tests_cant": "Auto traits are decided by the compiler from private fields; a test can only check single instances, and none of the crate's tests does.", "anchors": ["ordinal-map/src/atomic.rs:35-38", "ordinal-map/src/values.rs:20-23", "ordinal-map/src/map/map.rs:27-31", "ordinal-map/src/map/array_map.rs:39-41", "ordinal-map/src/map/entry.rs:3-27", "ordinal-map/src/map/iter.rs:268-270", "ordinal-map/src/map/iter.rs:374-376", "ordinal-map/src/map/total/iter.rs:171-173", "ordinal-map/src/set/set.rs:13-29"]}
{"id": "C107", "title": "With destructors that panic, every value is destroyed at most once and none is lost", "statement": "For every program of calls on a map, each inside its own catch_unwind, with any implementations of Ordinal and with destructors that may panic (depending on everything destroyed before): the values whose destructor was started are exactly those the account of each call names (the argument of an insert or or_insert that panics, the unused value of or_insert, what clear or an unleaked Drain removes and what the client had taken from a Drain that panics, what retain rejects, the old values when a clone is assigned), and values held + given = taken + destroyed + still held, call by call and in sum. Only insert, clear, drain and assigning a clone can abort the process by a second panic, and even then no destructor has been started twice.", "quantifier": "all programs of operations on the four maps, all Ordinal implementations (changing from call to call), all destructors, all values, all configurations", "why_tests_cant": "No test has a value with a panicking destructor or a panicking Ordinal implementation; double drops and leaks do not show in results at all.", "anchors": ["ordinal-map/src/map/map.rs:86-96", "ordinal-map/src/map/map.rs:142-144", "ordinal-map/src/map/array_map.rs:85-100", "ordinal-map/src/map/array_map.rs:140-156", "ordinal-map/src/map/entry.rs:83-88", "ordinal-map/src/map/iter.rs:278-282", "ordinal-map/src/map/total/map.rs:107-109", "ordinal-map/src/map/total/array_map.rs:185-187"]}
{"id": "C108", "title": "From collecting a map to destroying it, every value is handed back or destroyed exactly once", "statement": "With destructors that may panic: collecting into a map puts every value into the map or destroys it, and destroys all of them if it panics; try_new of a total map returns what init made, or destroys all of it when init fails or panics - except that the array builder, when a destructor panics, leaks the values after that one; an owning iterator hands out, destroys or still holds every value, also when calls panic. So over a whole life (collect or try_new, any program of calls, into_iter, destruction of the iterator) that does not abort, the values given are a permutation of those handed back and those destroyed, and distinct values are destroyed at most once.", "quantifier": "all lists of entries, all init functions with state that may fail or panic, all programs, all schedules of next/next_back, all Ordinal implementations, all destructors", "why_tests_cant": "Destructors, let alone panicking ones, do not occur in the tests; the leak of the builder needs a panic in a destructor while an init function fails.", "anchors": ["ordinal-map/src/map/map.rs:154-162", "ordinal-map/src/map/array_map.rs:166-174", "ordinal-map/src/map/total/map.rs:27-36", "ordinal-map/src/map/total/array_map.rs:51-61", "ordinal-map/src/array_builder.rs:14-58", "ordinal-map/src/map/enumerate.rs:25-53", "ordinal-map/src/map/iter.rs:336-414"]}
{"id": "C109", "title": "What programs observe when destructors panic and keys lose their ordinals", "statement": "Take a lawful key type, and a program that makes every call of a map inside catch_unwind, where ordinal may panic on some keys (others in each call) and the destructor of any value may panic at any time. Then every result and panic the program sees, the order in which destructors are started, and the contents of the map afterwards are exactly those of the mathematical map: a call whose key has no ordinal changes nothing; clear() and a dropped drain() stop at the first destructor that panics and the entries not reached stay in the map; retain has removed the entry whose destructor panicked and has decided about no later entry; or_insert on an occupied key whose unused value panics changes nothing; the assignment of a clone takes effect though old values panic. The process aborts exactly when a second destructor panics while the first panic unwinds.", "quantifier": "all lawful key types, all programs (lists of calls with their implementations of Ordinal, each a panicking version of the lawful one), all value types and all destructor behaviours (depending on everything destroyed before), all four maps, all targets and builds; contains_key of OrdinalMap excepted (C27)", "why_tests_cant": "A test fixes one program and one pattern of panics; this holds for every interleaving of panicking keys and destructors, including those that abort the process, which a test cannot survive.", "anchors": ["ordinal-map/src/map/map.rs:74-102", "ordinal-map/src/map/map.rs:142-144", "ordinal-map/src/map/array_map.rs:85-100", "ordinal-map/src/map/array_map.rs:140-156", "ordinal-map/src/map/entry.rs:83-88", "ordinal-map/src/map/iter.rs:278-309", "ordinal-map/src/map/total/map.rs:107-109", "ordinal-map/src/map/total/array_map.rs:185-187"]}
{"id": "C110", "title": "What is destroyed, and in which order, when collecting, making and taking apart maps panics", "statement": "With destructors, ordinal, from_ordinal and init functions that may panic: collecting inserts entry after entry, destroys replaced values at once, and when something panics destroys the value not inserted, then the values not reached, then those in the unfinished map in the order of the keys; try_new calls init on the keys in order and when it fails or panics destroys what was made, in order - all of it in a heap map, up to the first destructor that panics in an array; an owning iterator destroys exactly the value whose key could not be made, and when this happens at the front the keys of all later values are one ordinal lower; destroying an iterator destroys what it did not hand out, in the order of the keys. Each of these returns, panics or aborts exactly as the specification says, so the whole life of a map (collect, any program of calls, into_iter, destruction) is determined by the mathematical map.", "quantifier": "all lists of entries, all stateful init functions, all schedules of next/next_back with any from_ordinal that returns or panics in each call, all programs, all destructor behaviours (depending on everything destroyed before), all lawful key types and their panicking versions, all four maps, all targets and builds", "why_tests_cant": "The order of destruction during unwinding, the leak of the array builder and the shift of keys after a caught panic are invisible to tests with plain values and cannot be enumerated over all panic patterns; aborts end the test process.", "anchors": ["ordinal-map/src/map/map.rs:154-162", "ordinal-map/src/map/array_map.rs:166-174", "ordinal-map/src/map/total/map.rs:27-36", "ordinal-map/src/map/total/array_map.rs:51-61", "ordinal-map/src/array_builder.rs:14-58", "ordinal-map/src/map/enumerate.rs:25-53", "ordinal-map/src/map/iter.rs:336-414"]}
{"id": "C111", "title": "What programs observe when the destructors of keys panic, too", "statement": "As C109 for OrdinalMap and OrdinalArrayMap, with keys whose destructors may panic as well: every result and panic the program sees, the keys and values destroyed and their order, and the contents of the map afterwards are exactly those of the mathematical map together with the set of keys it has slots for. insert and entry destroy the key they were given, insert after the call has taken effect (so the new value stays when that panics); or_insert destroys the key and then the unused value, and has stored the value of a vacant entry before; len, {:?}, is_empty and the iterators make the key of each slot they pass and destroy those nobody gets; a Drain that is destroyed destroys key and value of every remaining slot up to the first panic and leaves the rest in the map; retain keeps the edited value of the key whose destructor panicked. The process aborts exactly when a second destructor panics while the first panic unwinds.", "quantifier": "all lawful key types and their panicking versions (another in each call), all programs (lists of calls inside catch_unwind), all behaviours of destructors of keys and values (depending on everything destroyed before), compilers that destroy or leak the result of a function whose locals panic, both maps, all targets and builds; contains_key of OrdinalMap excepted (C27)", "why_tests_cant": "Keys are made and destroyed implicitly in every pass over the slots; a test fixes one program and one pattern of panics and cannot observe the cases that abort.", "anchors": ["ordinal-map/src/map/map.rs:74-160", "ordinal-map/src/map/array_map.rs:85-160", "ordinal-map/src/map/iter.rs:26-50", "ordinal-map/src/map/iter.rs:89-113", "ordinal-map/src/map/iter.rs:188-282", "ordinal-map/src/map/entry.rs:22-90", "ordinal-map/src/map/enumerate.rs:25-53"]}
{"id": "C112", "title": "AtomicOrdinal with any implementation of Ordinal, panics included", "statement": "Whatever ordinal and from_ordinal do (as long as they return or panic, differently or wrongly for any value, with any number stored), an AtomicOrdinal is one shared number: every concurrent execution is explained by a single order of its calls, respecting real time, in which each call takes effect at once on the number the previous one left (under weak memory: on some number written before), store writes ordinal(value), compare_exchange compares and writes numbers, load and {:?} hand out from_ordinal of the number they found. A call panics before it takes effect exactly on an argument whose ordinal panics or, failing that, on orderings the standard library rejects; or after it took effect exactly when from_ordinal of the number it found panics or is None, and then its write stays. A thread that panicked does nothing more and never holds up the others: every thread given three turns per call has finished or panicked. No execution has undefined behaviour.", "quantifier": "all types, all implementations of Ordinal (lawful or not) whose functions return or panic, all initial numbers, any number of threads, all programs, all interleavings, sequentially consistent and weak memory", "why_tests_cant": "The executions are unboundedly many interleavings of an arbitrary implementation; a test sees one schedule of one lawful type.", "anchors": ["ordinal-map/src/atomic.rs:40-84", "ordinal-map/src/ordinal/traits.rs:1-20"]}
{"id": "C113", "title": "What programs observe of sets when the destructors of elements panic", "statement": "As C111, for the three sets: every result and panic the program sees, the elements destroyed and their order, and the contents of the set afterwards are exactly those of the mathematical set together with the elements made on the way. insert destroys the element it was given, after it has been added (so it stays when that panics); collecting destroys each element once its ordinal is known, and after a panic the elements left, and the old set is replaced only if collecting succeeds; the iterators of OrdinalSet and {:?} of all three make every element, members or not, ask for its ordinal and destroy those nobody gets, while the iterator of OrdinalSet64 makes the members only and asks for no ordinal. A panic in the middle of an iteration destroys what the client holds; the iterator had moved past the element. The process aborts exactly when a second destructor panics while the first panic unwinds. If nothing panics, this is the mathematical set of C50, C51 and C52.", "quantifier": "all lawful element types and their panicking versions (another in each call), all programs (lists of calls inside catch_unwind), all behaviours of destructors (depending on everything destroyed before), the three sets, all targets and builds, with the limits on the size of the type of C50 and C52", "why_tests_cant": "Elements are made and destroyed implicitly in every pass over the set; a test fixes one program and one pattern of panics and cannot observe the cases that abort.", "anchors": ["ordinal-map/src/set/set.rs:64-102", "ordinal-map/src/set/array.rs:58-93", "ordinal-map/src/set/set64.rs:11-50", "ordinal-map/src/set/set64.rs:110-148", "ordinal-map/src/set/iter.rs:24-51", "ordinal-map/src/set/set_ref.rs:30-57"]}
{"id": "C114", "title": "Total maps, collecting and taking maps apart when the destructors of keys and values panic", "statement": "As C109 and C110 for total maps, from_iter and into_iter, with keys whose destructors may panic as well: every result and panic the program sees, the keys and values destroyed and their order, and what is left are exactly those of the mathematical map. insert of a total map destroys the key after the new value is stored (which stays when that panics; the replaced value is then destroyed or leaked, as the compiler does); {:?} makes and destroys all keys up to the first panic; the other calls give every key they make to the client. Collecting destroys each key and then the value it replaces, and on a panic the entries not yet reached and then the values of the unfinished map. An owning iterator of a sparse map destroys the key of every empty slot it passes, and continues after it in the next call if that panics; a value whose key cannot be made is destroyed; destroying the iterator destroys the values left. The process aborts exactly when a second destructor panics while the first panic unwinds. The three parts compose to the whole life of a sparse map.", "quantifier": "all lawful key types and their panicking versions (another in each call; for owning iterators any from_ordinal that returns or panics), all programs (lists of calls inside catch_unwind), all vectors of entries, all behaviours of destructors of keys and values (depending on everything destroyed before), compilers that destroy or leak the result of a function whose locals panic, the four maps, all targets and builds; contains_key of OrdinalMap excepted (C27)", "why_tests_cant": "Keys are made and destroyed implicitly; a test fixes one program and one pattern of panics and cannot observe the cases that abort.", "anchors": ["ordinal-map/src/map/total/map.rs:107-145", "ordinal-map/src/map/total/array_map.rs:185-223", "ordinal-map/src/map/map.rs:154-162", "ordinal-map/src/map/array_map.rs:166-174", "ordinal-map/src/map/iter.rs:336-414", "ordinal-map/src/map/total/iter.rs:138-213", "ordinal-map/src/map/enumerate.rs:25-53"]}
{"id": "C115", "title": "Making and mapping total maps when callbacks and destructors of keys, values and results panic", "statement": "For map, map_values and as_ref of OrdinalTotalArrayMap and for try_new and default of both total maps, with callbacks that are arbitrary client code (they own their arguments, have a state, destroy things, return, fail, panic or abort) and with destructors that may panic: which keys, values and results the library destroys, in which order, and the map, error, panic or abort that results are exactly these. The callback is called on the keys in order of their ordinals. If it panics, or the key of a value cannot be made, that value, the values not yet reached and then the results so far are destroyed, in order. map_values, default and as_ref destroy each key after the callback (the result is then destroyed or leaked, as the compiler does, if that panics). When init fails, the vector of the heap map destroys all results; the array builder stops at the first destructor that panics and leaks the rest. The process aborts exactly when a second destructor panics while the first panic unwinds, or the callback aborts.", "quantifier": "map and map_values: all implementations of Ordinal whose from_ordinal returns or panics; otherwise all lawful key types (for as_ref also with an ordinal that panics on some keys); all callbacks and their states, all lengths, all contents, all behaviours of destructors (depending on everything destroyed before), all targets and builds", "why_tests_cant": "A test fixes one callback and one pattern of panics and cannot observe the cases that abort.", "anchors": ["ordinal-map/src/map/total/array_map.rs:51-70", "ordinal-map/src/map/total/array_map.rs:102-104", "ordinal-map/src/map/total/array_map.rs:123-133", "ordinal-map/src/map/total/array_map.rs:213-217", "ordinal-map/src/map/total/map.rs:27-44", "ordinal-map/src/map/total/map.rs:112-116", "ordinal-map/src/array_from_iter.rs:3-12", "ordinal-map/src/array_builder.rs:14-58"]}
{"id": "C116", "title": "AtomicOrdinal with values whose destructors panic", "statement": "For new, load, store, compare_exchange and {:?} of AtomicOrdinal, with values that have destructors that may panic: a call destroys the values it was given when it returns or panics (compare_exchange the new value before the old one), {:?} the value it has printed, and nothing else. If one of these destructors panics on return, the call panics, and the others and the result (or not the result, as the compiler does) are destroyed while unwinding; a second panic aborts the process. Unless the process aborts, every value given to a call or made by it is destroyed exactly once or returned. What the call writes does not depend on destructors: a store or exchange that panics because of one has taken place.", "quantifier": "all implementations of Ordinal whose functions return or panic, all behaviours of destructors (depending on everything destroyed before) and of Debug, all calls and orderings, all contents of the cell, all programs that catch panics and go on while other threads change the cell between calls", "why_tests_cant": "The tests use values without destructors, and a test cannot observe an abort.", "anchors": ["ordinal-map/src/atomic.rs:40-45", "ordinal-map/src/atomic.rs:50-55", "ordinal-map/src/atomic.rs:58-60", "ordinal-map/src/atomic.rs:63-65", "ordinal-map/src/atomic.rs:68-84"]}
{"id": "C117", "title": "What from_ordinal of structs, tuples and enums destroys", "statement": "The from_ordinal of tuples and of derived structs and enums, with fields that have destructors that may panic: if the fields obey the law of Ordinal, a number in range destroys nothing, and for a number o out of range a struct or tuple with n > 0 values makes all fields of its value number o mod n and destroys them, from the first field to the last, before it returns None. An enum makes and destroys nothing for a number out of range, with any fields. If the from_ordinal of a field panics or returns None, the fields after it, which are made before it, are destroyed from the first, and nothing else. A panic of one of these destructors is the panic of the call, and a second panic aborts the process. Unless a destructor panics, the result is the one without destructors.", "quantifier": "all structs, tuples and enums that compile, all field types with any from_ordinal that returns, returns None or panics, all behaviours of destructors (depending on everything destroyed before), all numbers", "why_tests_cant": "The tests use fields without destructors, and a test cannot observe an abort.", "anchors": ["ordinal-map-derive/src/ordinal.rs:260-303", "ordinal-map-derive/src/ordinal.rs:439-480", "ordinal-map-derive/src/ordinal.rs:54-59", "ordinal-map-derive/src/ordinal.rs:524-528"]}
{"id": "C118", "title": "What from_ordinal of arrays destroys and leaks", "statement": "The from_ordinal of [T; N], with elements that have destructors that may panic: if T obeys the law of Ordinal, a number in range destroys nothing, and for a number o out of range an array type with n > 0 values makes all elements of its value number o mod n and destroys them, from the last to the first, before it returns None; if a destructor panics, this is the panic of the call, and the elements before are leaked (neither destroyed nor returned; tuples destroy all fields, from the first). If the from_ordinal of an element panics or returns None, the elements after it, which are made before it, are destroyed from the last, and nothing else; a second panic then aborts the process. Unless a destructor panics, the result is the one without destructors.", "quantifier": "all lengths, all element types with any from_ordinal that returns, returns None or panics, all behaviours of destructors (depending on everything destroyed before), all numbers", "why_tests_cant": "The tests use elements without destructors, and a test cannot observe an abort or a leak.", "anchors": ["ordinal-map/src/ordinal/impls/array.rs:24-41", "ordinal-map/src/array_builder.rs:14-22", "ordinal-map/src/array_builder.rs:32-58"]}
{"id": "C119", "title": "from_ordinal of structs, tuples, enums and arrays runs the from_ordinal of parts in a fixed order", "statement": "Let the from_ordinal of fields and elements be any code of the client: it has a state, may destroy values itself, may answer differently in every call, panic or abort. Then from_ordinal of a struct, tuple or array calls it once for each part, from the last part to the first, with the digits of the number, and for an enum once for each field of the variant of the number; no call is made if there are no values, and none after a call that returned None, panicked or aborted. After a panic or None the parts made so far are destroyed and nothing else; after the last call, if the number is out of range, all parts of a struct or tuple are destroyed, from the first, and those of an array from the last and up to a panic. Nothing else is done to the state of the client, and the value holds exactly the parts returned by the calls.", "quantifier": "all types of fields with any from_ordinal as stated, all structs, tuples and enums whose size is computed without overflow, all arrays, all behaviours of destructors, all states, all numbers", "why_tests_cant": "The tests use fields whose from_ordinal is a function without effects and values without destructors.", "anchors": ["ordinal-map-derive/src/ordinal.rs:54-59", "ordinal-map-derive/src/ordinal.rs:260-303", "ordinal-map-derive/src/ordinal.rs:439-480", "ordinal-map-derive/src/ordinal.rs:524-528", "ordinal-map/src/ordinal/impls/array.rs:24-41"]}
