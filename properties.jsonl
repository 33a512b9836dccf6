{"id": "C01", "title": "Map behaves as a finite map over any history", "statement": "Starting from Map::new(), after any sequence of insert, remove, get, get_mut+write, contains_key, len, is_empty, clear, retain, iteration and entry operations, every returned value is the one a plain mathematical finite map would return for the same sequence, and the final contents agree.", "quantifier": "every key type that can be built from bool, (), Option<_>, the primitive hash-backed keys and #[derive(Key)] enums (any number of variants, any nesting depth), every value type, every finite sequence of operations with every argument", "why_tests_cant": "Histories, key types and nesting are unbounded; a test only runs particular sequences on particular enums.", "anchors": ["src/map.rs: Map::{new,insert,remove,get,get_mut,contains_key,len,is_empty,clear,retain,iter,entry}", "src/map/storage/*.rs", "fixed-map-derive/src/{unit_variants,any_variants}.rs"]}
{"id": "C02", "title": "insert returns the previous value and touches only its key", "statement": "map.insert(k, v) returns exactly what map.get(k) returned before; afterwards map.get(k) is Some(v) and map.get(k') is unchanged for every k' != k.", "quantifier": "every key type that can be built from bool, (), Option<_>, the primitive hash-backed keys and #[derive(Key)] enums (any number of variants, any nesting depth); every reachable map, every key and value", "why_tests_cant": "The frame condition ranges over all other keys, including infinitely many u32/&str keys, and all nestings.", "anchors": ["src/map.rs: Map::insert, Map::get", "src/map/storage/{singleton,boolean,option,hashbrown}.rs: insert", "fixed-map-derive/src/any_variants.rs: impl_map_storage insert", "fixed-map-derive/src/unit_variants.rs: impl_map insert"]}
{"id": "C03", "title": "remove returns the value and removes exactly its key", "statement": "map.remove(k) returns exactly what map.get(k) returned before; afterwards map.get(k) is None and map.get(k') is unchanged for every k' != k.", "quantifier": "every key type that can be built from bool, (), Option<_>, the primitive hash-backed keys and #[derive(Key)] enums (any number of variants, any nesting depth); every reachable map, every key", "why_tests_cant": "Same: all keys, all states.", "anchors": ["src/map.rs: Map::remove", "src/map/storage/*.rs: remove", "fixed-map-derive/src/{unit_variants,any_variants}.rs: remove"]}
{"id": "C04", "title": "contains_key, get and iteration agree", "statement": "map.contains_key(k) is true iff map.get(k) is Some, and map.get(k) is Some(v) iff map.iter() yields (k, v).", "quantifier": "every key type that can be built from bool, (), Option<_>, the primitive hash-backed keys and #[derive(Key)] enums (any number of variants, any nesting depth); every reachable map, every key and value", "why_tests_cant": "Quantifies over all keys and reachable states of independently written match arms.", "anchors": ["src/map.rs: Map::{contains_key,get,iter}", "src/map/storage/*.rs", "fixed-map-derive/src/any_variants.rs: map_storage_iter"]}
{"id": "C05", "title": "Map len and is_empty count the entries", "statement": "map.len() equals the number of items map.iter() yields, which is the number of distinct keys present; map.is_empty() is true iff map.len() is 0.", "quantifier": "every key type that can be built from bool, (), Option<_>, the primitive hash-backed keys and #[derive(Key)] enums (any number of variants, any nesting depth); every reachable map", "why_tests_cant": "All states of all nestings; each storage computes len and is_empty separately from iteration.", "anchors": ["src/map.rs: Map::{len,is_empty,iter}", "src/map/storage/*.rs: len, is_empty"]}
{"id": "C06", "title": "Map iteration yields each entry exactly once in declaration order", "statement": "map.iter() yields no key twice, yields exactly the entries present, and yields them in the documented order: enum variants in declaration order, nested keys grouped under their variant, true before false, Some(_) before None; only keys of one hash-backed leaf may come in arbitrary relative order. In particular, the sequence of a hash-free key type is independent of the insertion history.", "quantifier": "every key type that can be built from bool, (), Option<_>, the primitive hash-backed keys and #[derive(Key)] enums (any number of variants, any nesting depth); every reachable map, every bucket order the hash table may choose", "why_tests_cant": "Order and no-duplication must hold for every subset of present keys, every nesting and every hash order.", "anchors": ["src/map.rs: Map::iter", "src/key.rs: Key (Ordering)", "src/map/storage/{boolean,option}.rs: iter", "fixed-map-derive/src/any_variants.rs: map_storage_iter, IteratorNext"]}
{"id": "C07", "title": "keys() yields exactly the keys present", "statement": "map.keys() yields the keys of the entries yielded by map.iter(), in the same order.", "quantifier": "every key type that can be built from bool, (), Option<_>, the primitive hash-backed keys and #[derive(Key)] enums (any number of variants, any nesting depth); every reachable map", "why_tests_cant": "Needs all states including empty sub-maps of every nested key type.", "anchors": ["src/map.rs: Map::keys", "src/map/storage/singleton.rs: keys", "src/map/storage/boolean.rs: Keys", "fixed-map-derive/src/any_variants.rs: map_storage_keys"]}
{"id": "C08", "title": "values() and into_iter() agree with iter()", "statement": "map.values() yields the values of map.iter() in the same order; map.into_iter() yields the same pairs as map.iter() in the same order.", "quantifier": "every key type that can be built from bool, (), Option<_>, the primitive hash-backed keys and #[derive(Key)] enums (any number of variants, any nesting depth); every reachable map", "why_tests_cant": "Six separately generated iterators must agree in every state.", "anchors": ["src/map.rs: Map::{values,into_iter}", "fixed-map-derive/src/any_variants.rs: map_storage_values, map_storage_into_iter"]}
{"id": "C09", "title": "Double-ended iteration is a deque", "statement": "For every map and set iterator that is double-ended, any interleaving of next() and next_back() yields what popping the front/back of the one fixed sequence would yield: no element is skipped, repeated or reordered, and after exhaustion every further call returns None. Iterators that are forward-only satisfy this for every number of next() calls.", "quantifier": "every key type that can be built from bool, (), Option<_>, the primitive hash-backed keys and #[derive(Key)] enums (any number of variants, any nesting depth); every reachable map or set, every finite sequence of next/next_back calls of any length", "why_tests_cant": "The interleavings are exponentially many and unbounded; the generated start/end cursor machines meet in the middle of a nested field.", "anchors": ["fixed-map-derive/src/any_variants.rs: IteratorNext, IteratorNextBack, build_iter_next", "src/map/storage/boolean.rs: Keys::{next,next_back}", "src/set/storage/boolean.rs: Iter::{next,next_back}"]}
{"id": "C10", "title": "Mutable iteration hands out disjoint references to exactly the entries", "statement": "map.iter_mut() and map.values_mut() yield, in the order of iter(), one reference per entry; no two references alias, reading the reference yielded with key k gives map.get(k), and writing through it changes map.get(k) to the written value and nothing else. This also holds when several references are held at once and written in any order.", "quantifier": "every key type that can be built from bool, (), Option<_>, the primitive hash-backed keys and #[derive(Key)] enums (any number of variants, any nesting depth); every reachable map, every subset and order of writes", "why_tests_cant": "Aliasing and frame conditions over all references and all nestings.", "anchors": ["src/map.rs: Map::{iter_mut,values_mut}", "fixed-map-derive/src/any_variants.rs: map_storage_iter_mut, map_storage_values_mut", "fixed-map-derive/src/unit_variants.rs: iter_mut, values_mut"]}
{"id": "C11", "title": "get_mut aliases exactly the entry of its key", "statement": "map.get_mut(k) is Some iff map.contains_key(k); reading it gives map.get(k); writing w through it makes map.get(k) = Some(w) and leaves every other key and the key set unchanged.", "quantifier": "every key type that can be built from bool, (), Option<_>, the primitive hash-backed keys and #[derive(Key)] enums (any number of variants, any nesting depth); every reachable map, key and written value", "why_tests_cant": "Frame condition over all keys and states.", "anchors": ["src/map.rs: Map::get_mut", "src/map/storage/*.rs: get_mut"]}
{"id": "C12", "title": "Map retain calls the predicate once per entry and keeps exactly the accepted ones", "statement": "map.retain(f) calls the (stateful, value-mutating) closure exactly once for each entry present, in iteration order, threading its state; afterwards the map contains exactly the entries for which it answered true, with the values the closure left behind.", "quantifier": "every key type that can be built from bool, (), Option<_>, the primitive hash-backed keys and #[derive(Key)] enums (any number of variants, any nesting depth); every reachable map, every stateful FnMut closure", "why_tests_cant": "Quantifies over all closures (functions with hidden state).", "anchors": ["src/map.rs: Map::retain", "src/map/storage/*.rs: retain", "fixed-map-derive/src/{unit_variants,any_variants}.rs: retain"]}
{"id": "C13", "title": "Map retain is panic-consistent", "statement": "If the closure given to Map::retain unwinds at any call, the map is left with exactly: accepted earlier entries (with their new values), no rejected entries, the entry being visited, and all unvisited entries unchanged; if instead the destructor of a rejected value unwinds, the same holds except that the rejected entry is gone. The map stays fully usable.", "quantifier": "every key type that can be built from bool, (), Option<_>, the primitive hash-backed keys and #[derive(Key)] enums (any number of variants, any nesting depth); every reachable map, every closure, every crash point", "why_tests_cant": "All crash points of all closures and destructors.", "anchors": ["src/map/storage/*.rs: retain", "fixed-map-derive/src/{unit_variants,any_variants}.rs: retain"]}
{"id": "C14", "title": "new, default and clear give the empty map or set", "statement": "Map::new(), Map::default(), Set::new(), Set::default() and any map/set after clear() contain no key: get/contains is None/false for every key, len() is 0, iter() yields nothing.", "quantifier": "every key type that can be built from bool, (), Option<_>, the primitive hash-backed keys and #[derive(Key)] enums (any number of variants, any nesting depth); every reachable map or set, every key", "why_tests_cant": "All keys, all prior states.", "anchors": ["src/map.rs: Map::{new,clear}, Default", "src/set.rs: Set::{new,clear}, Default"]}
{"id": "C15", "title": "entry() classifies and names its key correctly", "statement": "map.entry(k) is Occupied iff map.contains_key(k), otherwise Vacant; creating an entry changes nothing; entry.key() (on Entry, OccupiedEntry and VacantEntry) returns k.", "quantifier": "every key type that can be built from bool, (), Option<_>, the primitive hash-backed keys and #[derive(Key)] enums (any number of variants, any nesting depth); every reachable map, every key", "why_tests_cant": "All keys and nestings; the key is reconstructed through nested wrappers and Default impls.", "anchors": ["src/map.rs: Map::entry", "src/map/entry.rs: Entry::key", "src/option_bucket.rs", "src/map/storage/{option,boolean,singleton,hashbrown}.rs: entry", "fixed-map-derive/src/any_variants.rs: map_storage_entry"]}
{"id": "C16", "title": "or_insert family inserts only when vacant", "statement": "entry(k).or_insert(d) / or_insert_with(f) / or_insert_with_key(f) / or_default() leave an existing value untouched (and never call f) and otherwise insert d / f() / f(k) / the default; they return a reference to the value now stored at k; all other keys are unchanged. and_modify(f) applies f exactly when occupied.", "quantifier": "every key type that can be built from bool, (), Option<_>, the primitive hash-backed keys and #[derive(Key)] enums (any number of variants, any nesting depth); every reachable map, key, default and closure", "why_tests_cant": "All closures, all states.", "anchors": ["src/map/entry.rs: Entry::{or_insert,or_insert_with,or_insert_with_key,or_default,and_modify}"]}
{"id": "C17", "title": "Occupied and vacant entry operations act on exactly their key", "statement": "OccupiedEntry get reads map.get(k); get_mut/into_mut alias it; insert(v) returns the old value and stores v; remove() returns the old value and removes k. VacantEntry insert(v) stores v at k and returns a reference to it. No other key changes.", "quantifier": "every key type that can be built from bool, (), Option<_>, the primitive hash-backed keys and #[derive(Key)] enums (any number of variants, any nesting depth); every reachable map, key, value", "why_tests_cant": "Frame condition over all keys, through nested entry enums.", "anchors": ["src/map/storage.rs: OccupiedEntry, VacantEntry", "src/option_bucket.rs: SomeBucket, NoneBucket", "fixed-map-derive/src/any_variants.rs: map_storage_entry"]}
{"id": "C18", "title": "The unsafe option-bucket code is never misused", "statement": "No safe use of the entry API ever reaches undefined behaviour: every unwrap_unchecked in the option buckets is executed on a Some, and the drop-skipping write is executed only on a None (so no stored value is leaked).", "quantifier": "every key type that can be built from bool, (), Option<_>, the primitive hash-backed keys and #[derive(Key)] enums (any number of variants, any nesting depth); every reachable map, every sequence of operations on an obtained entry", "why_tests_cant": "Absence of UB is a claim about all executions; a test with UB may pass.", "anchors": ["src/option_bucket.rs: SomeBucket::{as_ref,as_mut,into_mut,replace,take}, NoneBucket::insert, OptionBucket::new", "README.md: Unsafe use"]}
{"id": "C19", "title": "Map equality is extensional", "statement": "a == b iff for every key k, a.get(k) and b.get(k) are both None or both Some with equal values, whatever PartialEq the value type has; hence equality ignores history and hash order, and it is reflexive/symmetric/transitive whenever the value equality is.", "quantifier": "every key type that can be built from bool, (), Option<_>, the primitive hash-backed keys and #[derive(Key)] enums (any number of variants, any nesting depth); every pair of reachable maps, every value equality (even non-reflexive ones such as floats)", "why_tests_cant": "All pairs of states and all PartialEq implementations.", "anchors": ["src/map.rs: PartialEq for Map", "src/map/storage/*.rs: PartialEq", "fixed-map-derive/src/any_variants.rs: eq"]}
{"id": "C20", "title": "Clone copies every entry and is independent", "statement": "map.clone() has at every key the clone of the original's value and nothing else, in the same iteration order; with a faithful V::clone it equals the original; later operations on the clone behave as on the original. Same for Set.", "quantifier": "every key type that can be built from bool, (), Option<_>, the primitive hash-backed keys and #[derive(Key)] enums (any number of variants, any nesting depth); every reachable map or set, every clone function on values", "why_tests_cant": "All states.", "anchors": ["src/map.rs: Clone for Map", "src/set.rs: Clone for Set", "fixed-map-derive/src/any_variants.rs: clone"]}
{"id": "C21", "title": "Map ordering is the lexicographic order of the entries in declaration order", "statement": "For key enums with only unit variants, partial_cmp/cmp of two maps is the lexicographic comparison of their (variant, value) sequences in declaration order (as BTreeMap documents); cmp is a total order consistent with == when the values' is; partial_cmp agrees with cmp; lt, le, gt, ge, max, min, clamp are the corresponding derived operations.", "quantifier": "every unit-variant enum with any number of variants, every pair/triple of maps, every (partial) order on values", "why_tests_cant": "Transitivity/antisymmetry over all triples and all value orders.", "anchors": ["src/map.rs: PartialOrd, Ord for Map", "src/macro_support.rs: __storage_iterator_partial_cmp, __storage_iterator_cmp", "fixed-map-derive/src/unit_variants.rs: impl_map partial_cmp, cmp"]}
{"id": "C22", "title": "Equal maps and sets hash equally", "statement": "Whenever Hash is available for a map or set type, a == b implies that hashing a and b feeds the same data to the hasher (given that of the values).", "quantifier": "every key type with Hash-able storage, every pair of reachable maps/sets", "why_tests_cant": "All pairs of equal values reached by different histories.", "anchors": ["src/map.rs: Hash for Map", "src/set.rs: Hash for Set", "fixed-map-derive/src/unit_variants.rs: hash"]}
{"id": "C23", "title": "Collecting an iterator is last-wins insertion", "statement": "Map::from_iter(pairs) contains exactly the keys occurring in pairs, each with the value of its last occurrence; Set::from_iter / Set::from(array) contain exactly the listed values.", "quantifier": "every key type that can be built from bool, (), Option<_>, the primitive hash-backed keys and #[derive(Key)] enums (any number of variants, any nesting depth); every finite sequence of pairs, with any duplicates", "why_tests_cant": "All sequences.", "anchors": ["src/map.rs: FromIterator for Map", "src/set.rs: FromIterator for Set, From<[T; N]> for Set"]}
{"id": "C24", "title": "Serde round-trip", "statement": "Serializing a map announces exactly len() entries and emits exactly the entries of iter(); deserializing them yields an equal map; deserializing any entry sequence is last-wins; a failing input yields an error. Same for Set.", "quantifier": "every key type that can be built from bool, (), Option<_>, the primitive hash-backed keys and #[derive(Key)] enums (any number of variants, any nesting depth); every reachable map/set, every input sequence, every error position", "why_tests_cant": "All states and inputs.", "anchors": ["src/map.rs: Serialize, Deserialize for Map", "src/set.rs: Serialize, Deserialize for Set"]}
{"id": "C25", "title": "Set contents behave as a mathematical set over any history", "statement": "Starting from Set::new(), after any sequence of insert, remove, clear and contains, membership of every value is what a mathematical set would have; insert adds exactly its argument, remove removes exactly its argument.", "quantifier": "every key type that can be built from bool, (), Option<_>, the primitive hash-backed keys and #[derive(Key)] enums (any number of variants, any nesting depth); every finite sequence of operations", "why_tests_cant": "Unbounded histories, all values.", "anchors": ["src/set.rs: Set::{insert,remove,contains,clear}", "src/set/storage/*.rs", "fixed-map-derive/src/{unit_variants,any_variants}.rs: set storage"]}
{"id": "C26", "title": "Set::insert reports whether the value was new", "statement": "set.insert(x) returns true iff x was not present before the call (as documented).", "quantifier": "every key type that can be built from bool, (), Option<_>, the primitive hash-backed keys and #[derive(Key)] enums (any number of variants, any nesting depth); every reachable set, every value", "why_tests_cant": "Each storage computes the returned flag separately; needs all states and nested positions.", "anchors": ["src/set.rs: Set::insert", "src/set/storage/boolean.rs: insert", "src/set/storage/option.rs: insert", "fixed-map-derive/src/any_variants.rs: impl_set_storage insert"]}
{"id": "C27", "title": "Set::remove reports whether the value was present", "statement": "set.remove(x) returns true iff x was present before the call (as documented).", "quantifier": "every key type that can be built from bool, (), Option<_>, the primitive hash-backed keys and #[derive(Key)] enums (any number of variants, any nesting depth); every reachable set, every value", "why_tests_cant": "Same.", "anchors": ["src/set.rs: Set::remove", "src/set/storage/boolean.rs: remove"]}
{"id": "C28", "title": "Set len and is_empty count the elements", "statement": "set.len() equals the number of elements iterated; set.is_empty() is true iff set.len() is 0.", "quantifier": "every key type that can be built from bool, (), Option<_>, the primitive hash-backed keys and #[derive(Key)] enums (any number of variants, any nesting depth); every reachable set", "why_tests_cant": "All states of all nestings.", "anchors": ["src/set.rs: Set::{len,is_empty}", "src/set/storage/option.rs: is_empty"]}
{"id": "C29", "title": "Set::retain keeps exactly the accepted elements", "statement": "set.retain(f) calls the stateful predicate exactly once for each element present, in iteration order, and afterwards the set contains exactly the elements it accepted; it never adds an element.", "quantifier": "every key type that can be built from bool, (), Option<_>, the primitive hash-backed keys and #[derive(Key)] enums (any number of variants, any nesting depth); every reachable set, every stateful predicate", "why_tests_cant": "All predicates and states.", "anchors": ["src/set.rs: Set::retain", "src/set/storage/singleton.rs: retain", "src/set/storage/*.rs: retain", "fixed-map-derive/src/{unit_variants,any_variants}.rs: retain"]}
{"id": "C30", "title": "Set iteration yields each element exactly once in declaration order", "statement": "set.iter() and set.into_iter() yield exactly the elements, each once, in the documented order (only elements of one hash-backed leaf are mutually unordered).", "quantifier": "every key type that can be built from bool, (), Option<_>, the primitive hash-backed keys and #[derive(Key)] enums (any number of variants, any nesting depth); every reachable set", "why_tests_cant": "All subsets and nestings.", "anchors": ["src/set.rs: Set::{iter,into_iter}", "src/set/storage/*.rs: iter", "fixed-map-derive/src/any_variants.rs: set_storage_iter"]}
{"id": "C31", "title": "intersection yields exactly the common elements", "statement": "a.intersection(&b) yields exactly the values contained in both, each once, whichever set is larger; it is symmetric up to order; fold visits the same sequence as repeated next(); size_hint's upper bound is never smaller than the number of remaining elements.", "quantifier": "every key type that can be built from bool, (), Option<_>, the primitive hash-backed keys and #[derive(Key)] enums (any number of variants, any nesting depth); every pair of reachable sets, every fold function, every number of next() calls", "why_tests_cant": "All pairs of states.", "anchors": ["src/set.rs: Set::intersection", "src/set/intersection.rs: Intersection::{next,size_hint,fold}"]}
{"id": "C32", "title": "Set equality is extensional", "statement": "a == b iff a and b contain the same values, regardless of history and hash order.", "quantifier": "every key type that can be built from bool, (), Option<_>, the primitive hash-backed keys and #[derive(Key)] enums (any number of variants, any nesting depth); every pair of reachable sets", "why_tests_cant": "All pairs of histories.", "anchors": ["src/set.rs: PartialEq for Set", "src/set/storage/*.rs: PartialEq"]}
{"id": "C33", "title": "Set ordering is the documented declaration-order ordering", "statement": "For key enums with only unit variants, comparing two sets is the lexicographic comparison of their element sequences in declaration order (as documented for Key, like BTreeSet), for plain and #[key(bitset)] enums alike; in all cases cmp is a total order consistent with ==.", "quantifier": "every unit-variant enum, with and without #[key(bitset)], every pair/triple of sets", "why_tests_cant": "All pairs/triples of states.", "anchors": ["src/key.rs: Key (Ordering)", "src/set.rs: PartialOrd, Ord for Set", "src/macro_support.rs: __storage_iterator_partial_cmp_bool, __storage_iterator_cmp_bool", "fixed-map-derive/src/unit_variants.rs: impl_bitset, impl_set"]}
{"id": "C34", "title": "A bitset-backed set is indistinguishable from an array-backed one", "statement": "For the same unit-variant enum, a #[key(bitset)] set and a plain set subjected to the same history return the same results for insert, remove, contains, len, is_empty, clear, retain (with predicates that return), iter, == (everything but ordering and hash data). When a retain predicate panics the two may keep different already rejected elements; C38 states what both guarantee then.", "quantifier": "every enum with at most 128 unit variants, every finite history whose retain predicates return", "why_tests_cant": "All histories and all variant counts up to the limit.", "anchors": ["fixed-map-derive/src/unit_variants.rs: impl_bitset, impl_set"]}
{"id": "C35", "title": "Bitset raw value encodes membership and round-trips", "statement": "Bit i of set.as_raw() is 1 iff the i-th declared variant is contained and all other bits are 0; Set::from_raw(set.as_raw()) == set; every variant's bit fits the chosen integer type, which is the smallest of u8..u128 that has a bit per variant; more than 128 variants are rejected.", "quantifier": "every variant count, every reachable set, every variant", "why_tests_cant": "All sets (2^128 of them) and counts around each width boundary.", "anchors": ["src/raw.rs: RawStorage", "src/set.rs: Set::{as_raw,from_raw}", "fixed-map-derive/src/unit_variants.rs: impl_bitset, determine_bits"]}
{"id": "C36", "title": "Sets built from any raw value are consistent", "statement": "For every raw integer, Set::from_raw(raw) has len() equal to the number of elements iterated, is_empty() iff nothing is iterated, and equals every set with the same elements.", "quantifier": "every #[key(bitset)] enum and every raw value of its integer type", "why_tests_cant": "All raw integers.", "anchors": ["src/set.rs: Set::from_raw", "fixed-map-derive/src/unit_variants.rs: impl_bitset len, is_empty, eq, from_raw"]}
{"id": "C37", "title": "size_hint brackets the remaining elements", "statement": "At every point of (double-ended) iteration of any map or set iterator, size_hint's lower bound <= number of remaining items <= upper bound; the ExactSizeIterator impls of the bool-keyed iterators are exact.", "quantifier": "every key type that can be built from bool, (), Option<_>, the primitive hash-backed keys and #[derive(Key)] enums (any number of variants, any nesting depth); every reachable map/set, every prefix of next/next_back calls", "why_tests_cant": "All interleavings and states.", "anchors": ["src/map/storage/boolean.rs: Keys::{size_hint,len}", "src/set/storage/boolean.rs: Iter::{size_hint,len}", "src/set/intersection.rs: size_hint"]}
{"id": "C38", "title": "Set retain is panic-consistent", "statement": "If the predicate given to Set::retain unwinds, no element is added, every element that was accepted, being tested or not yet visited is still present; rejected elements are gone, except those in a #[key(bitset)] set of which the predicate was just visiting another element: these all remain. What is left is iterated in order and the set stays usable.", "quantifier": "every key type that can be built from bool, (), Option<_>, the primitive hash-backed keys and #[derive(Key)] enums (any number of variants, any nesting depth); every reachable set, every predicate, every crash point", "why_tests_cant": "All crash points, in any nesting of storages.", "anchors": ["src/set/storage/*.rs: retain", "fixed-map-derive/src/unit_variants.rs: impl_bitset retain"]}
{"id": "C39", "title": "Values are conserved", "statement": "No operation loses or duplicates a stored value: for insert, remove, entry insert/remove and retain, the multiset of values in the map afterwards plus the values handed back (or rejected by the predicate) equals the multiset before plus the values put in; into_iter hands out every stored value exactly once.", "quantifier": "every key type that can be built from bool, (), Option<_>, the primitive hash-backed keys and #[derive(Key)] enums (any number of variants, any nesting depth); every reachable map, every operation", "why_tests_cant": "Multiset equality over all states; leaks and double drops are invisible to functional tests.", "anchors": ["src/option_bucket.rs: NoneBucket::insert, SomeBucket::take", "src/map/storage/*.rs", "src/map.rs: IntoIterator"]}
{"id": "C40", "title": "A set behaves as the key set of a map", "statement": "Running the same insert/remove/clear history on Set<T> and on Map<T, ()> yields the same membership, the same len() and, for hash-free keys, the same iteration order.", "quantifier": "every key type that can be built from bool, (), Option<_>, the primitive hash-backed keys and #[derive(Key)] enums (any number of variants, any nesting depth); every finite history", "why_tests_cant": "Two independent families of storages must agree in every state.", "anchors": ["src/map/storage/*.rs", "src/set/storage/*.rs", "fixed-map-derive/src/any_variants.rs: impl_map_storage, impl_set_storage"]}
{"id": "C41", "title": "The derive rejects what it cannot implement", "statement": "#[derive(Key)] reports an error for every input it does not support: non-enums, variants with named fields, variants with a number of unnamed fields other than one, unsupported #[key(..)] attributes, and #[key(bitset)] with more than 128 variants; and #[key(bitset)], when accepted, takes effect.", "quantifier": "every enum declaration and attribute list", "why_tests_cant": "All declarations; a compile-fail test covers single cases.", "anchors": ["fixed-map-derive/src/lib.rs: storage_derive, impl_storage", "fixed-map-derive/src/attrs.rs: parse", "fixed-map-derive/src/any_variants.rs: implement", "fixed-map-derive/src/unit_variants.rs: determine_bits", "fixed-map-derive/src/context.rs: Ctxt"]}
{"id": "C42", "title": "Ordering of sets over () follows the elements", "statement": "For Set<()> the comparison is the lexicographic comparison of the element sequences (the empty set is smallest), total and consistent with ==.", "quantifier": "every pair/triple of Set<()> values", "why_tests_cant": "Small state space, but stated for all reachable sets together with retain/insert histories.", "anchors": ["src/set/storage/singleton.rs: SingletonSetStorage derive(PartialOrd, Ord)"]}
{"id": "C43", "title": "Panicking entry closures leave the map consistent", "statement": "If the closure given to or_insert_with / or_insert_with_key (or V::default() in or_default) unwinds, the map is exactly as before the call; if the closure given to and_modify unwinds, the entry's value is what the closure left behind and every other entry is unchanged. The map stays fully usable.", "quantifier": "every key type that can be built from bool, (), Option<_>, the primitive hash-backed keys and #[derive(Key)] enums (any number of variants, any nesting depth); every reachable map, every key, every stateful closure", "why_tests_cant": "Every crash point in every state; tests rarely catch unwinding out of entry closures.", "anchors": ["src/map/entry.rs: Entry::{or_insert_with,or_insert_with_key,or_default,and_modify}", "src/option_bucket.rs"]}
{"id": "C44", "title": "Debug output lists exactly the contents", "statement": "format!(\"{:?}\", map) is `{k1: v1, k2: v2, ...}` and format!(\"{:?}\", set) is `{k1, k2, ...}`: every entry exactly once, in iteration order, with the Debug output of keys and values; the Debug output of an Intersection is `[k1, k2, ...]`, the elements it has still to yield, and printing does not advance it.", "quantifier": "every key type that can be built from bool, (), Option<_>, the primitive hash-backed keys and #[derive(Key)] enums (any number of variants, any nesting depth); every Debug implementation of keys and values, every reachable map/set, every number of prior next() calls", "why_tests_cant": "All states and all Debug implementations.", "anchors": ["src/map.rs: impl Debug for Map", "src/set.rs: impl Debug for Set", "src/set/intersection.rs: Clone, Debug"]}
{"id": "C45", "title": "Without hash tables, contents determine everything observable", "statement": "For key types that involve no hash table, two maps (sets) with the same contents are indistinguishable, however they were built: every later operation, iterator, comparison, hash, raw value and Debug output agrees.", "quantifier": "every hash-free key type; every pair of maps, every pair of reachable sets", "why_tests_cant": "Quantifies over all pairs of histories leading to the same contents and over all observations.", "anchors": ["src/map/storage/{boolean,option,singleton}.rs", "src/set/storage/{boolean,option,singleton}.rs", "fixed-map-derive/src/{unit_variants,any_variants}.rs"]}
{"id": "C46", "title": "Equal maps and sets are interchangeable", "statement": "For every key type, two maps (sets) with the same contents give the same results in every later history of calls, whatever the hash tables' randomness: returned values are equal, listed entries are the same up to order, and the contents stay the same. (Predicates of retain that depend on the order of visits are excluded.)", "quantifier": "every key type that can be built from bool, (), Option<_>, the primitive hash-backed keys and #[derive(Key)] enums (any number of variants, any nesting depth); every pair of reachable maps/sets with the same contents, every finite history, every pair of hash seeds", "why_tests_cant": "Congruence of == over all histories and all hash orders.", "anchors": ["src/map/storage/hashbrown.rs", "src/set/storage/hashbrown.rs", "src/map.rs", "src/set.rs"]}
{"id": "C47", "title": "A cloned iterator continues exactly where the original is", "statement": "Wherever the iterator type implements Clone, cloning a map iterator (Iter, Keys, Values, IntoIter), a set iterator (Iter, IntoIter) or an Intersection at any point of the iteration gives an iterator that yields exactly the items the original has still to yield, in the same order and from both ends, and leaves the original as it was.", "quantifier": "every key type that can be built from bool, (), Option<_>, the primitive hash-backed keys and #[derive(Key)] enums (any number of variants, any nesting depth); every reachable map/set, every prefix of next/next_back calls before the clone", "why_tests_cant": "All states of all composite iterators (struct copies of front/back cursors, nested buckets) at every point of the iteration.", "anchors": ["fixed-map-derive/src/any_variants.rs: Iter, Keys, Values, IntoIter clone", "src/map/storage/*.rs: Iter, Keys, Values, IntoIter Clone", "src/set/storage/*.rs: Iter Clone", "src/set/intersection.rs: Clone"]}
{"id": "C48", "title": "The safe option-bucket functions are sound and equal to plain Option code", "statement": "A program that uses only the safe functions of the option_bucket module (SomeBucket::new/as_ref/as_mut/into_mut/replace/take, NoneBucket::new/insert, OptionBucket::new) and that the borrow checker accepts never reaches the unchecked unwraps or the raw write with an option of the wrong kind: no undefined behaviour and no leaked value. Every value it reads and every option it leaves behind is what the corresponding code on plain Option values gives, and options it does not name stay untouched.", "quantifier": "every element type, every number of option variables with any contents, every finite sequence of calls with any number of buckets alive at the same time", "why_tests_cant": "Soundness of unsafe code over all interleavings of safe calls.", "anchors": ["src/option_bucket.rs"]}
{"id": "C49", "title": "Only the contents count, not how they were put together", "statement": "Collecting pairs with distinct keys in any order and with any hashers gives equal maps; collecting elements in any order with any repetitions gives equal sets. Collecting what a map's into_iter (a set's iter) yields gives a map (set) equal to the original. Inserting and then restoring what insert returned, or removing and inserting the removed value again, gives a map equal to the original.", "quantifier": "every key type that can be built from bool, (), Option<_>, the primitive hash-backed keys and #[derive(Key)] enums (any number of variants, any nesting depth); every list and permutation, every reachable map/set, every key and value with reflexive ==, every pair of hash seeds", "why_tests_cant": "All permutations and all reachable states, including hash tables whose internal order differs.", "anchors": ["src/map.rs: FromIterator, From<[_; N]>", "src/set.rs: FromIterator, From<[_; N]>", "src/map/storage/hashbrown.rs", "src/map.rs: insert, remove, into_iter"]}
{"id": "C50", "title": "Trait availability follows the key type, and copying is cloning", "statement": "Map<K, V> implements Clone, PartialEq and Eq exactly if V does; Copy exactly if V does and no hash table is involved (in particular, as documented, for keys with only unit variants); Hash, PartialOrd and Ord exactly if V does and K is an enum of unit variants. Set<T> is always Clone, PartialEq and Eq, Copy exactly without hash tables, and Hash, PartialOrd and Ord exactly for () and enums of unit variants. Supertraits are always implemented as well, the generated implementations' where clauses suffice for their bodies, and owning iterators are Clone exactly without hash tables (and if V is). Where Copy is implemented, a copy is exactly what clone would have given.", "quantifier": "every key type, every combination of traits implemented by the value type, every storage state", "why_tests_cant": "Quantifies over all (nested) key types; a test instantiates a handful of types.", "anchors": ["src/map.rs: impl Clone/Copy/PartialEq/Eq/Hash/PartialOrd/Ord for Map", "src/set.rs: impl Clone/Copy/PartialEq/Eq/Hash/PartialOrd/Ord for Set", "src/map/storage/*.rs", "src/set/storage/*.rs", "fixed-map-derive/src/{unit_variants,any_variants}.rs"]}
{"id": "C51", "title": "clear drops every value once, in order, and survives a panicking destructor", "statement": "Map::clear() runs the destructor of every stored value exactly once, in iteration order, and leaves the empty map. If a destructor unwinds, the entries fall, in iteration order, into those whose destructor ran (each once), those leaked (never dropped, possible only inside hash tables) and those still in the map with their values; the map then contains exactly the last group and stays fully usable. No value is dropped twice. Exactly: of the values after the one whose destructor unwound, those whose keys are variants of the same enum of unit variants are still dropped, those whose keys are in the same hash table are leaked, and all others are kept.", "quantifier": "every key type that can be built from bool, (), Option<_>, the primitive hash-backed keys and #[derive(Key)] enums (any number of variants, any nesting depth); every reachable map, every value type, every destructor behaviour (arbitrary effects, unwinding at any value)", "why_tests_cant": "All panic points of all destructors in all composite storages; double drops under unwinding are undefined behaviour a test would not notice.", "anchors": ["src/map.rs: clear", "src/map/storage/*.rs: clear", "fixed-map-derive/src/{unit_variants,any_variants}.rs: clear"]}
{"id": "C52", "title": "clone calls V::clone once per entry, in order, and survives a panicking clone", "statement": "Map::clone() calls V::clone exactly once for every stored value, in iteration order, and the copy holds under each key the value that call returned. If a call unwinds, the values before it were cloned once each, no later value is touched, and the original is unchanged. When V::clone is pure this is the clone of the other properties.", "quantifier": "every key type that can be built from bool, (), Option<_>, the primitive hash-backed keys and #[derive(Key)] enums (any number of variants, any nesting depth); every reachable map, every effectful V::clone (arbitrary state, unwinding at any call)", "why_tests_cant": "All call sequences and all panic points.", "anchors": ["src/map.rs: impl Clone for Map", "src/map/storage/*.rs: Clone", "fixed-map-derive/src/{unit_variants,any_variants}.rs: Clone"]}
{"id": "C53", "title": "Option<K> and derived enums are maps over every well-behaved key type, also hand-written ones", "statement": "Let K be any type with a Key implementation (one of the crate's or one written by a user) whose MapStorage behaves as a finite map: every call of get, contains_key, get_mut, insert, remove, len, is_empty, clear, retain, iter, iter_mut and the entry functions terminates without panic or undefined behaviour and answers as a finite map would. Then the map storage of Option<K> behaves as a finite map over the options, and the map storage derived for an enum whose tuple variants hold such key types behaves as a finite map over the enum's values. Hence whole programs over such maps return what finite maps return.", "quantifier": "every key type and every MapStorage implementation of it that satisfies the contract, every enum over such key types with any number and order of unit and tuple variants, every value type, every finite sequence of calls", "why_tests_cant": "Quantifies over all implementations of a trait, including ones that do not exist yet.", "anchors": ["src/map/storage.rs: MapStorage", "src/map/storage/option.rs", "fixed-map-derive/src/any_variants.rs", "src/key.rs: Key"]}
{"id": "C54", "title": "Derived enums are sets over every well-behaved element type, Option<T> in its contents", "statement": "Let T be any type with a Key implementation (one of the crate's or one written by a user) whose SetStorage behaves as a set. Then the set storage derived for an enum whose tuple variants hold such types behaves as a set over the enum's values: contains, len, is_empty, insert, remove, clear, retain, iter and into_iter do and return what a mathematical set says, also when a retain predicate unwinds. If only the contents (everything but the results of insert, remove and is_empty) are right for T, they are right for such enums and for Option<T>; for Option<T> no more can be promised, whatever T is, because insert(None) reports the opposite.", "quantifier": "every element type and every SetStorage implementation of it that satisfies the contract, every enum over such types with any number and order of unit and tuple variants, every finite sequence of calls, every retain predicate", "why_tests_cant": "Quantifies over all implementations of a trait, including ones that do not exist yet.", "anchors": ["src/set/storage.rs: SetStorage", "src/set/storage/option.rs", "fixed-map-derive/src/any_variants.rs", "src/key.rs: Key"]}
{"id": "C55", "title": "Without hash tables, a map is a table with one row per key in declaration order", "statement": "For key types stored without hash tables there is a finite list of all keys in declaration order (true before false, Some before None). Iterating a map gives the entries of that list whose keys are present, in its order; values, into_iter and len agree; the same for sets. len() never exceeds the number of keys and reaches it exactly if every key is present. Every result of every program, including the keys seen by closures that depend on what they saw before or unwind, is thereby determined by the declaration and the calls alone.", "quantifier": "every key type (nested to any depth) without hash tables, every value type, every reachable map or set, every finite sequence of calls", "why_tests_cant": "All nested key declarations and all reachable states; a test fixes one declaration.", "anchors": ["src/map.rs: iter, values, into_iter, len", "src/set.rs: iter, into_iter, len", "src/map/storage/{boolean,option,singleton}.rs", "src/set/storage/*.rs", "fixed-map-derive/src/{unit_variants,any_variants}.rs"]}
{"id": "C56", "title": "Renaming, reordering or regrouping keys is invisible to programs that ignore order", "statement": "If the values of two key types correspond one to one, a program over maps with the first key type and the same program with keys translated to the second give the same results, up to the order of listed entries and of retain's calls, whatever storages are chosen (hash table or array, nested enum or flat, bool or two-variant enum, Option or hand-written enum). The same holds for sets, with the results of insert, remove and is_empty included when neither type has bool or Option parts. If the correspondence preserves declaration order and no hash tables are involved, all results are the same, in order, for all programs (for sets: if retain predicates return or the two types agree on which keys share a bit set).", "quantifier": "every pair of key types with a one-to-one correspondence of values (built-in, derived, or hand-written with a well-behaved storage), every value type, every finite sequence of calls, every pair of hash seeds", "why_tests_cant": "A relation between two types and all programs over them.", "anchors": ["src/map.rs", "src/set.rs", "src/key.rs: Key", "src/map/storage/*.rs", "src/set/storage/*.rs", "fixed-map-derive/src/{unit_variants,any_variants}.rs"]}
{"id": "C57", "title": "The derive works whatever the enum, its field types and the things around it are called", "statement": "#[derive(Key)] accepts an enum, and every name in the code it generates means what it should, regardless of how the enum and the types of its fields are called, which types, constants and constructors are in scope at the derive, and which attributes or doc comments stand on fields.", "quantifier": "every name of the enum and of the types of its fields, every set of items, imports and constants in scope, every number of variants, both generators", "why_tests_cant": "The names users may choose and the scopes a derive may stand in are unbounded; a test tries one.", "anchors": ["fixed-map-derive/src/unit_variants.rs", "fixed-map-derive/src/any_variants.rs", "fixed-map-derive/src/context.rs: Toks, fallible", "fixed-map-derive/src/lib.rs"]}
{"id": "C58", "title": "Comparing maps calls V::eq once per shared key, in self-other order, and stops at the first difference", "statement": "a == b calls V::eq only on the value of a and the value of b under the same key, with a's value first, at most once per key. The first call that answers false makes the comparison false and no further call is made; a call that unwinds ends it and the panic reaches the caller; both maps stay as they are. When all calls made answer true, the comparison is true after every key of either map was compared, and otherwise false with some key present in one map only. With an equality without effects the answer is the == of the entries.", "quantifier": "every key type that can be built from bool, (), Option<_>, the primitive hash-backed keys and #[derive(Key)] enums (any number of variants, any nesting depth); all pairs of reachable maps, every effectful V::eq (arbitrary state, answering anything, unwinding at any call)", "why_tests_cant": "All call sequences, all inconsistent equalities and all panic points.", "anchors": ["src/map.rs: impl PartialEq for Map", "src/map/storage/*.rs: PartialEq", "fixed-map-derive/src/{unit_variants,any_variants}.rs: PartialEq"]}
{"id": "C59", "title": "Ordering and hashing maps call V's functions in declaration order and stop at the first that decides", "statement": "For enums of unit variants: partial_cmp and cmp of two maps go through the entries of both in declaration order, compare values only where both have the same variant at the same position (self's first), and stop at the first answer that is not Equal, at the first position where the variants differ (the map whose variant is declared first is less), or where one map ends (it is less). Hashing feeds the number of variants, then for every variant in declaration order whether it is present and, if so, its value, each once. A call that unwinds ends the operation there; no further call is made and the maps are untouched. With functions free of effects these are the ordering and hash of C21 and C22.", "quantifier": "every enum of unit variants (any number, with or without bitset), every value type, all pairs of reachable maps, every effectful V::partial_cmp, V::cmp, V::hash and hasher (arbitrary state, inconsistent answers, unwinding at any call)", "why_tests_cant": "All call sequences, inconsistent orderings and all panic points.", "anchors": ["src/map.rs: impl PartialOrd, Ord, Hash for Map", "src/macro_support.rs: __storage_iterator_partial_cmp, __storage_iterator_cmp", "fixed-map-derive/src/unit_variants.rs: PartialOrd, Ord, Hash"]}
{"id": "C60", "title": "The code generated for an enum without fields is a map and a set of its variants", "statement": "The token templates of unit_variants.rs, instantiated with the names of the variants and run statement by statement, make storages that answer every sequence of len, is_empty, contains, get, get_mut, insert, remove, retain, clear, iter, keys, values, iter_mut, values_mut, into_iter, entry and the entry methods (for bitsets also from_raw and as_raw, bit i being variant i) as one map (set) from variant names does; iteration, retain and dropping go in declaration order, each value asked about or dropped once, a panic of the closure or of a destructor leaves what the reference says, and no execution gets stuck (out of variables, fields, match arms). A bitset is refused exactly beyond 128 variants. The storages with which the other properties are proved answer every such sequence as the generated code does.", "quantifier": "every list of distinct variant names (any length), with and without #[key(bitset)], every value type, every user state, closure and destructor (panicking at any call), every finite sequence of requests about the enum's variants", "why_tests_cant": "All enum sizes: the code is a different program for each number of variants; all request sequences and panic points.", "anchors": ["fixed-map-derive/src/unit_variants.rs: implement, impl_map, impl_set, impl_bitset, impl_entry"]}
{"id": "C61", "title": "The code generated for an enum with tuple variants is what its storages are said to be", "statement": "The token templates of any_variants.rs, instantiated with the variants of an enum and run statement by statement over the storages of the element types, answer every sequence of requests (new, len, is_empty, contains, get, get_mut, insert, remove, retain, clear, clone, entry and the methods of entries, and the iterators iter, keys, values, iter_mut, values_mut, into_iter advanced from either end and cloned in the middle, assigning through what they yield; likewise for the set; and == of two storages) as the storage of the model does with which the other properties are proved: the same results, the same calls of the user's closures, of V::clone, V::eq and of destructors in the same order, the same effect when one of them panics. In particular next() finds the field to go on with by its step counters alone, keys are rebuilt with the variant they were stored under, and no execution gets stuck (no match without arm, no field or variable that is not there, no loop without end). Every enum with a tuple variant that the derive accepts is covered, whatever the (distinct) names of its variants.", "quantifier": "every list of variants with distinct names (any length, any mix of unit and tuple variants), every element storage (retain of which only calls its closure, as is proved of all storages that exist), every value type, every user state, closure, clone, eq and destructor (panicking at any call), every hash iteration order, every finite sequence of requests and of iterator steps", "why_tests_cant": "All enum shapes: the code is a different program for each list of variants; all request sequences, interleavings of next, next_back and clone, and panic points.", "anchors": ["fixed-map-derive/src/any_variants.rs: implement, impl_map_storage, impl_set_storage, map_storage_iter, map_storage_entry, IteratorNext, IteratorNextBack, option_to_entry"]}
{"id": "C62", "title": "The code generated for an enum with tuple variants is a map (and a set)", "statement": "For an enum with at least one tuple variant over key types of this crate (bool, (), integers, char, &str, Option, other derived enums, nested to any depth), the program that the derive writes, run on any sequence of requests, gives the answers of a list of entries: get, contains_key, len and is_empty report it; insert replaces the value in place or adds one entry; remove takes out one entry; retain visits the entries in order, writes back what the closure writes, and removes those it rejects; clear drops the values in order and, if a destructor panics, drops what follows in the same array, leaks what follows in the same hash table and keeps the rest; clone clones the values in order and nothing is built if one panics; iterators yield the entries from the end that is asked, each once, and assign through exactly the items that were yielded; entries read, write, insert and remove one entry. Entries are in the order of the variants, and within a variant in the order of the element type. A set is the list of its elements in the same way, with the answers of insert, remove, is_empty and retain for bool, () and Option elements being those of C26 to C29 and C38.", "quantifier": "every list of variants with distinct names and at least one tuple variant, all element key types that can be derived, every value type, every user state, closure, clone and destructor (panicking at any call), every hash iteration order, every finite sequence of requests and of iterator steps", "why_tests_cant": "All enum shapes (a different program each), all nestings of element types, all request sequences and panic points.", "anchors": ["fixed-map-derive/src/any_variants.rs: implement, impl_map_storage, impl_set_storage, map_storage_iter, map_storage_entry, IteratorNext, IteratorNextBack, option_to_entry", "src/map/storage: boolean, option, singleton, hashbrown, static", "src/set/storage: boolean, option, singleton, hashbrown"]}
{"id": "C63", "title": "Collecting and deserializing store items as they come, drop what they displace, and leave nothing behind on failure", "statement": "FromIterator and Deserialize ask their source for one item at a time and store it before asking for the next; a value that is displaced by a later entry with an equal key is dropped at once (before the next item is asked for), and no other value is dropped; when the source ends the map holds exactly the last value given for each key. If the source reports an error or panics, or the destructor of a displaced value panics, no further item is asked for, every value gathered so far is dropped exactly once (in iteration order) and the error or panic reaches the caller (a second panic aborts; if a destructor panics while a refused map is dropped, what follows it in the same hash table is leaked, see C66). A Map asks its deserializer for a map and a Set for a sequence; anything else is refused with invalid_type naming 'a map' or 'a sequence'. If the source comes to an end, the call returns.", "quantifier": "every derived key type, every value type, every program state, every source (any function of the state: it may never end, fail or panic at any call, depend on what was dropped), every destructor (panicking at any call), every hash iteration order, every deserializer", "why_tests_cant": "All sources, all interleavings of source and destructor effects, all failure points.", "anchors": ["src/map.rs: FromIterator::from_iter, Deserialize::deserialize, MapVisitor::visit_map, MapVisitor::expecting", "src/set.rs: FromIterator::from_iter, From<[T; N]>, Deserialize::deserialize, SeqVisitor::visit_seq, SeqVisitor::expecting"]}
{"id": "C64", "title": "A program that uses several maps behaves as one that uses several lists of entries, and every value ends up in exactly one place", "statement": "Take any program of calls on any number of Map variables - new, len, is_empty, contains_key, get, insert, remove, assignment through get_mut, entry().or_insert, retain, clear, iter, ==, clone into another variable, move, drop, into_iter - with arbitrary V::clone, V::eq, destructor and retain closure, each free to change the program's state and to panic (panics are caught, a panic while panicking aborts). Every answer, the order of all calls of user code, and the content of every variable after every statement are those of lists of entries; variables not named by a statement do not change; no statement is undefined behaviour. Values are conserved: each value that was put in, returned by V::clone or left behind by the retain closure is, at the end, in exactly one of the maps, or was handed back, or was dropped, exactly once each; with no map left, all have been handed back or dropped. The only statements after which a value may be nowhere are those that drop what a whole map or owning iterator with hashed keys holds (clear, drop, assignment to the variable, into_iter) while a destructor panics: the hash table leaks the ones that follow. A clone that panics drops the clones it had made, each once, and changes no variable.", "quantifier": "every derived key type, every value type, every program state, every number of variables, every list of statements, every V::clone, V::eq, destructor and closure with effects and panics at any call, every hash iteration order", "why_tests_cant": "All programs over several maps, all interleavings of effects, all panic points; a double drop or leak is invisible to tests that do not count.", "anchors": ["src/map.rs: Map::{new, len, is_empty, contains_key, get, insert, remove, get_mut, entry, retain, clear, iter, clone, eq, into_iter}", "src/map/entry.rs: Entry::or_insert", "src/map/storage/*.rs", "fixed-map-derive/src/{unit_variants.rs, any_variants.rs}"]}
{"id": "C65", "title": "Printing performs the layout of the contents, asks each entry once and in order, and stops at the first failure", "statement": "Printing a Map, Set or Intersection with {:?} or {:#?}, through any formatter options and into any sink, which may fail or panic at any write, with Debug implementations of keys and values that write in pieces, may fail, panic or have effects: the sequence of writes and calls is that of the layout of the entries in declaration order ({k: v, k: v}, or one indented line group per entry ending in a comma), each key and value is asked at most once and in order with the formatter's own options, and nothing is written or asked after the first piece that fails; the result is Ok exactly if all pieces succeeded. If keys and values print given texts, a sink that collects text has received exactly the framed text of the contents, or a beginning of it together with an error; when no write fails, printing succeeds. An empty map prints {} in both modes. An Intersection prints what it still has to yield.", "quantifier": "every derived key type, every reachable map and set, every sink, every Debug implementation of keys and values, every formatter option, every failing or panicking write", "why_tests_cant": "A test prints into a String that never fails, with well-behaved values; the failing write or panicking value can be at any point.", "anchors": ["src/map.rs: impl Debug for Map", "src/set.rs: impl Debug for Set", "src/set/intersection.rs: impl Debug for Intersection, Clone"]}
{"id": "C66", "title": "Dropping a map or an owning iterator drops every value left in it exactly once, even if a destructor panics; a clone that panics drops what it had made", "statement": "When a Map goes out of scope, or an IntoIter after any number of calls of next and next_back, the destructor of every value still in it runs exactly once, in iteration order, also when one of them panics (the others still run; a second panic aborts the process, as does a first one while already unwinding). The only values left out are those that come after one whose destructor panicked in the same hash table: they are leaked, never dropped twice; values of other variants are still dropped. Without hashed keys, or if no destructor panics, none is left out. If V::clone panics in Map::clone, exactly the clones made until then (of the entries before, in order) are dropped, each once, and the original is unchanged; otherwise every value has been cloned exactly once, in order, and none dropped.", "quantifier": "every derived key type, every reachable map, every sequence of calls on its IntoIter, every program state, every destructor and V::clone with effects and panics at any call, every hash iteration order, dropping normally or while unwinding", "why_tests_cant": "Destructors that panic at an arbitrary value, for every nesting of storages; leaks and double drops are not seen by tests that do not count.", "anchors": ["src/map.rs: Map, IntoIter, Clone for Map", "src/map/storage/{boolean,option,singleton,hashbrown}.rs: derived Clone, compiler-generated drops", "fixed-map-derive/src/{unit_variants.rs, any_variants.rs}: IntoIter, Clone"]}
{"id": "C67", "title": "Programs over several sets behave like programs over lists of elements", "statement": "A program that keeps any number of Sets in variables and creates, collects, fills, reads, compares, orders, hashes, intersects, iterates from both ends, retains, clones, moves, drops and consumes them, and makes them from raw integers, gets the answers that lists of elements would give: every statement affects only the sets it names, and moved-from variables are usable again exactly if the sets are Copy (no hash table). Bits of a raw integer that stand for no element are carried along, count in len, is_empty, ==, ordering, hash and as_raw, survive insert and remove, and are lost by clear and a retain that returns. No operation of the crate loops longer than the sets are large. Without hash tables the answers are completely determined; in particular adding or removing #[key(bitset)] changes no answer of a program that uses neither raw integers nor ordering nor hash and whose predicates do not panic.", "quantifier": "every derived key type, every number of variables, every finite program, every predicate of retain with effects and panics, every hash iteration order, every raw integer of the type", "why_tests_cant": "Interactions of operations on several sets, with arbitrary predicates and raw integers, in arbitrary order.", "anchors": ["src/set.rs: Set", "src/set/intersection.rs", "src/set/storage/*.rs", "fixed-map-derive/src/{unit_variants.rs, any_variants.rs}"]}
{"id": "C68", "title": "The source text of the hand-written storages does what the model says", "statement": "The files src/{map,set}/storage/{boolean,singleton,option,hashbrown}.rs, with src/option_bucket.rs and src/map/entry.rs, taken literally: parsed and executed statement by statement, they answer every sequence of calls on a new map or set (reading, inserting, removing, retain, clear, clone, entries, all iterators from both ends with size_hint and clone, assigning through every handed-out &mut, ==) exactly as the storages that all other properties are about, calling the user's closures, clone, eq and destructors at the same moments with the same arguments. They never reach undefined behaviour, never leak through the unsafe buckets, never panic by themselves, and behave as lists of entries or elements.", "quantifier": "every key type with a hand-written storage (bool, (), every primitive, Option of every derivable type, Option of any further storage), every value type, every finite sequence of calls, every behaviour of the user's functions including unwinding, every hash iteration order", "why_tests_cant": "Tests run the code on some sequences of calls only; and a model can be wrong about the code it models.", "anchors": ["src/map/storage/boolean.rs", "src/map/storage/singleton.rs", "src/map/storage/option.rs", "src/map/storage/hashbrown.rs", "src/set/storage/boolean.rs", "src/set/storage/singleton.rs", "src/set/storage/option.rs", "src/set/storage/hashbrown.rs", "src/option_bucket.rs", "src/map/entry.rs"]}
{"id": "C69", "title": "The text of the derive macro writes that code, for every enum", "statement": "The files fixed-map-derive/src/{any_variants,unit_variants,context}.rs, taken literally: their functions run statement by statement on an enum with any number of variants of any names (with or without payload), their quote! templates filled in, and the tokens that come out parsed as Rust. What results is, for every enum, exactly the code that the properties on generated code are about; so for an enum of unit variants the map and the set that the macro writes behave as a map and a set of variants (also through as_raw and from_raw), for other enums as the storages of the model do, whatever the payload types are. The macro refuses a bitset of more than 128 variants and no other enum of unit variants; it never fails on an enum with tuple variants.", "quantifier": "every list of variants with distinct names, with and without payloads of every key type, with and without #[key(bitset)], every finite sequence of calls, every behaviour of the user's functions", "why_tests_cant": "Tests derive Key for a few enums; the templates must be right for every number of variants and every mixture of unit and tuple variants.", "anchors": ["fixed-map-derive/src/any_variants.rs", "fixed-map-derive/src/unit_variants.rs", "fixed-map-derive/src/context.rs", "fixed-map-derive/src/lib.rs"]}
{"id": "C70", "title": "The text of Map, Entry, Set and Intersection does what is said of them", "statement": "The files src/map.rs, src/map/entry.rs, src/set.rs and src/set/intersection.rs, taken literally and run around any storage. Every method of a Map and of its entries (the combinators and_modify, or_insert, or_insert_with, or_insert_with_key, or_default and key included), for loops over &map, &mut map and map, clone, ==, FromIterator, Default, PartialOrd with its four operators, Ord with max, min and clamp, and Hash answer exactly as the map the other properties are about, and call the user's closures, Default, Clone, destructors, comparisons and hashers at the same moments with the same arguments, also when one of them unwinds. The same holds for Set, with from of an array, as_raw and from_raw. a.intersection(&b) hands out the common elements, each once, in the order of the elements, through next, its clones and fold, and ends.", "quantifier": "every key type that can be derived and any other storage, every finite sequence of calls and every mixture of front-end methods, every behaviour of the user's functions, every two sets", "why_tests_cant": "The front end is generic in the storage; tests run it with a few storages and with closures that do not unwind.", "anchors": ["src/map.rs", "src/map/entry.rs", "src/set.rs", "src/set/intersection.rs"]}
{"id": "C71", "title": "The text of the serde and Debug impls does what is said of them", "statement": "The impls of Serialize, Deserialize (with the visitor types written inside deserialize) and Debug in src/map.rs and src/set.rs, and Debug of Intersection, taken literally. Serializing a Map asks the serializer for a map of exactly len() entries, hands it every entry once in the order of iter(), ends it, and stops at its first error; a Set is a sequence of its elements. Deserializing inserts what the input holds, one after the other, into a new map or set; the first error of the input is what the caller gets. So what was written is read back as an equal map or set. {:?} and {:#?} write the same pieces in the same order, and call the fmt of keys and values at the same moments, as described by the property about printing, whatever the sink answers and whether or not fmt fails or unwinds.", "quantifier": "any storage; every serializer, every input, every sink and every fmt of the keys and values, failures at any point included; for the round trip every derivable key type, every reachable map and set", "why_tests_cant": "Tests serialize a few maps to one format and print with one formatter that never fails.", "anchors": ["src/map.rs", "src/set.rs", "src/set/intersection.rs"]}
{"id": "C72", "title": "The text of the comparison helpers orders storages by their first difference", "statement": "src/macro_support.rs taken literally. Maps and array-backed sets over an enum without fields are compared by its four functions. They call the values' partial_cmp or cmp only for values at the same position, in the order of declaration, each at most once, and stop at the first answer that is not Equal or at a panic. The answer is decided at the first position that differs: where both have a value the values decide; where one has none, that one is the greater if it has anything at a later position and the smaller otherwise. Slices that agree everywhere are Equal. partial_cmp and cmp agree.", "quantifier": "all slices, all value types, every partial_cmp and cmp of the values including ones with side effects or that panic", "why_tests_cant": "The functions are hidden helpers of generated code; tests compare a few maps.", "anchors": ["src/macro_support.rs", "fixed-map-derive/src/unit_variants.rs"]}
{"id": "C73", "title": "The generated comparison traits look at the whole of both storages, and exist exactly where documented code can use them", "statement": "The derive macro taken literally. For an enum without fields, map and set storages have exactly Clone, Copy, PartialEq, Eq, Hash, PartialOrd and Ord besides their storage traits (RawStorage only with #[key(bitset)]); for an enum with fields they have exactly Clone, Copy, PartialEq and Eq, so such maps and sets can be compared for equality but neither hashed nor ordered. For an enum without fields clone copies every value in order of declaration into a new storage; eq is true exactly if every variant has equal values or none in both; hash feeds the length and every place; partial_cmp and cmp compare self with other, in this order, at the first place that differs. A panic of a value's clone, eq, hash or comparison ends the call.", "quantifier": "all enums, all storages, all value types and every clone, eq, hash, partial_cmp and cmp of the values including ones with side effects or that panic", "why_tests_cant": "Generated code differs for each enum, and that a trait is absent cannot be tested by code that compiles.", "anchors": ["fixed-map-derive/src/unit_variants.rs", "fixed-map-derive/src/any_variants.rs", "src/macro_support.rs"]}
{"id": "C74", "title": "The types that are keys, and the storages they use, are those src/key.rs says", "statement": "src/key.rs taken literally, its macros expanded. The types with a hand-written impl of Key are exactly bool, (), Option of a key, char, u8, u32, u64, u128, usize, i8, i32, i64, i128, isize, &'static str and &'static [u8], each with one impl (u16 and i16 have none). For every key type built from these, Option and derived enums to any depth, the storages chosen are those about which all other properties are proved. Without the feature hashbrown exactly the types that contain none of the integer, char, string and bytes types remain keys, with unchanged storages.", "quantifier": "all key types of any nesting, both with and without the feature", "why_tests_cant": "Key types are unbounded in number, and absence of an impl or behaviour under another feature set cannot be seen by one compiled test.", "anchors": ["src/key.rs"]}
{"id": "C75", "title": "Which inputs #[derive(Key)] accepts, and with which errors, is what the source text of its front end says", "statement": "fixed-map-derive/src/attrs.rs, symbol.rs and lib.rs taken literally, run statement by statement. For every input the macro ends with code, with errors or with a panic, as the model of the front end says. A bitset is asked for exactly if some #[key(..)] begins with bitset; no error is recorded exactly if every key attribute is a list of plain bitsets; one error is recorded per bad attribute, in order. Structs and unions are always refused, with the message about named fields last. An enum of unit variants is refused exactly if a bitset is asked for and there are more than 128 variants; otherwise errors of attributes are dropped and code is made.", "quantifier": "all lists of attributes and items, all kinds of data, all numbers and kinds of variants", "why_tests_cant": "Inputs of a macro are unbounded, and tests that do not compile (trybuild) each show one of them.", "anchors": ["fixed-map-derive/src/attrs.rs", "fixed-map-derive/src/lib.rs", "fixed-map-derive/src/symbol.rs"]}
