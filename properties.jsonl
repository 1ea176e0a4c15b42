{"id": "C01", "title": "Theta update sketch keeps exactly the distinct hashes below theta", "statement": "After any sequence of updates, the hashes returned by iterating the sketch are exactly the distinct non-zero hashes of the stream that are below Theta64(), each once; NumRetained() is their number. Nothing below theta is ever lost, nothing at or above it is kept.", "quantifier": "every lgK in the builder's range, every resize factor, every sampling theta, every finite sequence of 63-bit hashes", "why_tests_cant": "The number of hash streams is astronomically large and depends on the order and on which rebuild points are hit; tests only sample it.", "anchors": ["theta/hashtable.go: Hashtable.Insert, Find, resize, rebuild, HashAndScreen...", "theta/update_sketch.go: quickSelectUpdateSketch.updateWithHash"]}
{"id": "C02", "title": "Theta never increases and only takes meaningful values", "statement": "Theta64() never increases under update; it is the starting theta or a hash that occurred in the stream; once below the starting theta the sketch retains at least k = 2^lgK entries.", "quantifier": "every configuration and update sequence", "why_tests_cant": "The number of hash streams is astronomically large and depends on the order and on which rebuild points are hit; tests only sample it.", "anchors": ["theta/hashtable.go: rebuild, Reset"]}
{"id": "C03", "title": "Theta hash table probing never fails", "statement": "Update never returns ErrKeyNotFoundAndNoEmptySlots and never loops: the table always has a free slot, its size stays between the starting size and 2^(lgK+1), and the odd stride visits every slot.", "quantifier": "every configuration and update sequence", "why_tests_cant": "Failure needs adversarial collisions of probe sequences at a full table.", "anchors": ["theta/hashtable.go: find, computeCapacity, resize, rebuild"]}
{"id": "C04", "title": "Trim keeps exactly the k smallest hashes", "statement": "After Trim() the sketch has at most k entries; if it had more than k, the k smallest are kept and theta becomes the (k+1)-st smallest; otherwise it is unchanged.", "quantifier": "every reachable update sketch", "why_tests_cant": "The number of hash streams is astronomically large and depends on the order and on which rebuild points are hit; tests only sample it.", "anchors": ["theta/update_sketch.go: Trim", "internal/quick_select.go: QuickSelect"]}
{"id": "C05", "title": "QuickSelect selects", "statement": "QuickSelect(arr, lo, hi, pivot) terminates, only permutes arr[lo..hi], leaves at position pivot the element of that rank, with smaller-or-equal elements before it and greater-or-equal ones after it, and returns it.", "quantifier": "every array, with duplicates, and every lo <= pivot <= hi", "why_tests_cant": "Partitioning bugs show only on particular orderings.", "anchors": ["internal/quick_select.go: QuickSelect, partition"]}
{"id": "C06", "title": "Duplicates do not change a theta sketch", "statement": "Updating a theta sketch with an item whose hash was already presented changes neither its retained hashes, nor theta, nor the table.", "quantifier": "every reachable sketch and every previously seen item", "why_tests_cant": "The number of hash streams is astronomically large and depends on the order and on which rebuild points are hit; tests only sample it.", "anchors": ["theta/update_sketch.go", "theta/hashtable.go: Find"]}
{"id": "C07", "title": "Theta union is set union below the minimum theta", "statement": "The result of a union has theta equal to the smallest of the union's and the inputs' thetas, or a smaller value at which more than k candidates were cut to the k smallest; its entries are exactly the hashes of the inputs below that theta; it is empty exactly when all inputs are empty.", "quantifier": "every sequence of input sketches with the matching seed, ordered or not", "why_tests_cant": "The number of hash streams is astronomically large and depends on the order and on which rebuild points are hit; tests only sample it.", "anchors": ["theta/union.go: Union.Update, Union.Result"]}
{"id": "C08", "title": "Theta intersection is set intersection below the minimum theta", "statement": "After intersecting a sequence of sketches, theta is the minimum of their thetas and the entries are exactly the hashes below theta present in all of them; HasResult tells whether at least one was presented.", "quantifier": "every non-empty sequence of input sketches", "why_tests_cant": "The number of hash streams is astronomically large and depends on the order and on which rebuild points are hit; tests only sample it.", "anchors": ["theta/intersection.go: Intersection.Update, Result"]}
{"id": "C09", "title": "A-not-B is set difference below the minimum theta", "statement": "ANotB(a,b) has theta = min(theta_a, theta_b) and its entries are exactly the hashes of a below theta that are not in b, whichever of the sort-based and hash-based paths is taken; empty b returns a unchanged.", "quantifier": "every pair of sketches", "why_tests_cant": "The number of hash streams is astronomically large and depends on the order and on which rebuild points are hit; tests only sample it.", "anchors": ["theta/a_not_b.go: ANotB"]}
{"id": "C10", "title": "Theta uncompressed serialization round-trips", "statement": "Decode(Marshal(s)) yields a sketch with the same entries, theta, seed hash, emptiness and ordering flag.", "quantifier": "every compact sketch", "why_tests_cant": "All sizes and flag combinations.", "anchors": ["theta/encoder.go", "theta/decoder.go", "theta/compact_sketch.go"]}
{"id": "C11", "title": "Theta compressed serialization round-trips", "statement": "Decode(MarshalCompressed(s)) yields the same entries, theta, seed hash and flags for every ordered sketch.", "quantifier": "every ordered compact sketch, all entry counts and all delta widths 1..63", "why_tests_cant": "The bit width, block count and tail length interact; 63 unrolled pack functions.", "anchors": ["theta/encoder.go", "theta/decoder.go: v4", "theta/bit_packing.go"]}
{"id": "C12", "title": "Bit packing round-trips for each width", "statement": "For every width 1..63, unpackBitsBlock8 after packBitsBlock8 returns the eight values, and the block occupies exactly `width` bytes; same for the bit-at-a-time packer at every bit offset.", "quantifier": "all 8-tuples of values below 2^width, all widths, all bit offsets", "why_tests_cant": "2^(8*63) inputs; a single wrong mask or shift in one of 126 unrolled functions affects only some values.", "anchors": ["theta/bit_packing.go: packBits*, unpackBits*, packBitsBlock8, unpackBitsBlock8, packBits, unpackBits"]}
{"id": "C13", "title": "Bloom filters have no false negatives", "statement": "Query(x) returns true after any history of Update, QueryAndUpdate and Union with compatible filters in which x was inserted (and no Invert/Intersect/Reset since).", "quantifier": "every capacity, number of hashes, hash function values and history", "why_tests_cant": "The claim ranges over all histories and hash values.", "anchors": ["filters/bloom_filter.go: update, query, queryAndUpdate, UnionWith"]}
{"id": "C14", "title": "Bloom set operations act bitwise", "statement": "UnionWith, Intersect and Invert set the filter's bit array to the bitwise or, and, complement; a query of the union is implied by a query of either operand.", "quantifier": "every pair of compatible filters", "why_tests_cant": "All bit arrays.", "anchors": ["filters/bloom_filter.go", "filters/bit_array.go"]}
{"id": "C15", "title": "Bloom BitsUsed is exact", "statement": "BitsUsed() equals the number of one bits of the array after any history of operations.", "quantifier": "every history of operations", "why_tests_cant": "The counter is maintained incrementally in some operations and lazily in others.", "anchors": ["filters/bloom_filter.go: BitsUsed, internalUpdate"]}
{"id": "C16", "title": "Bloom serialization round-trips", "statement": "FromSlice(ToCompactSlice(f)) is a filter with the same seed, number of hashes and bit array, hence the same answers to every query.", "quantifier": "every filter", "why_tests_cant": "All filters.", "anchors": ["filters/bloom_filter.go: ToCompactSlice, NewBloomFilterFromSlice"]}
{"id": "C17", "title": "Count-min never underestimates", "statement": "With non-negative weights, GetEstimate(x) is at least the total weight of x, and at most the total weight of the stream, for every hash functions.", "quantifier": "every stream, item, number of hashes and buckets", "why_tests_cant": "Requires all collision patterns.", "anchors": ["count/count_min_sketch.go"]}
{"id": "C18", "title": "Count-min merge is stream concatenation", "statement": "Merging two compatible sketches gives the sketch of the concatenated streams (all counters, total weight, every estimate).", "quantifier": "every pair of streams", "why_tests_cant": "All histories.", "anchors": ["count/count_min_sketch.go: Merge"]}
{"id": "C19", "title": "Count-min serialization round-trips", "statement": "Deserialize(Serialize(s)) has the same counters, total weight and parameters.", "quantifier": "every sketch", "why_tests_cant": "All counters.", "anchors": ["count/count_min_sketch.go: Serialize, Deserialize"]}
{"id": "C20", "title": "Frequent-items bounds bracket the true frequency", "statement": "For every item, GetLowerBound <= true total weight <= GetUpperBound, GetUpperBound - GetLowerBound = GetMaximumError, and GetEstimate lies between the bounds, after any history of updates, merges, resets and serialization round trips in which no sketch that a purge has emptied is merged from or serialized (that exception is real: see C49).", "quantifier": "every history of update/merge/reset/serialize with total weight below 2^63, every map size, every hash function, both the longs and the generic items sketch", "why_tests_cant": "Depends on the purge sequence.", "anchors": ["frequencies/longs_sketch.go", "frequencies/reverse_purge_long_hash_map.go"]}
{"id": "C21", "title": "The reverse-purge hash map refines a finite map", "statement": "The map behaves as a finite map from items to counts under adjust-or-put, delete of non-positive entries, resize and purge: no item is lost, duplicated, or mis-counted, whatever the collisions and the order.", "quantifier": "every hash function and operation history", "why_tests_cant": "Deletion in linear probing moves other entries; bugs need special cluster shapes.", "anchors": ["frequencies/reverse_purge_long_hash_map.go: adjustOrPutValue, hashDelete, keepOnlyPositiveCounts, resize, purge"]}
{"id": "C22", "title": "Frequent-items query has no false negatives / positives", "statement": "With NoFalseNegatives every item whose true frequency exceeds max(threshold, GetMaximumError) is returned; with NoFalsePositives every returned item's true frequency is at least max(threshold, GetMaximumError). Rows carry the item's bounds, in descending order, one per item.", "quantifier": "every history as in C20 and every threshold", "why_tests_cant": "All streams.", "anchors": ["frequencies/longs_sketch.go: GetFrequentItems"]}
{"id": "C23", "title": "Frequent-items stream weight and error accounting", "statement": "GetStreamLength equals the sum of the weights; the lower bounds of the tracked items plus GetMaximumError times the guaranteed share of the map (half of min(1024, 3/4 of the map)) never exceed the stream length; hence GetMaximumError <= (8/3) * streamLength / maxMapSize for maps of up to 1024 cells and <= streamLength/512 beyond.", "quantifier": "every history as in C20, every map size", "why_tests_cant": "All streams.", "anchors": ["frequencies/longs_sketch.go: UpdateMany, GetStreamLength", "frequencies/reverse_purge_long_hash_map.go: purge"]}
{"id": "C24", "title": "HLL registers are maxima", "statement": "In HLL mode, for each of the three target types, the value of slot s is the maximum coupon value over all coupons presented for slot s, whatever the order and duplicates; the three types agree.", "quantifier": "every lgK and every coupon sequence", "why_tests_cant": "HLL_4 keeps values relative to a moving minimum with an exception table.", "anchors": ["hll/hll_8array.go", "hll/hll_6array.go", "hll/hll_4array.go", "hll/hll_4update.go", "hll/aux_hash_map.go"]}
{"id": "C25", "title": "HLL list and set modes hold exactly the distinct coupons", "statement": "Before promotion the sketch holds exactly the distinct non-empty coupons presented, each once; the open-addressing set never overflows; promotion preserves them.", "quantifier": "every coupon sequence", "why_tests_cant": "Collision patterns and growth points.", "anchors": ["hll/coupon_list.go", "hll/coupon_hash_set.go", "hll/hll_sketch.go"]}
{"id": "C26", "title": "HLL_6 packed array get/put", "statement": "put6Bit(slot,v) changes only that slot's value: get6Bit returns v there and the old value at every other slot, without reading or writing past the array.", "quantifier": "all slots, values and array contents", "why_tests_cant": "Neighbouring slots share bytes.", "anchors": ["hll/hll_6array.go: get6Bit, put6Bit"]}
{"id": "C27", "title": "HLL union takes slot-wise maxima", "statement": "The union of sketches equals the sketch of the union of their coupons (for equal lgK), independently of order, modes and target types.", "quantifier": "all sequences of input sketches", "why_tests_cant": "All mode/type combinations and histories.", "anchors": ["hll/union.go"]}
{"id": "C28", "title": "KLL conserves weight", "statement": "For all update and merge histories and all random bits, the retained items weighted by 2^level sum to N, and N is the number of items presented.", "quantifier": "every k, every history, every outcome of the random bits", "why_tests_cant": "Random choices and merge shapes.", "anchors": ["kll/items_sketch.go: updateItem, compressWhileUpdatingSketch, mergeItemsSketch, generalItemsCompress"]}
{"id": "C29", "title": "KLL levels stay sorted and within capacity, and no update panics", "statement": "Every level above 0 is sorted, level boundaries are monotone, the item array has the computed capacity, and no index is out of range, for all histories.", "quantifier": "every valid k and history", "why_tests_cant": "Index errors occur at specific level shapes.", "anchors": ["kll/items_sketch.go"]}
{"id": "C30", "title": "KLL min, max and retained items are inputs", "statement": "Min and max are exactly those of the stream; the retained items are a sub-multiset of the stream.", "quantifier": "every history", "why_tests_cant": "All histories.", "anchors": ["kll/items_sketch.go"]}
{"id": "C31", "title": "KLL is exact before the first compaction", "statement": "While the stream has at most k items (k the smallest parameter of the sketches involved), however updates and merges are interleaved, the sketch is not in estimation mode; a sketch that is not in estimation mode retains exactly the stream, each item with weight 1, and its ranks are exact.", "quantifier": "every history of updates, merges and resets", "why_tests_cant": "All streams.", "anchors": ["kll/items_sketch.go", "kll/items_sketch_sorted_view.go"]}
{"id": "C32", "title": "KLL deterministic rank error bound", "statement": "The estimated rank of any value differs from its true rank by at most the sum over compactions of the weight of the compacted level.", "quantifier": "every history, every value, every random bits", "why_tests_cant": "Worst case over random outcomes.", "anchors": ["kll/items_sketch.go: randomlyHalveUp, randomlyHalveDown, mergeSortedItemsArrays"]}
{"id": "C33", "title": "Sorted view rank and quantile agree with the retained weighted multiset", "statement": "GetRank(x, inclusive) is the total weight of retained items <= x (or < x) over N; GetQuantile(r) is the smallest (or first exceeding) retained item whose cumulative weight reaches r*N; rank is monotone and rank of quantile is consistent.", "quantifier": "every sketch, item, rank and criterion", "why_tests_cant": "All item multisets with duplicates.", "anchors": ["kll/items_sketch_sorted_view.go", "internal/inequality_search.go"]}
{"id": "C34", "title": "Binary search with inequality is correct", "statement": "FindWithInequality returns the extremal index satisfying the criterion, or -1 when none does, on every sorted array with duplicates.", "quantifier": "every sorted array, bounds, value and the four criteria", "why_tests_cant": "All duplicate patterns.", "anchors": ["internal/inequality_search.go: FindWithInequality"]}
{"id": "C35", "title": "REQ conserves weight and never fails", "statement": "For every history of updates, merges, resets and queries of REQ sketches of one accuracy mode, and all random bits: no operation fails or panics (fewer than 2^47 items); the weights of the items All returns add up to N, each is 2^level, and the items are a sub-multiset of the stream; the number retained is below the nominal size; every compactor flagged as sorted is sorted; a compaction removes an even number of items (at least 4) from the inaccurate end, keeps at least half the nominal capacity, and promotes every second of the removed items in order. NewSketch accepts exactly the even k from 4 to 1024, and merging a non-empty sketch of the other mode is an error.", "quantifier": "every k, both accuracy modes, every history, every outcome of the random bits", "why_tests_cant": "Adaptive compaction schedule.", "anchors": ["req/sketch.go: Update, Merge, Reset, compress, All, refreshSortedView", "req/compactor.go: Compact, Merge, Append, promoteEvensOrOddsInto, computeCompactionRange, ensureEnoughSections", "common/quantiles/numeric_sorted_view.go: Rank, Quantile", "internal/quantiles/sorted_view.go: IncludeMinMax"]}
{"id": "C36", "title": "Reservoir sample size and membership", "statement": "After n updates the reservoir holds min(n,k) items, all from the stream at distinct positions; while n <= k it holds the whole stream in order.", "quantifier": "every k, stream and random choices", "why_tests_cant": "All random outcomes.", "anchors": ["sampling/reservoir_items_sketch.go: Update"]}
{"id": "C37", "title": "Reservoir sampling is uniform", "statement": "Over all equally likely random choices each stream position is retained with probability exactly k/n, and every set of k positions is equally likely to be the sample.", "quantifier": "every 2 <= k <= n <= 2^48-1, every resize factor", "why_tests_cant": "A counting statement over all random outcomes; statistical tests only approximate it.", "anchors": ["sampling/reservoir_items_sketch.go: Update"]}
{"id": "C38", "title": "Reservoir union counts and size", "statement": "The union's N is the sum of the inputs' N; it holds min(N, its k) items with its k at most maxK, all of them samples of the inputs, each used at most once; if all inputs are exact and the total is at most maxK nothing is lost.", "quantifier": "every maxK >= 2, every sequence of items and input sketches and all random choices, totals up to 2^48-1", "why_tests_cant": "All histories.", "anchors": ["sampling/reservoir_items_union.go"]}
{"id": "C39", "title": "VarOpt sample: size, total weight, membership and threshold", "statement": "After any updates with positive weights (never an error), All yields min(n,k) samples whose weights add up to the weight of the stream; the sampled items come from distinct positions of the stream; there is one threshold t such that every stream entry heavier than t is in the sample with its own weight and the remaining samples all have the weight t; while n <= k the sample is the whole stream. Non-positive, NaN and infinite weights are refused. EstimateSubsetSum returns the weight of the samples that satisfy the predicate.", "quantifier": "every k, weights and random choices (exact arithmetic)", "why_tests_cant": "All histories.", "anchors": ["sampling/varopt_items_sketch.go"]}
{"id": "C40", "title": "t-digest accounts for every value", "statement": "After any history TotalWeight is the number of values put in; the retained centroids are averages of disjoint groups of those values whose sizes are their weights; they are sorted; MinValue and MaxValue are exact; the first and last centroid stand for one value. Update never fails, and Merge fails only for an empty sketch.", "quantifier": "every history of new, update, merge (also of different k), query, compression and encode/decode; any scale-function decisions; exact arithmetic", "why_tests_cant": "All histories.", "anchors": ["tdigest/double.go: NewDouble, Update, Merge, compress, merge"]}
{"id": "C41", "title": "t-digest rank and quantile are within range and monotone", "statement": "Rank is in [0,1], 0 below the minimum, 1 above the maximum and non-decreasing; Quantile is in [min,max]; asking does not change later answers; CDF is non-decreasing and ends in 1; PMF is non-negative and sums to 1.", "quantifier": "every reachable digest, every finite argument, every increasing list of split points", "why_tests_cant": "All shapes of centroid lists.", "anchors": ["tdigest/double.go: Rank, Quantile, CDF, PMF"]}
{"id": "C42", "title": "Tuple sketch summaries accumulate all values of the key", "statement": "For each retained key hash the summary is the fold of the update function over exactly the values presented for that hash, in order, since it was first presented.", "quantifier": "every update sequence", "why_tests_cant": "All interleavings of keys, rebuilds.", "anchors": ["tuple/update_sketch.go: insertOrUpdate", "tuple/hashtable.go"]}
{"id": "C43", "title": "Tuple set operations combine summaries by policy", "statement": "Union and intersection results hold for each hash the policy-combination of the inputs' summaries; A-not-B keeps a's summaries.", "quantifier": "every sequence of inputs", "why_tests_cant": "All inputs.", "anchors": ["tuple/union.go", "tuple/intersection.go", "tuple/a_not_b.go"]}
{"id": "C44", "title": "CPC pair table is a set", "statement": "Insertion, deletion and rebuilding of the sketch's pair table behave as insertion and deletion on a finite set of row-column pairs and report novelty correctly, for every collision pattern and every history with at most 3/4*2^min(26,validBits) insertions; one pair more makes it panic.", "quantifier": "every operation history", "why_tests_cant": "Linear-probe deletion moves entries.", "anchors": ["cpc/pair_table.go"]}
{"id": "C45", "title": "CPC sketch represents exactly the coupons seen", "statement": "In every flavor the bit matrix of the sketch is exactly the set of (row,column) coupons presented, the coupon count is its size, Validate succeeds, re-presenting a coupon changes nothing and the order of updates is invisible, for every history whose surprising values fit the pair table: in particular every history with at most half as many distinct coupons as the table has room for (24*K for lgK <= 20). Beyond that adversarial hashes make Update panic or fail (refuted theorems).", "quantifier": "every lgK and coupon sequence", "why_tests_cant": "Windowed representation inverts bits around a moving offset.", "anchors": ["cpc/cpc_sketch.go: rowColUpdate, updateSparse, updateWindowed, promoteSparseToWindowed, modifyOffset, bitMatrixOfSketch"]}
{"id": "C46", "title": "CPC union is the union of the coupon sets, downsampled", "statement": "The union's bit matrix is the or of the inputs' matrices with rows folded to the smallest lgK of the union and its non-empty inputs, and GetResult is a merged sketch representing that set; inputs with another seed are refused. No size condition when all lgK agree; otherwise the coupons must fit the pair table.", "quantifier": "every sequence of input sketches", "why_tests_cant": "All flavor and lgK combinations.", "anchors": ["cpc/cpc_union.go"]}
{"id": "C47", "title": "CPC serialization round-trips in every flavor", "statement": "Reading back the bytes a CPC sketch wrote gives a sketch with the same lgK, number of coupons, window offset, first interesting column, HIP registers, merged flag and bit matrix, and every later stream of updates keeps the two indistinguishable; this holds for sketches built from any stream and for results of any union. Serializing never panics, and it succeeds whenever at most 17 surprising pairs are held; with more, the only other outcome is an error from the sort of the pairs. The seed check accepts exactly the seeds with the stored hash.", "quantifier": "every lgK, every stream short of the limits of the pair table, every union, every seed and seed hash function, every value of the HIP registers", "why_tests_cant": "Five flavors, 22 pairs of code tables, every window and pair list; the sort that breaks needs an unlucky order of the pairs.", "anchors": ["cpc/cpc_compressed_state.go", "cpc/compression_data.go", "cpc/cpc_sketch.go ToSlice, NewCpcSketchFromSlice", "cpc/pair_table.go introspectiveInsertionSort"]}
{"id": "C48", "title": "Item serdes round-trip", "statement": "DeserializeMany(SerializeMany(items)) = items and SizeOfMany gives the byte count for long, float, double and string items at every offset.", "quantifier": "every list of items", "why_tests_cant": "All lists including empty strings.", "anchors": ["common/item_sketch_*.go"]}
{"id": "C49", "title": "Frequent-items sketches survive their byte and string forms", "statement": "For a frequent-items sketch that no purge has emptied, ToSlice succeeds (a longs sketch gives exactly 8 bytes when empty and 32 + 16 n bytes with n tracked items), the constructor from a slice accepts the bytes, and the sketch it gives back answers every query alike: lower bound, upper bound and estimate of every item, maximum error, stream length, number of tracked items, and (unless an items sketch is empty) maximum map size. The same holds for ToString and NewLongsSketchFromString when no key is negative, also for a sketch a purge has emptied. The exceptions are real: a sketch emptied by a purge reports IsEmpty, and merging or serializing it to bytes forgets its error offset and stream length; a negative key makes its own string unreadable; and an 8-byte slice with the empty flag clear makes the constructors panic instead of returning an error.", "quantifier": "every history of update/merge/reset/serialize with total weight below 2^63, map sizes up to 2^10 (longs) or 2^15 (items) for success and up to 2^31 cells for agreement, every hash function, every int64 key (longs), every item type with a serializer that reads back what it wrote (items), instantiated for the library's string serializer", "why_tests_cant": "The bytes depend on the table left by any sequence of growth, purges and merges.", "anchors": ["frequencies/longs_sketch.go: ToSlice, NewLongsSketchFromSlice, ToString, NewLongsSketchFromString, Merge, IsEmpty", "frequencies/items_sketch.go: ToSlice, NewFrequencyItemsSketchFromSlice", "frequencies/preamble_utils.go", "frequencies/reverse_purge_long_hash_map.go: serializeToString, deserializeFromStringArray"]}
{"id": "C50", "title": "Frequent-items operations never fail", "statement": "With lgCurMapSize <= lgMaxMapSize <= 10 (longs) or 15 (items), positive lgMaxMapSize for items, non-negative weights and total weight below 2^63, no update, merge, reset or serialization round trip returns an error or panics: the drift limit of the probe sequence and the failed-purge error are unreachable.", "quantifier": "every history and every (adversarial) hash function", "why_tests_cant": "Drift limit needs thousands of adversarial collisions.", "anchors": ["frequencies/reverse_purge_long_hash_map.go: adjustOrPutValue, hashDelete", "frequencies/longs_sketch.go: UpdateMany"]}
{"id": "C51", "title": "Reservoir sketch serialization round-trip", "statement": "Reading back the bytes written by ToSlice gives a sketch with the same k, n, resize factor and samples, provided the item serde round-trips.", "quantifier": "every reachable sketch with k < 2^32, every item type and serde", "why_tests_cant": "All sketch states and item types.", "anchors": ["sampling/reservoir_items_sketch.go: ToSlice, NewReservoirItemsSketchFromSlice"]}
{"id": "C52", "title": "Reservoir updates never fail below the documented limit", "statement": "Update on a reservoir sketch or union (maxK >= 2) never returns an error and never panics until 2^48-1 items have been seen, whatever capacities the runtime gives the growing slice.", "quantifier": "every reachable state, every runtime growth policy", "why_tests_cant": "All histories of growth and all states.", "anchors": ["sampling/reservoir_items_sketch.go: Update, growReservoir", "sampling/reservoir_items_union.go: Update, UpdateSketch"]}
{"id": "C53", "title": "Tuple Filter keeps exactly the matching entries", "statement": "Filter(predicate) on a tuple sketch returns a compact sketch holding exactly the entries whose summary satisfies the predicate, with theta, seed hash and order kept; it is flagged empty only if nothing is kept and the source is not in estimation mode.", "quantifier": "every well-formed tuple sketch and every predicate on summaries", "why_tests_cant": "Tests filter a few sketches with a few predicates.", "anchors": ["tuple/compact_sketch.go: Filter, newFilteredCompactSketch", "tuple/update_sketch.go: Filter"]}
{"id": "C54", "title": "Truncated and foreign theta images are refused", "statement": "No strict prefix of a serialized theta sketch (compressed or not) is accepted by Decode as a sketch, and the image of a non-empty sketch is refused with an error under any seed other than the one it was built with.", "quantifier": "every sketch the API can return, both encodings, every cut point, every other seed hash", "why_tests_cant": "An exhaustive choice of sketches, cut points and seeds is infinite; a single offset that under-checks the length lets a damaged image through as a plausible sketch.", "anchors": ["theta/decoder.go: Decode, decodeCompactSketch, decodeVersion3, decodeVersion4, validateMemorySize"]}
{"id": "C55", "title": "A wrapped theta sketch is the decoded sketch", "statement": "For every byte string Decode accepts, the sketch obtained by wrapping the bytes without copying iterates over exactly the entries, in order, of the decoded sketch and reports the same theta, seed hash, emptiness and count.", "quantifier": "every byte string", "why_tests_cant": "The two code paths unpack the same bits with different loops; tests compare them on a few sketches only.", "anchors": ["theta/wrapped_compact_sketch.go: WrapCompactSketch, All", "theta/decoder.go: Decode"]}
{"id": "C56", "title": "REQ minimum and maximum are exact", "statement": "After any history, Min and Max of a non-empty REQ sketch are the least and greatest items presented, unless a sketch was merged into one straight from NewSketch (then 0 is mixed in: refuted theorem); on an empty sketch they are an error.", "quantifier": "every history of updates (NaN included), merges, resets, queries", "why_tests_cant": "Depends on the order of creation, reset and merge in the history.", "anchors": ["req/sketch.go: Update, Merge, Reset, compress, All, refreshSortedView", "req/compactor.go: Compact, Merge, Append, promoteEvensOrOddsInto, computeCompactionRange, ensureEnoughSections", "common/quantiles/numeric_sorted_view.go: Rank, Quantile", "internal/quantiles/sorted_view.go: IncludeMinMax"]}
{"id": "C57", "title": "REQ rank error is bounded and the accurate end is exact", "statement": "A rank is the weight of the retained items counted, with min and max accounted for separately; it is monotone and at most N; its error is at most the sum of 2^level over the compactions made; it is exact whenever at most 3k items lie beyond it at the accurate end (k the smallest of the parts), in particular wherever the sketch itself reports a lower and upper bound equal to the rank (except at the very edge of that range: refuted theorem); and below 6k items nothing is compacted and every rank is exact.", "quantifier": "every history, every query value, inclusive and exclusive, every outcome of the random bits", "why_tests_cant": "Error guarantees quantify over all streams, merge trees and coin flips.", "anchors": ["req/sketch.go: Update, Merge, Reset, compress, All, refreshSortedView", "req/compactor.go: Compact, Merge, Append, promoteEvensOrOddsInto, computeCompactionRange, ensureEnoughSections", "common/quantiles/numeric_sorted_view.go: Rank, Quantile", "internal/quantiles/sorted_view.go: IncludeMinMax", "req/sketch.go: isExactRank, RankLowerBound, RankUpperBound"]}
{"id": "C58", "title": "REQ quantile is the inverse of rank", "statement": "Quantile of rank r returns the least among min, max and the retained items whose inclusive rank reaches r, or the greatest of them if none does.", "quantifier": "every history, every natural rank, inclusive and exclusive", "why_tests_cant": "Ties, weights and the extremes added to the view interact.", "anchors": ["req/sketch.go: Update, Merge, Reset, compress, All, refreshSortedView", "req/compactor.go: Compact, Merge, Append, promoteEvensOrOddsInto, computeCompactionRange, ensureEnoughSections", "common/quantiles/numeric_sorted_view.go: Rank, Quantile", "internal/quantiles/sorted_view.go: IncludeMinMax"]}
{"id": "C59", "title": "VarOpt union samples the concatenated streams", "statement": "A VarOpt union of any number of sketches, reservoirs and earlier union results (of any k) never fails; its Result has k at most maxK, n equal to the number of items of all the streams, sample weights adding up to the weight of all the streams, and samples from distinct positions of the streams.", "quantifier": "every sequence of union updates and resets, every maxK, all random choices (exact arithmetic)", "why_tests_cant": "All histories and random outcomes.", "anchors": ["sampling/varopt_items_union.go: UpdateSketch, UpdateReservoirItemsSketch, Result"]}
{"id": "C60", "title": "VarOpt subset sums are unbiased", "statement": "For every predicate the expected value, over the random choices, of the subset weight estimated from the sketch is exactly the weight of the stream items that satisfy the predicate.", "quantifier": "every k, stream of positive weights and predicate (exact arithmetic; uniform independent draws)", "why_tests_cant": "A statement about an expectation over all random outcomes.", "anchors": ["sampling/varopt_items_sketch.go: Update, EstimateSubsetSum"]}
{"id": "C61", "title": "VarOpt serialization round trip", "statement": "Decoding an encoded VarOpt sketch gives the same k, n, resize factor, samples, weights and estimates; while nothing has been dropped it gives an identical sketch. The same for unions.", "quantifier": "every sketch built by updates, every union, and every item serializer that reads back what it wrote", "why_tests_cant": "All states and all payloads.", "anchors": ["sampling/varopt_items_sketch_encoder.go", "sampling/varopt_items_sketch_decoder.go", "sampling/varopt_items_union_encoder.go", "sampling/varopt_items_union_decoder.go"]}
{"id": "C62", "title": "t-digest serialization round trip", "statement": "Both encoders write the same bytes, as many as SerializedSizeBytes says, and both decoders give back a digest of the same values (the same digest if it has two values or more), ignoring what follows. DecodeDouble does not panic on any bytes except one malformed length of the compatibility format, and both decoders agree on every input of the native format unless its maximum is NaN.", "quantifier": "every reachable digest whose values are float64 numbers, withBuffer true or false; every byte string for the decoders", "why_tests_cant": "All states, and all byte strings.", "anchors": ["tdigest/double_encoder.go", "tdigest/double_decoder.go", "tdigest/double.go: SerializedSizeBytes"]}
{"id": "C63", "title": "t-digest is exact on small streams", "statement": "While fewer than 2k/3 values were put in, every centroid is one value, Rank of a value of the stream is exactly the mid-rank (values below + values not above) / 2n, and off by at most half a value for others, and Quantile is the exact quantile, a value of the stream.", "quantifier": "every history of operations and sketches with fewer than 2k/3 values in total", "why_tests_cant": "All histories and orders, merges and reloads included.", "anchors": ["tdigest/double.go: merge, Rank, Quantile"]}
{"id": "C64", "title": "HLL byte images do not show", "statement": "A sketch built by updates and sent through its byte image (ToCompactSlice or ToUpdatableSlice, then NewHllSketchFromSlice) any number of times, at any points of its life, is still a sketch of exactly the items put into it: same coupons or registers, same estimates, and it accepts or refuses every later item exactly as the sketch that was never sent does. Writing and reading back never fail. The image has the documented layout (preamble, coupons or packed registers, exceptions), and GetUpdatableSerializationBytes is its length. In float64 the estimate, the composite estimate and the bounds for any number of standard deviations are bit for bit those of the sketch that was never sent. A union result (in a coupon mode, or asked for as HLL_4 or HLL_6) is written and read back without failing, and what is read is a sketch of exactly the items of the union and answers as the result does.", "quantifier": "all lgK 4..21, all three types, all interleavings of items and byte round trips in either form; all union histories", "why_tests_cant": "the image depends on the mode, the hash tables' insertion histories and the exceptions of HLL_4, and the effects of a badly rebuilt table appear only in later updates", "anchors": ["hll/to_slice_impl.go: toHllByteArr, toCouponSlice, insertCommonHll, insertAux", "hll/preamble_utils.go", "hll/hll_sketch.go: NewHllSketchFromSlice", "hll/coupon_list.go: deserializeCouponList", "hll/coupon_hash_set.go: deserializeCouponHashSet", "hll/hll_array.go: extractCommonHll", "hll/aux_hash_map.go: deserializeAuxHashMap"]}
{"id": "C65", "title": "KLL byte images do not show", "statement": "A KLL sketch that is serialized and replaced by what its bytes read back to, any number of times, at any points of a life of updates, merges and resets, and in the sketches merged into it as well, is indistinguishable from the sketch never sent: same n, k, m, levels, retained items and weights, minimum, maximum and sorted view (hence ranks and quantiles), the same compactions later on for the same coin flips, and, unless it was reset, the same reported rank error. Writing and reading back never fail. The image has the documented layout (the empty, single-item and full forms) and GetSerializedSizeBytes is its length.", "quantifier": "all k from 8 to 32767, all m the reader accepts, all histories with fewer than 2^58 updates, all coin outcomes, and the long, double, float and non-empty-string serializers", "why_tests_cant": "the level array and the free space in front of it depend on the whole history, and a wrongly rebuilt layout shows only in compactions many updates later", "anchors": ["kll/items_sketch.go: ToSlice, NewKllItemsSketchFromSlice, currentSerializedSizeBytes, getSingleItem, getRetainedItemsArray", "kll/items_sketch_validate.go: validate", "kll/preamble_utils.go", "kll/sketch_structure.go", "common/item_sketch_long.go", "common/item_sketch_double.go", "common/item_sketch_float.go", "common/item_sketch_string.go"]}
{"id": "C66", "title": "KLL ranks are unbiased", "statement": "For every history of creating, updating, merging and resetting KLL sketches, the number of random bits used and the levels compacted do not depend on the bits, and averaged over all equally likely outcomes of the bits the total weight of the retained items that satisfy any given predicate is exactly the number of stream items that satisfy it. In particular the answer of every rank query is, on average, exactly the true rank.", "quantifier": "all histories of creations with 8 <= k <= 65535 and 2 <= m <= k, updates, merges of sketches with histories of their own and resets, with fewer than 2^60 updates; all predicates on items; all query points, inclusive or not; all item types with a strict total order", "why_tests_cant": "A bias is a statement about all outcomes of the random bits together; a test sees one outcome per run, and the number of outcomes doubles with every compaction.", "anchors": ["kll/items_sketch.go: Update, Merge, Reset, GetRank, mergeItemsSketch, compressWhileUpdatingSketch, generalItemsCompress, randomlyHalveUpItems, randomlyHalveDownItems", "kll/items_sketch_sorted_view.go: GetRank"]}
{"id": "C67", "title": "Tuple and array-of-numbers sketches survive their byte images", "statement": "Encoding any compact tuple sketch, with any summary writer and the matching reader, gives the documented bytes, and decoding them (also from a stream that continues) gives back the same hashes, summaries, theta, seed hash and empty flag; equal images mean equal sketches. Every strict prefix of an image is refused with an error, and so are another seed (for a non-empty sketch), another family, type or version, except the two legacy codes, which decode to the same sketch. Encode fails exactly when a summary writer fails, and Decode never panics on any bytes. The same holds for array-of-numbers sketches of every width and number of values, and the library's string summaries (up to 127 strings) and number summaries are such writer and reader pairs. Storing and loading an update sketch gives each retained hash with the combination of the values presented for it.", "quantifier": "every well-formed sketch, every matching summary codec, every seed, every truncation point, every byte string offered to the decoders, every update history", "why_tests_cant": "a test stores a handful of sketches with one summary type; it cannot try every sketch, every codec, every truncation point or every corrupt byte string", "anchors": ["tuple/encoder.go Encode", "tuple/decoder.go Decode", "tuple/arrayofnumbers_sketch_encoder.go Encode", "tuple/arrayofnumbers_sketch_decoder.go Decode", "tuple/arrayofstrings_sketch.go ArrayOfStringsSummaryWriter ArrayOfStringsSummaryReader GenerateHashKeyFromStrings", "tuple/compact_sketch.go newCompactSketch preambleLongs"]}
{"id": "C68", "title": "Array-of-numbers sketches sum per key and position", "statement": "Whatever the history of updates, Trims and Resets, as long as every vector presented has at least the configured number of values, every update succeeds or returns its documented error, the retained keys are those of a tuple sketch, and the summary of a retained key has, at each position, the sum of the numbers at that position over all vectors presented for the key since the last Reset; numbers beyond the configured count are ignored. A vector that is too short panics exactly when its key is accepted. Union and intersection refuse a sketch with another number of values (union ignores an empty one), and otherwise union, intersection and A-not-B give the tuple result with that number of values; the union of two streams holds the sums over both.", "quantifier": "every history of updates, every vector, every number of values, every number type and addition, every sequence of inputs to the set operations", "why_tests_cant": "a test sums a few vectors; it cannot try every interleaving of inserts, rebuilds and updates, nor every sequence of inputs to a union", "anchors": ["tuple/arrayofnumbers_sketch.go ArrayOfNumbersSummary.Update", "tuple/arrayofnumbers_update_sketch.go UpdateInt64", "tuple/arrayofnumbers_union.go Update Result", "tuple/arrayofnumbers_intersection.go Update Result", "tuple/arrayofnumbers_a_not_b.go ArrayOfNumbersSketchANotB"]}
{"id": "C69", "title": "In-place policies combine summaries correctly when sketches do not share them", "statement": "With a policy that modifies summaries in place (instead of a merge function), and input sketches that hold separate summary objects, a union after any history of Updates and Resets reports for each key the left-to-right combination of the summaries the inputs held before, and so does an intersection; an Update never changes the sketch it is given nor one not passed before; Compact copies can be passed even if the sketches share objects or are passed repeatedly, and then nothing that existed changes; a compacted copy of a union's Result and an intersection's Result are not affected by later Updates; update sketches hold their own objects, so the union of sketches fed separate streams combines exactly the folded updates of the streams that presented the key.", "quantifier": "every summary type, policy and update function, every heap of objects, every history of set operation calls and updates", "why_tests_cant": "aliasing shows only for particular sequences of calls on particular object graphs; a test covers a few", "anchors": ["tuple/union.go Update Result", "tuple/intersection.go Update Result", "tuple/compact_sketch.go NewCompactSketch NewCompactSketchFromThetaSketch", "tuple/update_sketch.go insertOrUpdate", "tuple/set_operation.go Policy"]}
{"id": "C70", "title": "Jaccard similarity and equality tests answer by the sets of hashes", "statement": "For two well-formed non-empty sketches of the given seed, Jaccard's estimate is the number of common retained hashes below some threshold divided by the number of all retained hashes below it, where the threshold is the smaller theta (unless more than 2^26 hashes are involved) and so lies in [0,1]; the lower bound is 0 when nothing is common, the upper bound 1 when everything is; in exact mode all three numbers are the Jaccard index and IsSimilar / IsDissimilar compare it with the threshold. IsExactlyEqual is true only for sketches with the same theta and hashes, is true for all such with at most 2^26 hashes, and then Jaccard is 1. The empty sketch has similarity 1 with an empty one and 0 with others, the order of the arguments does not matter, a foreign seed is an error. Tuple sketches are compared by their keys alone, whatever the policy.", "quantifier": "every pair of well-formed sketches (theta or tuple, any sizes, thetas, order flags), every policy, every value of the float curves of the binomial bounds", "why_tests_cant": "the union and the intersection inside depend on sizes, thetas and order; tests compare a few overlaps", "anchors": ["theta/jaccard_similarity.go Jaccard IsExactlyEqual IsSimilar IsDissimilar computeUnion identicalSets", "theta/bounds_on_ratios_in_sketched_sets.go", "theta/bounds_on_ratios_in_sampled_sets.go", "tuple/jaccard_similarity.go", "internal/binomialproportionsbounds ApproximateXimateLowerBoundOnP ApproximateUpperBoundOnP"]}
{"id": "C71", "title": "The key hash is the published Murmur3 and keeps keys apart", "statement": "The hash computed for a byte key, an int64 key or slice, a non-negative int32 key or a string is MurmurHash3_x64_128 of an explicit byte string (the bytes; the little-endian bytes; the string with every group of four bytes followed by as many zeros), for every length and seed, and never reads out of range. Two keys of one length that differ inside one 16-byte block never share all 128 bits; so different int64 keys, different int32 keys, and different keys of one length up to 16 bytes have different hashes, and an int32 and an int64 never share a hash. An int32 slice is the exception: only its length and the elements at even positions are hashed.", "quantifier": "all byte strings, integers, slices, lengths and seeds", "why_tests_cant": "a test compares a few published vectors; a wrong tail case, block boundary or lost bit shows only for particular lengths and values", "anchors": ["internal/murmur3.go HashByteArrMurmur3 HashCharSliceMurmur3 HashInt32SliceMurmur3 HashInt64SliceMurmur3 getUint64 mixK1 mixK2 finalMix64 blockMix128 finalMix128"]}
{"id": "C72", "title": "Typed updates: which values are the same key", "statement": "Every typed update of a theta or tuple sketch is the update with the hash of an explicit key, so two values with the same key have the same effect and error in every state, and after any typed updates the sketch holds exactly the hashes below theta of the keys presented. 64-bit integers (signed or unsigned, and uint32) are one key per value and equal to their eight little-endian bytes; integers of 8, 16 and 32 bits are one key per value; float64 and float32 are one key per IEEE value (-0.0 is 0.0, all NaNs are one, a float32 is its float64), whatever the bit pattern; an empty string is refused and changes nothing. CPC and HLL updates are the published hash of the value's bytes, empty inputs ignored. The exceptions are stated: a 32-bit and a 64-bit integer, or a string and the same bytes, are different keys, and a CPC int32 slice ignores odd positions.", "quantifier": "all typed values of all update methods, all seeds, all sketch states and all sequences of updates", "why_tests_cant": "a test tries a few values per type; float canonicalisation and sign extension fail only on particular bit patterns", "anchors": ["theta/update_sketch.go UpdateUint64 UpdateInt64 UpdateUint32 UpdateInt32 UpdateUint16 UpdateInt16 UpdateUint8 UpdateInt8 UpdateFloat64 UpdateFloat32 UpdateString UpdateBytes canonicalDouble", "theta/hashtable.go HashStringAndScreen HashInt32AndScreen HashInt64AndScreen HashBytesAndScreen", "tuple/update_sketch.go", "tuple/hashtable.go", "cpc/cpc_sketch.go UpdateUint64 UpdateFloat64 UpdateInt64Slice UpdateInt32Slice UpdateByteSlice UpdateString", "hll/hll_sketch.go UpdateUInt64 UpdateSlice UpdateString"]}
{"id": "C73", "title": "Bloom filter: which values are the same item, across types", "statement": "Every typed Update, Query and QueryAndUpdate of a Bloom filter works on an explicit byte string of its argument, hashed by XXH64 with the filter's seed and then with the first hash as seed; the optimized integer path computes the same hashes. So what was added as one type is found as any other with the same bytes, after every history of the filter: an int64 as the uint64 of the same bits, as its eight bytes and as a one-element array, a string as its bytes; a float64 is found by value (-0.0 as 0.0, every NaN as every other). Empty strings and arrays change nothing and are never found. Different 64-bit integers have different hashes under every seed. Arrays of floats are the exception: they are compared by bits.", "quantifier": "all typed values, seeds, filter configurations and histories including unions, intersections and serialization", "why_tests_cant": "tests add and query with the same method; a wrong constant in the fast path or a missing canonicalisation shows up only when types are mixed or for particular bit patterns", "anchors": ["filters/bloom_filter.go computeHashes hashLongOptimized computeHashesForLong UpdateInt64 UpdateUInt64 UpdateString UpdateSlice UpdateFloat64 UpdateInt64Array UpdateFloat64Array Query* QueryAndUpdate*"]}
{"id": "C74", "title": "Theta and tuple sketches: estimates and their bounds", "statement": "Theta() is a number in (0,1]. Outside estimation mode Estimate, LowerBound and UpperBound are exactly the number of retained entries, which for a theta sketch is the number of distinct hashes presented, whatever numStdDevs. In every mode the number of retained entries <= LowerBound <= Estimate <= UpperBound, in float64 arithmetic with rounding; none is NaN. Estimate is the count divided by the sampled fraction up to a relative error of 2^-51, grows with the count and shrinks as theta grows. The bounds always return, never panic, and in estimation mode fail exactly when numStdDevs is not 1, 2 or 3. The same holds for bounds from a subset of a tuple sketch.", "quantifier": "all histories of a theta sketch; all theta values 1..2^63-1, all counts, all numStdDevs, all sampling probabilities", "why_tests_cant": "the order of the three answers depends on rounding in every intermediate result and on 726 table entries; tests look at a few counts and theta values", "anchors": ["internal/binomialbounds/binomialbounds.go LowerBound UpperBound contClassicLB contClassicUB specialNStar specialNPrimeB specialNPrimeF lbEquivTable ubEquivTable", "theta/update_sketch.go Estimate LowerBound UpperBound Theta", "theta/compact_sketch.go", "theta/wrapped_compact_sketch.go", "tuple/update_sketch.go LowerBoundFromSubset UpperBoundFromSubset", "theta/utils.go startingThetaFromP"]}
{"id": "C75", "title": "KLL: normalised ranks, quantiles, CDF, PMF and partition boundaries in float64", "statement": "On a non-empty KLL sketch GetRank returns the retained weight at or below (or below) the item divided by n, correctly rounded: a number in [0,1], non-decreasing in the item, at least as large inclusive as exclusive. GetQuantile(rank) for a rank in [0,1] returns a retained item whose cumulative weight is the first to reach rank*n up to the rounding of the conversion (10^-7 items up to ten million items, a relative 2^-53 beyond), non-decreasing in the rank; other ranks are refused. Up to ten million items the natural rank behind a normalised rank is recovered exactly, so GetQuantile(GetRank(x)) of a retained x is x itself. GetCDF refuses split points that are not strictly increasing and otherwise returns a non-decreasing list in [0,1] of the ranks ending in 1; GetPMF returns its differences, all in [0,1], adding up to 1 up to rounding. GetPartitionBoundaries(m) returns m+1 items of the stream in order from the minimum to the maximum at normalised ranks k/m, with counts that add up to n. Every query on an empty sketch is refused.", "quantifier": "all histories of updates and merges of a KLL sketch, all coin flips, all items, all float64 ranks, all lists of split points, all numbers of partitions", "why_tests_cant": "the answers go through divisions, products and roundings of float64 whose result depends on n, and the partition counts on the interaction of four in-place writes with the search; tests check a few streams with tolerances", "anchors": ["kll/items_sketch.go GetRank GetRanks GetQuantile GetQuantiles GetPMF GetCDF GetPartitionBoundaries", "kll/items_sketch_sorted_view.go", "kll/items_sketch_partition_boundaries.go", "kll/utils.go evenlySpacedDoubles checkItems", "internal/quantiles/utils.go"]}
{"id": "C76", "title": "REQ: normalised ranks, quantiles, CDF, PMF and error bounds in float64", "statement": "On a non-empty REQ sketch Rank(x) of a finite x is the weight counted for x (the retained weight at or below x, clamped so that nothing lies below the minimum and everything up to the maximum) divided by n, correctly rounded: in [0,1], non-decreasing in x, at least as large inclusive as exclusive, 0 below the stream and 1 above it. Quantile(rank) for a rank in [0,1] returns the least of the retained items and extremes for which enough is counted, is non-decreasing in the rank, and up to ten million items gives back an item of the same rank as the one the rank came from; other ranks are refused. CDF and PMF as for KLL. RankLowerBound <= rank <= RankUpperBound, for 1, 2 or 3 standard deviations; they equal the rank where the sketch takes it to be exact (one level, at most 3k items in all or from the accurate end) and otherwise lie at sd times the lesser of 0.084/k and sqrt(0.0512/3)/k times the distance from the accurate end, up to 2^-51; on the accurate side they stay in [0,1]. QuantileLowerBound <= Quantile <= QuantileUpperBound where they answer, and they always answer on the accurate side. ComputeRSE is the corresponding non-negative error.", "quantifier": "all histories of creations, updates, merges, resets and queries of REQ sketches of one accuracy mode, all random bits, all finite items, all float64 ranks, all lists of split points, sd from 0 to 3, k from 4 to 1024", "why_tests_cant": "the answers go through float64 divisions, products and comparisons against thresholds that depend on k and n; tests check a few sketches with tolerances and never the ends of the range, where the quantile bounds fail", "anchors": ["req/sketch.go Rank Ranks Quantile Quantiles CDF PMF RankLowerBound RankUpperBound QuantileLowerBound QuantileUpperBound computeRankLowerBound computeRankUpperBound isExactRank", "req/utils.go ComputeRSE", "common/quantiles/numeric_sorted_view.go", "internal/quantiles/utils.go"]}
{"id": "C77", "title": "HLL: estimates and confidence bounds in float64", "statement": "For an HLL sketch of any lgK from 4 to 21 and any type, fed any sequence of items: GetEstimate, GetLowerBound and GetUpperBound for 1, 2 or 3 standard deviations always return finite numbers and (number of distinct codes held, or of occupied slots) <= lower bound <= estimate <= upper bound; more standard deviations never give narrower bounds, and other numbers of standard deviations are refused. Feeding more items never lowers the estimate, not even when the sketch changes its internal mode. While the sketch stores distinct codes, n of them, the estimate is n + n^2/(6*2^26) to 1/16. Afterwards it is, to 1/16 and a relative 2^-24, that number at the change of mode plus, for each later item that changes a slot, the inverse of the probability (the mean over the slots of 2^-rank) that a new item does. The two running sums of inverse powers behind the estimate hold the exact sums after any history of updates, and their sum is rounded once. The composite estimate is finite and depends on the set of items only; the result of a union has that of one sketch fed all the items.", "quantifier": "all lgK from 4 to 21, all target types, all sequences of items (given by 128-bit hashes), sd 1 to 3; all histories of register updates; all unions of compatible sketches and items; any math.Log that is finite and between 0 and x for 1 <= x <= 2^53, with log 2 between 1/2 and 1", "why_tests_cant": "the estimate accumulates float64 increments over the whole history and the composite one goes through interpolation in tables of up to 257 points with three regimes; tests check a few sizes within a tolerance of several percent, so an inversion of bounds or a drop of the estimate at a change of mode goes unseen", "anchors": ["hll/hll_array.go hipAndKxQIncrementalUpdate incrementalUpdateKxQ GetEstimate GetCompositeEstimate GetUpperBound GetLowerBound", "hll/hll_estimator.go hllCompositeEstimate getHllBitMapEstimate getHllRawEstimate hllUpperBound hllLowerBound", "hll/coupon_list.go GetEstimate GetLowerBound GetUpperBound", "hll/cubic_interpolation.go usingXAndYTables usingXArrAndYStride findStraddle", "hll/harmonic_numbers.go getBitMapEstimate harmonicNumber", "hll/relative_error_tables.go getRelErrKLT12", "hll/union.go checkRebuildCurMinNumKxQ"]}
{"id": "C78", "title": "CPC: estimates and confidence bounds in float64", "statement": "For a CPC sketch of any lgK from 4 to 26 that was only updated, GetEstimate is finite, at least the number of distinct coupons, never lowered by further updates, and equals the historic inverse probability estimate of the history (the sum, over the updates that brought a new coupon, of the inverse of the probability of a new one) up to a stated relative rounding error. GetLowerBound and GetUpperBound for kappa 1, 2 or 3 are finite with (number of distinct coupons) <= lower bound <= estimate <= upper bound, the upper bound is a whole number, a larger kappa never gives narrower bounds, and the bounds are max(n, estimate / (1 + eps)) and estimate / (1 - eps) rounded up, to within 2^-40, with eps = kappa times the published error constant over sqrt(K). The result of a union answers with the ICON estimate: also finite, at least the number of coupons held, exact for 0 and 1 coupons, enclosed by its bounds, and it explains the coupons: the number of distinct coupons expected from that many items is the number held, to within a sixteenth. Values of kappa outside 1..3 are not refused: the calls panic or answer from another row of the table.", "quantifier": "all lgK from 4 to 26, all histories of hashes whose pair table does not overflow and whose columns stay below d with d <= 47 and lgK + d <= 53, kappa 1 to 3; all unions of compatible sketches whose coupons fit; any math.Log with log 2 between 1/2 and 1 and any math.Pow within 1/64 on 2^y, 5 <= y <= 64", "why_tests_cant": "the estimate divides by a running float64 probability that is decremented on each new coupon and recomputed from the bit matrix every eighth window move; tests compare estimates with counts within several percent, so drift, a missed refresh or an inversion of bounds at one size goes unseen", "anchors": ["cpc/cpc_sketch.go updateHIP refreshKXP GetEstimate GetLowerBound GetUpperBound", "cpc/icon_estimator.go iconEstimate iconExponentialApproximation evaluatePolynomial", "cpc/confidence.go iconConfidenceLB iconConfidenceUB hipConfidenceLB hipConfidenceUB", "cpc/cpc_union.go GetResult"]}
{"id": "C79", "title": "CPC: the read-only view of an image answers like the sketch", "statement": "A CpcWrapper made from the bytes of ToCompactSlice, for a sketch that has seen at least one item or for the result of a union that is not empty, gives exactly the answers of that sketch: GetLgK, GetEstimate, GetLowerBound and GetUpperBound for every kappa. More generally, for any bytes that NewCpcSketchFromSlice accepts and that hold data, the wrapper is accepted and answers like the sketch read from them. A sketch read back and updated further answers like one that was never written. For the image of an empty sketch the view fails: the fields asked for are not in the image, and the wrapper answers from the first bytes of the preamble.", "quantifier": "all byte strings accepted by NewCpcSketchFromSlice that hold surprising values or a window; all lgK from 4 to 26, all non-empty histories of hashes whose pair table does not overflow, all unions with a coupon whose coupons fit; all kappa; any math.Log and math.Pow", "why_tests_cant": "the fields sit at offsets that depend on one of eight preamble formats, and the offsets are computed twice, by the reader and by the wrapper; tests compare the two on a few sketches and miss the formats whose field does not exist", "anchors": ["cpc/cpc_wrapper.go NewCpcWrapperFromBytes GetEstimate GetLgK GetLowerBound GetUpperBound", "cpc/utils.go getHipAccum getNumCoupons getHiFieldOffset", "cpc/cpc_sketch.go ToCompactSlice NewCpcSketchFromSlice"]}
{"id": "C80", "title": "Bloom filter: the size for a target accuracy", "statement": "NewBloomFilterByAccuracy(n, p), for at least one item and a target probability strictly between 0 and 1, makes an empty filter with the seed given whose number of bits is n ln(1/p) / (ln 2)^2 rounded up to a multiple of 64, and whose number of hash functions is ln(1/p) / ln 2 rounded up, at least one, both up to the rounding errors of float64 (a relative error below 2^-48, and the one bit that rounding the number of bits adds). It refuses zero items, a probability of at most 0 or at least 1, and sizes above the largest filter. SuggestNumFilterBits, SuggestNumHashes and SuggestNumHashesFromSize return these numbers. It does not hold for a probability that is not a number, which passes the test of the range, nor for sizes that do not fit the integer they are converted to: the result of the conversion is then left to the implementation.", "quantifier": "all numbers of items of 64 bits, all float64 probabilities, all numbers of bits of 64 bits", "why_tests_cant": "the sizes go through a logarithm, four roundings, a ceiling and a conversion that is undefined out of range; a test sees a few sizes", "anchors": ["filters/bloom_filter_builder.go: NewBloomFilterByAccuracy, SuggestNumFilterBits, SuggestNumHashes, SuggestNumHashesFromSize, NewBloomFilterBySize"]}
{"id": "C81", "title": "Count-min: upper bounds and size suggestions", "statement": "For non-negative weights with a total below 2^62, GetUpperBound(x) is at least GetEstimate(x), hence at least the true weight of x, and exceeds the estimate by e / numBuckets of the total weight, rounded down, up to a relative error of 2^-49. SuggestNumBuckets(r) is e / r rounded up, and a sketch with that many buckets reports a relative error of at most r (up to 2^-48). SuggestNumHashes(c) for 0 <= c < 1 is ln(1 / (1 - c)) rounded up, up to 2^-44, so that exp(-hashes) is at most 1 - c up to rounding. They refuse a relative error of at most 0 and a confidence outside [0, 1]. It does not hold beyond: the upper bound can wrap to a negative number for larger totals, full confidence and NaN are converted to an integer they do not fit, and zero confidence suggests no hash functions.", "quantifier": "all sketch histories with non-negative weights and all items; all float64 arguments", "why_tests_cant": "the bound is computed in float64 from a total that may not fit one, and the sizes go through a division, a logarithm, a ceiling and a conversion that is undefined out of range", "anchors": ["count/count_min_sketch.go: GetRelativeError, GetUpperBound, GetUpperBoundUint64", "count/utils.go: SuggestNumBuckets, SuggestNumHashes"]}
{"id": "C82", "title": "KLL: the normalized rank error", "statement": "GetNormalizedRankError(pmf) is 2.446 / k^0.9433 (double-sided) or 2.296 / k^0.9723 (single-sided), up to a relative error of 2^-48, for a k between 8 and the sketch's own. It lies strictly between 0 and 1, the double-sided error is larger than the single-sided one, and a larger k gives a smaller error. A new sketch uses its own k; Update does not change the answer; Merge answers the larger of the two errors when the other sketch is estimating, and its own otherwise. It does not hold beyond: after Reset an empty sketch still answers the error of what was merged into it before.", "quantifier": "all histories of creating, updating, merging and resetting, all coin flips, all k from 8 to 65535, both kinds of error", "why_tests_cant": "the answer depends on the whole history of merges and goes through float64 roundings for each of 65528 values of k; tests only compare it with itself", "anchors": ["kll/utils.go: getNormalizedRankError", "kll/items_sketch.go: GetNormalizedRankError, Merge, Reset, Update"]}
