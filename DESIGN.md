# A Rocq model of apache/datasketches-go

`properties.jsonl` lists the properties, `MANIFEST.json` maps each to the theorems that
establish it, `seeded/LOG.jsonl` records the wrong programs the theorems were tested on, and
this file says what is modelled, how, and what is trusted.

## Approach

* Each Go package gets a `*Model.v` file (executable Gallina, one definition per Go
  function, each with a file:line citation), proof files, and a `*Props.v` file that
  holds the specification vocabulary, the property theorems, concrete non-vacuity
  `Example`s, and `Print Assumptions`.
* Hash functions, random draws and floating-point *decisions* that do not matter for the
  property are parameters, universally quantified in the theorems.
* Slices are lists, machine words are `N`/`Z`; where Go wraps, `mod 2^w` is explicit.
  A Go panic (index out of range, nil dereference) or error return is an explicit value
  of the model (`None`, `Panic`, `Err`). Loops are structural or carry fuel, and a theorem shows
  that the fuel never runs out.
* Where the code does not satisfy a property, a `_refuted` theorem gives a
  concrete witness, and the property theorem carries the hypothesis that excludes it.

## Properties

| id | property | status | files | how it is proved |
|----|----|----|----|----|
| C01 | Theta update sketch keeps exactly the distinct hashes below theta | proved | ThetaModel, HashtableModel | invariant over histories of update, trim, reset: retained = distinct hashes below theta |
| C02 | Theta never increases and only takes meaningful values | proved | ThetaModel, HashtableModel | same invariant |
| C03 | Theta hash table probing never fails | proved | ThetaModel, HashtableModel | a probe with an odd stride visits every slot of a power-of-two table; load below 15/16 |
| C04 | Trim keeps exactly the k smallest hashes | proved | ThetaModel, HashtableModel | QuickSelect partition, rebuild |
| C05 | QuickSelect selects | proved | QuickSelectModel | loop invariants; fuel never runs out; result is a permutation |
| C06 | Duplicates do not change a theta sketch | proved | ThetaModel, HashtableModel | corollary of the invariant |
| C07 | Theta union is set union below the minimum theta | proved | ThetaModel, HashtableModel | refinement to sets, for every sequence of inputs |
| C08 | Theta intersection is set intersection below the minimum theta | proved | ThetaModel, HashtableModel | refinement to sets |
| C09 | A-not-B is set difference below the minimum theta | proved | ThetaModel, HashtableModel | refinement to sets |
| C10 | Theta uncompressed serialization round-trips | proved | ThetaSerdeModel | round-trip law on byte lists, exact size |
| C11 | Theta compressed serialization round-trips | proved | ThetaSerdeModel | delta coding and bit packing inverse |
| C12 | Bit packing round-trips for each width | proved | BitPackModel, BitPackData | every statement of the 126 functions transcribed by a script; a symbolic-bit checker proved sound, evaluated per width |
| C13 | Bloom filters have no false negatives | proved | BloomModel | invariant: every inserted position stays set |
| C14 | Bloom set operations act bitwise | proved | BloomModel | word-wise specs to bit-wise specs |
| C15 | Bloom BitsUsed is exact | proved | BloomModel | count of set bits as invariant |
| C16 | Bloom serialization round-trips | proved | BloomModel | round trip |
| C17 | Count-min never underestimates | proved | CountMinModel | per-cell sum over the stream |
| C18 | Count-min merge is stream concatenation | proved | CountMinModel | homomorphism |
| C19 | Count-min serialization round-trips | proved | CountMinModel | round trip |
| C20 | Frequent-items bounds bracket the true frequency | proved | FreqModel | bounds by induction on honest histories |
| C21 | The reverse-purge hash map refines a finite map | proved | FreqModel | linear-probing chain invariant, back-shift deletion |
| C22 | Frequent-items query has no false negatives / positives | proved | FreqModel | from C20 |
| C23 | Frequent-items stream weight and error accounting | proved | FreqModel | induction on histories |
| C24 | HLL registers are maxima | proved | HllModel | slot-wise maxima; refinement of the 4, 6 and 8-bit arrays to a function slot -> value |
| C25 | HLL list and set modes hold exactly the distinct coupons | proved | HllModel | list and hash-set content |
| C26 | HLL_6 packed array get/put | proved | HllModel | read-over-write on packed bytes |
| C27 | HLL union takes slot-wise maxima | proved | HllModel | slot-wise maxima over arbitrary union histories |
| C28 | KLL conserves weight | proved | KllModel | weight of the levels is an invariant for all random bits |
| C29 | KLL levels stay sorted and within capacity, and no update panics | proved | KllModel | structural invariant, no index out of range |
| C30 | KLL min, max and retained items are inputs | proved | KllModel | membership and extrema |
| C31 | KLL is exact before the first compaction | proved | KllModel | level 0 only |
| C32 | KLL deterministic rank error bound | proved | KllModel | one compaction moves a rank by at most its weight |
| C33 | Sorted view rank and quantile agree with the retained weighted multiset | proved | KllModel | cumulative weights of the sorted view |
| C34 | Binary search with inequality is correct | proved | SearchModel | loop invariant for each of the five inequalities |
| C35 | REQ conserves weight and never fails | proved | ReqModel | compactor invariant, weight conservation for all random bits |
| C36 | Reservoir sample size and membership | proved | ReservoirModel | induction on the stream for all draws |
| C37 | Reservoir sampling is uniform | proved | ReservoirModel | counting over all outcomes of the draws |
| C38 | Reservoir union counts and size | proved | ReservoirModel | all union histories |
| C39 | VarOpt sample: size, total weight, membership and threshold | proved | VarOptModel | heap, warm-up and estimation-mode invariants over rationals |
| C40 | t-digest accounts for every value | proved | TdigestModel | weight and order invariants, for every logarithm |
| C41 | t-digest rank and quantile are within range and monotone | proved | TdigestModel | monotone interpolation |
| C42 | Tuple sketch summaries accumulate all values of the key | proved | TupleModel | as theta, with fold of the values of a key |
| C43 | Tuple set operations combine summaries by policy | proved | TupleModel | set operations with summaries |
| C44 | CPC pair table is a set | proved | CpcTable | linear-probing set, delete with reinsertion, for all histories |
| C45 | CPC sketch represents exactly the coupons seen | proved | CpcModel | bit-matrix representation invariant across the five flavors and window moves |
| C46 | CPC union is the union of the coupon sets, downsampled | proved | CpcModel | union of folded coupons in all cases of the union |
| C47 | CPC serialization round-trips in every flavor | proved | CpcCodeModel, CpcStateModel, CpcTables | bit-stream reader/writer refinement, all code tables checked prefix-free by computation, byte layout, sketch twins under updates |
| C48 | Item serdes round-trip | proved | ItemSerdeModel | round trip, sizes |
| C49 | Frequent-items sketches survive their byte and string forms | proved | FreqModel, FreqSerdeModel | byte layout, decimal strings, refinement of the field-level Serde step of the histories |
| C50 | Frequent-items operations never fail | proved | FreqModel | no operation fails |
| C51 | Reservoir sketch serialization round-trip | proved | ReservoirModel | round trip |
| C52 | Reservoir updates never fail below the documented limit | proved | ReservoirModel | no update fails below 2^48-1 |
| C53 | Tuple Filter keeps exactly the matching entries | proved | TupleModel | filter |
| C54 | Truncated and foreign theta images are refused | proved | ThetaSerdeModel | case analysis of the decoder |
| C55 | A wrapped theta sketch is the decoded sketch | proved | ThetaSerdeModel | iterator refinement |
| C56 | REQ minimum and maximum are exact | proved | ReqModel | extrema over histories |
| C57 | REQ rank error is bounded and the accurate end is exact | proved | ReqModel | rank error of a compaction; protected end |
| C58 | REQ quantile is the inverse of rank | proved | ReqModel | sorted view |
| C59 | VarOpt union samples the concatenated streams | proved | VarOptModel, VarOptUnion | gadget invariant, marks, resolution of the result |
| C60 | VarOpt subset sums are unbiased | proved | VarOptMean | expectation operator over draws, martingale step |
| C61 | VarOpt serialization round trip | proved | VarOptSerde | round trip |
| C62 | t-digest serialization round trip | proved | TdigestSerdeModel | round trip, totality of the decoders, agreement of slice and stream decoder |
| C63 | t-digest is exact on small streams | proved | TdigestExact | no two values are merged below the limit |
| C64 | HLL byte images do not show | proved | HllModel, HllSerdeModel, FloatBits | byte layout of the three modes, reading back, twin states with the same coupon history through all later updates; float64 answers: two states of the same items agree on everything the queries of C77 read |
| C65 | KLL byte images do not show | proved | KllModel, KllSerdeModel | byte layout of the three forms, reading back, twin states with equal levels through all later updates and merges |
| C66 | KLL ranks are unbiased | proved | KllModel | levels as a function of the coin outcomes, constant shape, pairing of each outcome with the one that differs in the flip of a halving |
| C67 | Tuple and array-of-numbers sketches survive their byte images | proved | TupleModel, TupleSerdeModel | readers that consume exactly what was written and refuse prefixes, composed along the decoder; any summary codec |
| C68 | Array-of-numbers sketches sum per key and position | proved | TupleModel, AonModel | equality with the tuple sketch at list summaries, by induction over the history; then the tuple theorems |
| C69 | In-place policies combine summaries correctly when sketches do not share them | proved | TupleHeapModel | simulation of the heap run by the value model (TupleModel): the address table maps to the value table by reading the heap; ownership of objects as invariant; frame conditions |
| C70 | Jaccard similarity and equality tests answer by the sets of hashes | proved | JaccardModel | from the union and intersection theorems (C07, C08): which hashes the two results hold, counted by NoDup lists; tuple functions by erasing summaries |
| C71 | The key hash is the published Murmur3 and keeps keys apart | proved | Murmur3Model | the word reads, body loop and tail against a recursive specification on byte lists; injectivity from inverses of the odd multipliers, rotations, xor-shifts and additions modulo 2^64 |
| C72 | Typed updates: which values are the same key | proved | KeysModel | each method reduced to the key hash of C71, then the content theorem of C01; float keys from a strictly monotone decoding of the bits |
| C73 | Bloom filter: which values are the same item, across types | proved | BloomKeysModel | the methods reduced to one byte string per item, then C13 at the concrete hash; injectivity from inverses of the multipliers, rotations and xor-shifts |
| C74 | Theta and tuple sketches: estimates and their bounds | proved | EstimateModel, FloatModel | IEEE binary64 from Flocq; monotone rounding and power-of-two bounds on every intermediate; the tables checked entry by entry; C01 for the sketches |
| C75 | KLL: normalised ranks, quantiles, CDF, PMF and partition boundaries in float64 | proved | RankModel, FloatModel | IEEE binary64 from Flocq over the exact ranks of the KLL rows above; rounding bounds for the way to natural ranks and back; telescoping of the partition counts |
| C76 | REQ: normalised ranks, quantiles, CDF, PMF and error bounds in float64 | proved | ReqRankModel, RankModel, FloatModel | IEEE binary64 from Flocq over the exact ranks of C57 and C58; error analysis of the bounds with explicit slack; the float test of exactness equals the one on integers because fractions of n < 2^47 stay apart |
| C77 | HLL: estimates and confidence bounds in float64 | proved | HllEstModel, HllEstTables, HllModel, FloatModel | IEEE binary64 from Flocq over the states of C26; tables of the repository as decimal fractions; interval analysis of the cubic interpolations with closed checks of each table, the HIP sum by induction over the history of codes, exactness of the register sums as dyadic numbers |
| C78 | CPC: estimates and confidence bounds in float64 | proved | CpcEstModel, CpcEstTables, CpcModel, FloatModel | IEEE binary64 from Flocq over the states of C45; the accumulator of the probability stays within K*2^-51 of the exact dyadic sum over the coupons, the HIP sum by induction over the history with an error budget, interval analysis of the ICON polynomials with a closed check per table row; that the ICON estimate inverts the expected number of coupons: per cell of width 1/16 the polynomial is enclosed by exact integer Taylor shifts, the sum of exponentials by fixed point squaring, the Horner rule by a running float64 error bound, and the exponential range is reduced to one octave by the doubling identity |
| C79 | CPC: the read-only view of an image answers like the sketch | proved | CpcWrapModel, CpcStateModel, CpcEstModel, FloatBits | case analysis of the reader on any accepted bytes: every preamble format puts the fields where the view looks for them; the bits of a float64 are shown to read back; then the round trip of C47 |
| C80 | Bloom filter: the size for a target accuracy | proved | BloomSizeModel, BloomModel, RankModel, FloatModel | relative errors of the roundings multiplied up; ln 2 enclosed by partial sums of the alternating series of the exponential |
| C81 | Count-min: upper bounds and size suggestions | proved | CountMinErrModel, CountMinModel, RankModel, FloatModel | relative errors of the roundings multiplied up, on top of the state theorem of C17 |
| C82 | KLL: the normalized rank error | proved | KllErrModel, KllModel, FloatModel | relative errors of the roundings and of the decimal constants multiplied up; the smallest k tracked along the history; consecutive k are far apart compared with the rounding |


## Trusted base

* Coq 8.16.1: its kernel, and `vm_compute`, which some proofs and examples use (it is part of
  the kernel's conversion). `native_compute` is not used.
* Axioms: none of our own. `Print Assumptions` answers "Closed under the global context" for each of the
  479 theorem names in MANIFEST.json except those about floating point (C74 and later properties whose row names
  `FloatModel`). These rest on the axioms of the standard library's real numbers, and nothing else:
  `ClassicalDedekindReals.sig_not_dec`, `ClassicalDedekindReals.sig_forall_dec`,
  `FunctionalExtensionality.functional_extensionality_dep`, `Classical_Prop.classic`. The build loads `ssreflect` parts of the standard
  library, whose `Coq.ssr.ssrunder` module type interfaces (`Under_rel.Under_rel`,
  `Under_rel.Over_rel` and their kin, seven names) are listed by coqchk as library axioms; no theorem depends on them.
* Coq's standard library, and Flocq 4.1.0 for the floating point properties (its definition of binary64 and its theorems on
  rounding; Flocq adds no axioms of its own). No other library is used.
* The reading of Go as Gallina. The model is written by hand from the source (the bit packing
  statements, the CPC code tables and the permutations were extracted by a script), and
  nothing but review and the seeded faults checks that it matches. Each definition cites the
  lines it models, and says where it simplifies.

### Assumptions about code outside the model

* `slices.Sort` and `sort.Slice` sort (a concrete sort or a hypothesis "returns a sorted
  permutation" stands for them). `rand` returns some value of the documented range; uniformity is
  assumed only where a theorem speaks of a mean or a count of outcomes (C37, C60, C66).
* In the models of the sketches the hash of an item is an argument: Murmur3 and xxHash are arbitrary functions
  there, and what the properties need of them (for instance that the decoder computes the same seed hash) holds
  because they are functions. The library's own Murmur3 is modelled and proved separately (C71), and C72 connects
  the typed update methods to it. C73 does the same for the Bloom filter and XXH64. `github.com/twmb/murmur3` (CPC and HLL byte keys)
  and `github.com/cespare/xxhash` (Bloom filter), which are not in the repository, are taken to compute the published hashes.
* Floating point is IEEE binary64 (`FloatModel`) in the properties on estimates and bounds (C74 and later rows that name it),
  without fused multiply-add; `math.Log`, `math.Pow` and the like are parameters there, with the few facts used of them as hypotheses.
  Elsewhere, where it decides something, the decision is a
  parameter (reservoir union), or the arithmetic is exact rational arithmetic (VarOpt,
  t-digest). Where
  a float is only stored, it is its bit pattern, or a type with an encoder and decoder that are inverse.
* Memory: slices are values. Sharing is modelled only where it is the point: the summaries of tuple sketches
  with in-place policies (C69, `TupleHeapModel`: a summary is an address into a heap). Out of memory and data races are outside the model.
  No type in the library is safe for concurrent use, and none claims to be.

## Modelled, by package

* `theta/`: hash table, update sketch with its typed update methods and hash functions (without builders), compact sketch, union,
  intersection, a-not-b, encoders and decoders (uncompressed, compressed, serial versions read by the decoder),
  wrapped sketch and its iterator, bit packing for all widths. Jaccard similarity and equality tests. Theta(), Estimate and the confidence bounds (C74).
  Not modelled: string output, the streaming `io.Reader` variants beyond their field order.
* `filters/`: Bloom filter typed updates and queries with their hashes, set operations, inversion, serialization,
  size suggestions (C80). Not: the random seed.
* `count/`: CountMin update, estimate, bounds, merge, serialization, suggestions from error and confidence (C81).
* `frequencies/`: both sketches, both hash maps, purge (the sampled median by QuickSelect), merge,
  queries, byte and string forms. Not: String() for display.
* `hll/`: coupon list, coupon hash set, HLL_4/6/8 arrays, auxiliary map, conversions between modes and
  types, union, byte images (of sketches built by updates), estimates and bounds with all their tables.
* `kll/`: sketch update, compaction, merge, sorted view, quantiles, ranks, boundaries, byte images; normalised
  ranks, CDF, PMF and partition boundaries in binary64 (C75), the normalized rank error (C82). Not: nil items.
* `req/`: compactors, sketch, merge, sorted view, and ranks, quantiles, CDF, PMF and error bounds in binary64 (C76). There is no serialization.
* `sampling/`: reservoir sketch, union and serialization; VarOpt sketch, union, serialization.
* `tdigest/`: update, merge, compress, rank, quantile, CDF/PMF, serialization (slice and stream).
  Not: the compatibility format of the stream decoder.
* `tuple/`: update sketch, compact sketch, filter, set operations, serialization of tuple and array-of-numbers
  sketches, array-of-numbers update sketch and set operations, string summaries, Jaccard similarity, estimates and bounds.
* `cpc/`: pair table, sketch update and window moves, bit matrix, union, entropy coding, compressed state,
  serialization, HIP and ICON estimates and their confidence bounds, `CpcWrapper`. Not: the validation/characterization test drivers.
* `internal/` and `common/`: inequality search, quick select, binomial bounds, item serdes, Murmur3.

## Findings: where the code does not do what a user would expect

Each is a theorem about the model, with a concrete witness.

* C07: `theta_empty_union_theta_refuted` — The refuted theorem records that an untouched union with p<1 returns an empty sketch with theta below the maximum.
* C13: `bloom_65535_hashes_refuted` — Holds for 1..65534 hash functions; the refuted theorem shows that 65535, which the constructor accepts, makes Update loop forever.
* C15: `bloom_decoder_trusts_count_refuted` — Holds for every filter built through the API and its own serialized form; a foreign image with a wrong count is believed (refuted theorem).
* C16: `bloom_zero_length_image_refuted` — 
* C17: `countmin_lower_bound_refuted`, `countmin_zero_hashes_refuted`, `countmin_size_check_overflow_refuted` — For non-negative weights with total below 2^63 and parameters whose product does not overflow int32; refuted theorems record the cases outside.
* C19: `countmin_seed_hash_ignored_refuted`, `countmin_overlong_image_refuted` — 
* C22: `freq_nfp_strict_refuted` — Strict > of the documentation is >= in the code (refuted theorem).
* C24: `hll4_update_error_refuted` — All lgK 4..21. HLL_6 and HLL_8 accept every sequence; HLL_4 if at most 3/8 of its slots have rank 15 or more (hll4_update_error_refuted: otherwise it can return an error). The kxq sums are exact integers, the estimator formulas are parameters.
* C27: `hll_union_smaller_lgK_refuted`, `hll_union_larger_lgK_error_refuted`, `hll_union_stale_estimate_refuted`, `hll_union_reset_refuted` — Any sequence of items, sketches and results. For mixed lgK the conditions are in compatible; the refuted theorems show what happens outside them.
* C29: `kll_any_m_never_panics_refuted`, `kll_m_one_never_panics_refuted`, `kll_large_k_capacity_refuted` — For 2 <= m <= k (the constructor does not check m: refuted theorems); the capacity equation for k < 32768 (refuted from there on).
* C38: `union_max_k_one_refuted`, `union_reset_fresh_refuted`, `union_raw_size_refuted` — The floating point decisions of the weighted merge are arbitrary booleans. Refuted theorems: maxK = 1 and Reset of an untouched union panic; UpdateFromRaw accepts inconsistent counts.
* C39: `varopt_update_after_union_refuted`, `varopt_total_weight_refuted` — Weights are exact rationals, random draws arbitrary. Findings: a sketch returned by a union can refuse every update (refuted theorem); TotalSketchWeight is wrong while n <= k (refuted theorem).
* C40: `tdigest_foreign_merge_min_refuted` — Exact rational arithmetic, math.Log arbitrary. Finding: Merge loses the minimum of a decoded sketch whose first centroid stands for several values (refuted theorem).
* C41: `tdigest_quantile_monotone_refuted`, `tdigest_foreign_quantile_in_range_refuted`, `tdigest_foreign_quantile_finite_refuted` — Findings: Quantile is not monotone, its interpolation weights are swapped; for sketches written by others it can exceed the maximum or be NaN (refuted theorems).
* C43: `tuple_union_mutates_input_refuted` — Value semantics (applyFunc); with an in-place Policy the input sketch is changed by later updates of the union (refuted theorem).
* C44: `pair_table_overflow_refuted` — For every operation history within the room of the table; the bound is sharp (refuted theorem: one more pair panics).
* C45: `cpc_represents_all_histories_refuted`, `cpc_offset_limit_refuted` — HIP registers are abstract; hashes are arbitrary 128-bit values. Histories that overflow the pair table or reach 59.375*K coupons fail (refuted theorems).
* C47: `cpc_serialize_fails_refuted`, `cpc_wrong_seed_accepted_refuted`, `cpc_truncated_panics_refuted` — Float bits of the HIP registers and the seed hash are parameters; below the table limits of C44. Findings (refuted theorems): serializing can fail on a valid sketch because the fallback sort sorts only part of the array; NewCpcSketchFromSlice does not check the seed; truncated bytes panic.
* C48: `string_one_empty_refuted`, `fixed_deser_short_refuted` — Floats as bit patterns. SerializeOneToSlice of the empty string writes nothing (refuted theorem).
* C49: `freq_emptied_merge_refuted`, `freq_emptied_serde_refuted`, `freq_items_empty_capacity_refuted`, `longs_string_negative_refuted`, `longs_slice_short_preamble_refuted`, `items_slice_short_preamble_refuted` — Byte and string level. Findings (refuted theorems): a sketch emptied by a purge loses its past in bytes and in merges; negative keys cannot be read back from a string; an 8-byte slice with a clear empty flag panics.
* C50: `freq_items_lg0_refuted`, `freq_lgcur_refuted` — Refuted theorems show the parameter conditions are needed.
* C51: `from_slice_short_refuted`, `decoded_zero_refuses_update_refuted`, `round_trip_large_k_refuted` — Serial version 2 (what ToSlice writes).
* C56: `req_min_after_merge_into_new_refuted` — NewSketch leaves min and max at 0 while Reset sets NaN, so merging into a new sketch mixes 0 in (refuted theorem).
* C57: `req_exact_claim_edge_refuted`, `req_exact_claim_smaller_k_refuted`, `req_rank_after_merge_into_new_refuted` — Ranks are numerators over N. isExactRank is off by one at the edge of its range, and wrong after merging a sketch of smaller k (refuted theorems).
* C59: `varopt_encode_result_refuted` — The theorems on sketch hold of union results too. Finding: a union result may not be encodable (refuted theorem).
* C61: `varopt_reloaded_updates_refuted` — Weights that are float64 values, item serializer and float bits are parameters. Finding: a decoded sketch that has dropped items refuses every update (refuted theorem).
* C62: `tdigest_decode_total_refuted`, `tdigest_decode_panics_refuted`, `tdigest_stream_checks_max_refuted` — Float bits are parameters, assumed to give back the values stored. The compatibility format of the stream decoder is not modelled. Findings: DecodeDouble panics on 28 bytes 0,0,0,2,...; the stream decoder accepts a NaN maximum (refuted theorems).
* C64: `hll_from_slice_retains_slice_refuted`, `hll_truncated_image_panics_refuted`, `hll_list_count_panics_refuted`, `hll_bad_lgK_accepted_refuted` — For sketches built by updates, and for union results (hll_union_result_image) except HLL_8 results in array mode, which are copies of the gadget and are not covered. Float64bits/Float64frombits of the HIP accumulator are parameters with two stated laws in the first two theorems and the IEEE patterns in hll_shipped_answers, hll_shipped_bounds and hll_union_result_image, which rest on the axioms of the standard library reals; for the two sums the encoding is defined. Findings (refuted theorems): the sketch read from a slice keeps and modifies that slice, against its documentation; truncated images and over-long lists panic; a resolution outside 4..21 is accepted.
* C65: `kll_empty_string_image_refuted`, `kll_any_m_image_refuted`, `kll_reset_image_refuted`, `kll_truncated_image_refuted`, `kll_corrupt_levels_refuted` — Findings (refuted theorems): a strings sketch that has seen the empty string loses data in its image; the constructor accepts m that the reader refuses; a reset sketch changes its reported rank error when shipped; truncated images panic; the level array of an image is not checked.
* C67: `tuple_decode_unchecked_rows_refuted`, `aon_wrong_seed_no_entries_refuted`, `string_keys_collide_refuted` — The io.Writer is taken to accept every write; memory is not modelled (a 16 byte image can ask for 2^32-1 entries). Findings: Decode accepts rows that are repeated or out of order, an array-of-numbers image without entries is accepted under any seed, and GenerateHashKeyFromStrings maps ["a,b"] and ["a","b"] to the same key (refuted theorems).
* C68: `aon_a_not_b_mixes_sizes_refuted`, `aon_panic_leaves_nonempty_refuted` — Summaries are values here. Findings: A-not-B does not compare the numbers of values, and a vector that is too short panics after the sketch was marked non-empty (refuted theorems).
* C69: `union_same_sketch_thrice_refuted`, `union_result_changes_later_refuted`, `union_follows_update_sketch_refuted`, `intersection_mutates_first_input_refuted`, `from_theta_shares_one_summary_refuted` — Summaries are addresses into a heap. Findings (refuted): a sketch passed three times to a policy union counts four times; a union Result and the first input of a union or intersection change with later Updates; updating a sketch after passing it to a union changes the union; a tuple sketch made from a theta sketch has one summary object for all keys. Hence the hypothesis that inputs do not share objects.
* C70: `theta_jaccard_total_refuted`, `tuple_comparison_changes_input_refuted` — Quotients are exact rationals; the curves of the binomial confidence bounds are parameters. Findings: two disjoint sketches in exact mode with more than 2^26 hashes together make Jaccard return an error; comparing tuple sketches (even IsExactlyEqual) applies the policy to the summaries of the first sketch in place, so asking changes the data.
* C71: `murmur3_int32_slices_apart_refuted` — The specification is the published algorithm with its constants, checked on a published vector. Finding: an int32 slice is hashed without its elements at odd positions (refuted theorem), so CpcSketch.UpdateInt32Slice counts [1,2] and [1,3] once.
* C72: `same_number_once_refuted`, `unsigned_number_once_refuted`, `same_text_once_refuted`, `cpc_int32_slices_apart_refuted` — The external library behind CPC and HLL byte keys (twmb/murmur3) is taken to be the published hash. Findings (refuted): UpdateInt32(5) and UpdateInt64(5), UpdateUint32(5) and UpdateInt32(5), UpdateString and UpdateBytes of the same text each count twice.
* C73: `bloom_float_arrays_by_value_refuted`, `bloom_empty_text_as_slice_refuted` — The external library cespare/xxhash is taken to be the published XXH64, defined in the model and checked on four published values. Findings (refuted): arrays of floats are hashed by their bits, so [0.0] is not found as [-0.0]; the empty string is ignored while the empty byte slice is an item.
* C74: `upper_bound_covers_refuted`, `tiny_probability_refuted` — IEEE binary64 arithmetic; math.Log and math.Pow are parameters with hypotheses log_like and pow_like. The loops of the exact binomial tails are proved to end (within 15000 steps). Rests on the axioms of the standard library reals. Findings (refuted): with a sampling probability below about 2^-54 the upper bound of a sketch without entries is 0, and below 2^-63 the estimate is NaN.
* C75: `natural_rank_recovered_beyond_refuted`, `partition_boundaries_change_ranks_refuted` — IEEE binary64 arithmetic; rests on the axioms of the standard library reals. Partition boundaries are proved for at least two retained items or one item in all. Findings (refuted): GetPartitionBoundaries writes into the cached sorted view, so later ranks and quantiles change; beyond ten million items a natural rank need not survive normalisation; a NaN rank passes the range check (kll_quantile64_refuses gives Unspecified, the conversion of NaN to an integer).
* C76: `rank_bounds_negative_deviations_refuted` — IEEE binary64 arithmetic; rests on the axioms of the standard library reals. Findings: QuantileLowerBound(0) with high rank accuracy and QuantileUpperBound(1) with low rank accuracy always return an error once the sketch estimates and has more than 3k items, because the rank bound leaves [0,1] (req_quantile_bounds_end_refused); the number of standard deviations is not checked, so a negative one turns the bounds around (refuted theorem); a NaN rank passes the check of Quantile.
* C77: `hll_rebuild_infinite_refuted`, `hll_union_lower_above_estimate_refuted` — IEEE binary64 arithmetic; math.Log is a parameter with hypothesis log_ok (which a correctly rounded logarithm meets, rounded_log_ok). Rests on the axioms of the standard library reals. Findings (refuted): on the result of a union the lower bound can lie above the estimate (it is raised to the number of occupied slots, the composite estimate is not); the sums recomputed by a union lose registers above 31, 16 slots of rank 60 give the estimate +Inf (needs hashes with 59 leading zeros).
* C78: `cpc_kappa_unchecked_refuted` — IEEE binary64 arithmetic; math.Log and math.Pow are parameters with hypotheses log_ok and pow_ok (met by correctly rounded functions: rounded_log_ok, rounded_pow_ok). Rests on the axioms of the standard library reals. Histories with a hash of d or more leading zeros, lgK + d > 53, are outside the theorems. Finding (refuted): kappa is not checked. Monotonicity of the ICON estimate in the number of coupons is not claimed.
* C79: `cpc_wrapper_empty_refuted`, `cpc_wrapper_empty_union_refuted` — float64 accumulators with their IEEE bit patterns; the seed hash is a parameter below 2^16. Finding (refuted): the wrapper drops the error of getHiFieldOffset, so the view of an empty sketch answers from the bytes of the preamble (a negative estimate for a fresh sketch, 68157698 coupons for the empty result of a union of lgK 4). GetFamily is a constant and not modelled.
* C80: `bloom_by_accuracy_nan_refuted`, `bloom_bits_overflow_refuted`, `bloom_hashes_overflow_refuted` — math.Log is a parameter with a relative error of at most 2^-50 between 0 and 1 (rounded_log_near: the correctly rounded logarithm is one). math.Ln2 is shown to be within 2^-54 of ln 2. Findings (refuted theorems): a target of NaN is not refused by the range test; a number of bits from 2^64 and a number of hash functions from 2^16 are converted out of range, which Go leaves to the implementation.
* C81: `countmin_upper_bound_wraps_refuted`, `countmin_full_confidence_refuted`, `countmin_zero_confidence_refuted`, `countmin_suggestions_unspecified_refuted` — math.Exp(1) is a parameter within 2^-50 of e (f_e_near: the nearest float64 is one), math.Log a parameter with a relative error of at most 2^-50 from 1 to 2^53 (rounded_log_near1). Findings (refuted theorems): GetUpperBound wraps for totals near 2^63; SuggestNumHashes(1) converts an infinity to int8 before the cap at 127 applies; SuggestNumHashes(0) is 0; NaN passes both range tests; a relative error below e / 2^31 overflows int32.
* C82: `kll_reset_keeps_rank_error_refuted` — math.Pow is a parameter with a relative error of at most 2^-50 for bases from 8 to 2^16 and exponents between 0 and 1 (rounded_pow_near: the correctly rounded power is one). ex_history: a sketch taking in an estimating one. Finding (refuted theorem): Reset keeps the smallest k of earlier merges, so an emptied sketch reports a larger error than a new one. That the fit covers the actual rank errors is an empirical statement and not part of the property.

Others, read in the code and not stated as theorems:

* VarOpt: decoding accepts NaN and infinite weights and does not check the heap order; the
  absolute tolerance 1e-10 can make `Result` return an error for large weights; `NewVarOptItemsUnion` with 2^63 or more panics;
  an update that fails because of its weight still increments n.
* t-digest: the difference of two means can overflow to infinity; the stream decoder's
  compatibility float path does not check means for NaN; weights in (0,1) become 0; a decoded
  buffer longer than the capacity is never compressed by Update.
* CPC: `GetBitMatrix` returns the internal slice when the union holds a matrix.

## Partial

None at present.
