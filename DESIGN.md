# Formal model of tindicators — design

Everything is in `rocq/` (Rocq/Coq 8.16.1, logical root `Verif`).  The code in
`/repo` is read as text and transcribed by hand, function by function; each model
definition carries the file and lines it transcribes.

## 1. Modelling decisions

* **Arithmetic is a parameter.**  All indicator models are written over a record
  `Arith` (file `Arith.v`): a carrier for `TI_REAL`, the C operations on it
  (`+ - * / fabs sqrt`, C comparisons as booleans, decimal literals, int->double
  conversion, the `(int)` cast as a partial function, libm functions and `pow` as
  uninterpreted operations).  Three kinds of theorem follow:
  1. *any-arithmetic theorems* (memory safety, output counts, streaming = batch,
     causality): proved for every `Arith`, with at most the law record `IntLaws`
     (small integers are exact, the cast agrees with comparisons against integers).
  2. *order theorems* (extremes, ranks): proved for every `Arith` whose comparison is
     a total preorder on a set `good` of values (`OrdLaws`), antisymmetric where two
     searches must find equal values (`AntiLaws`), with infinities beyond all of it
     (`InfLaw`), or sortable (`RankLaws`).
  3. *exact theorems* (means, regression, closed formulas, ranges): on the instance
     `RA` over the standard library's reals.  They say nothing about rounding.
     `x/0`, `finf` and `pow` with a negative base mean nothing there: theorems either
     exclude them by hypothesis or are not stated over `RA`.  mesastoch starts its
     search at the infinities: its formula is on `XR` (`XArith.v`), the reals with the
     infinities and NaN of IEEE 754, one zero and no rounding.
  `F64` is binary64 on top of the standard library's `SpecFloat`, with libm and
  `pow` as parameters.  All the law records are *proved* for it (`F64Laws.v`,
  `F64Ord.v`, `Rank64.v`) and for `RA`, so every theorem of the first two kinds has
  a binary64 instance.  `good` is "not NaN" for `OrdLaws`, "neither NaN nor -0" for
  `AntiLaws` (called `plain`), "finite and plain" for the Hampel filters.  `F64c`
  and `F64d` fix dummy libm functions for concrete witnesses.
* **Undefined behaviour is an outcome.**  Functions run in an error monad
  `res A := Ok a | Ub kind` (`Monad.v`); kinds: out-of-bounds read, uninitialised
  read, signed overflow, float->int cast out of range, integer division by zero,
  failed `assert`, allocation of a negative size, null pointer, an order given to a
  standard container or algorithm that is not a strict weak order (`BadOrder`), and
  wrong numbers of inputs or options (`BadArgs`).
* **Memory.**  An input is a `list` of `size` values, read through a checked
  Z-indexed accessor.  Outputs are append-only lists (`*output++ = v`); instead of a
  capacity check the contract theorems (C23 and others) state their exact length,
  `max(0, size - start(options))`, the length README.md tells the caller to allocate.
  Inputs and outputs do not alias.
* **Loops** are the combinator `for_ lo hi body state`, a structural recursion on
  the iteration count; C locals live in loop-carried tuples.  `j < x` with a double
  `x` runs to `ceilto x`.
* **Integers.**  `int` values are `Z`; expressions that can exceed the range for
  accepted options go through the checked `ck`; others are bounded by
  `size <= INT_MAX`.
* **Streams.**  `M_stream*.v`: a stream is its constants and a state record;
  `loops` describes one indicator's consecutive per-bar loops; the batch function and
  the stream run the same shape of loops with their own bodies, transcribed
  separately from the two functions in the source.  `Stream.v` and `StreamP.v` hold
  the simulation argument and the ring buffer abstraction (`hist`, `full`).  Members
  not set by a constructor are zero (`new T()`); `malloc`ed or stack storage is
  uninitialised (an option).  A progress counter beyond INT_MAX bars is not modelled.
* **References.**  `ti_X_ref` functions are modelled beside their indicator or in
  `M_ref.v` and `M_ref2.v`; return codes they ignore are ignored.
* **Index and Python.**  `M_index.v` models what codegen.py generates (sorting,
  enum, table, binary search, stream dispatch) over the list of indicators read off
  `/repo` (`IndexData.v`, 161 entries); `M_python.v` the call path of
  `bindings/python/tindicators/impl.py`: argument matching, padding, named tuples;
  `M_lean.v` the indicator classes which `bindings/lean/generate-bindings.py` writes
  for QuantConnect: names, the class over the stream, the class over the batch call.
  A `decimal` there is the `double` it comes from, and LEAN's window is taken to keep
  the last `Period` bars and to enumerate them newest first.
* **Tests.**  `M_test.v` models the comparison of results in `utils/testing.cc`
  (C56), not the programs in `tests/` which call it.

Particular simplifications, repeated at the definitions: `std::abs` in vi and tsi is
taken as the `double` overload; hwma's reference to an element before its option
test is not an access; smi's copies of indeterminate values count as reads when used;
mesastoch keeps indices as integers; mama's and arsi's chained assignments are
separate bindings; `std::multiset` and `nth_element` are modelled by their
specification (a sorted list, a permutation), with `BadOrder` when the order is not
strict weak on the values present; memory exhaustion never happens.

Not modelled: the compiler (`-ffast-math` in release builds re-associates
floating-point code, so "bit for bit" means "as the abstract machine evaluates the
source expression"), rounding error in exact theorems, allocation failure and the
clean-up code behind it, `stream_free`, data races, `printf` output, docs
generation, the test and benchmark programs, the C# marshalling under the QuantConnect classes, and the
ctypes layer under the Python wrapper.

## 2. Trusted base

* Coq's kernel (and `vm_compute`).
* The axioms printed by `Print Assumptions` under every theorem in the
  `Properties_*.v` files.  Any-arithmetic, order and binary64 theorems: "Closed under
  the global context", except hma's square-root law and the binary64 facts proved
  through the reals, which list the axioms below.  Exact theorems: the standard
  library's classical reals (`ClassicalDedekindReals.sig_forall_dec`,
  `ClassicalDedekindReals.sig_not_dec`,
  `FunctionalExtensionality.functional_extensionality_dep`, where trigonometry or
  case analysis on reals is involved also `Classical_Prop.classic`).  No axioms of
  our own, none of other libraries.
* The hand transcription of the C++ code.
* The reading of the specifications: `Spec.v` (contracts, streaming, causality),
  `RSum.v` (sums, means, regression), `SpecR.v`, `SpecR2.v`, `SpecR3.v`, `SpecR4.v`, `SpecR5.v`, `SpecR6.v`, `SpecR7.v` (formulas of C43-C51), `SpecM.v` (mesastoch's bar in any arithmetic), and the short
  definitions at the head of each `Properties_*.v`; for C52 also `is_double` and `in64` of `F64Range.v`, `top64` of `Fun_64b.v`; for C53 also
  `ord64`, `within64` (`Fun_64d.v`), `adx_ok`, `adx_top` (`Fun_64e.v`), `next100`, `aroon_ok`, `osc_ok` (`Fun_64f.v`); for C54 also `nonfin`, `keeps`, `sticky` (`Fun_nf.v`); for C55 also `bar_at`, `lean_values` (`Fun_lean.v`).

## 3. Files

| files | contents |
|-------|----------|
| Monad, Arith, Spec, Tactics | outcomes, arithmetic, specifications, tactics |
| RArith, XArith, F64, F64Ord, F64Laws, Rank64, SqrtLaw, F64Range | the instances and their laws |
| RSum, SpecR, SpecR2, SpecR3, SpecR4, SpecR5, SpecR6, SpecR7, SpecM | formulas over the reals |
| Ring, RingP, BufferP | `ringbuf.hh`, `buffer.h` (C03-C05) |
| M_basic, M_window, M_osc | models of the batch-only indicators |
| M_stream1 .. M_stream8, M_ref, M_ref2 | models of the streamed ones, of the references |
| M_index, IndexData, M_python, M_lean, M_test | generated table and lookup; Python wrapper; QuantConnect classes; comparison in tests |
| C_* | contracts and stream simulations, any arithmetic |
| Fun_* | what the outputs are |
| Recur, Settle, Settle2, Grow | long-run behaviour of the recursive filters (C48-C50) |
| Properties_* | the theorems of properties.jsonl, with cases |

## 4. Properties: method and status

Status per property is in MANIFEST.json; `_partial` theorems name what is missing in
their comment, `_refuted` theorems give a concrete failing call.

| id | modelled | how proved |
|----|----------|------------|
| C01 | binary search over a list of byte strings, the shipped table | loop invariant over sorted lists; shipped table sorted by computation |
| C02 | generated enum and table as functions of the name set | position in sorted list; computation for shipped table |
| C03 | `ringbuf` variants | abstraction function to history list, induction over operations |
| C04 | `find_max/find_min` | order lemmas on both halves of the split window |
| C05 | `ti_buffer` | invariant: slots = last values, sum = their sum |
| C06 | simple1/simple2 and price transforms | loop rule, any arithmetic |
| C07-C12 | sma, sum, wma, ema, wilders, var, stddev, stderr, md, trend.h family | loop invariants over the reals |
| C13-C15 | max, min, aroon, willr, stoch | order invariants |
| C16-C22 | rsi, cmo, cross*, obv.., lag.., tr/atr, bbands, macd | loop invariants |
| C23 | all 161 batch functions | weakest-precondition tactic, any arithmetic; values for the order-dependent ones |
| C24-C29 | the functions named | safety where it holds (`_partial` with guard), `_refuted` witness where it does not |
| C30-C34 | all 55 streams | lock-step simulation of batch loop and stream loop; chunk splitting lemma |
| C35 | batch functions | corollary of streaming |
| C36 | the `_ref` functions | in step with the indicator (any arithmetic), or both equal to the formula of C43 |
| C37 | emsd, gf3 | refutation: output independent of the option |
| C38 | python `impl.py` | list lemmas over the contracts |
| C39 | table entries | computation over the shipped table; contracts |
| C40 | er, rmi, tsi, arsi | invariants over the reals |
| C41 | pc, ichi | window extremes, binary64 |
| C42 | rmf, hf, hfsma, hfema | rank lemmas, binary64 and reals |
| C43 | the streamed indicators with a closed formula | loop invariants over the reals |
| C44 | dema, tema, zlema, kama, vidya, trima, hma, rmta, decay, edecay | loop invariants over the reals |
| C45 | dm, di, dx, adx, adxr | loop invariants over the reals |
| C46 | adosc, ao, mass, cvi, kvo, trix, cmf, cci, mfi, vosc, volatility | loop invariants over the reals |
| C47 | psar, ultosc, stochrsi, vhf, fisher, kc, msw; stop side and ratchet, ranges | loop invariants over the reals |
| C48 | ssmooth, roof, lf, mgdyn, rema, bf2, bf3, gf1-gf4 follow their equations; limits on a price that stops; gf4 unstable from period 32 | loop invariants over the reals; contraction and energy arguments, integer certificates checked by computation (Recur, Settle), a growing quadratic form (Grow) |
| C49 | hwma, ahma, ehma, edcf, rvi, frama; levels, ranges, limits; edcf is 0 on a constant price | loop invariants over the reals; a contraction over two windows for ahma (Settle2) |
| C50 | hd, mama, arsi follow the discriminator's equations; ranges and limits; mama's period ignores the angle but for its sign, its slow limit is not used | simulation of the ring buffers by infinite sequences (Fun_cycle), induction |
| C51 | mesastoch's filters, position and output; a line gives 0; one-bar cycle unstable | model against the equations in any arithmetic (Fun_mesa), then on `XR`; poles for the limits |
| C52 | rsi, stochrsi, rmi, dx, dm, adx, willr, bop, tr, atr, ema, medprice in binary64 | each operation is the rounded real one (Flocq, F64Range); invariants of the loops; witnesses by computation for the ranges that fail |
| C53 | rsi, stochrsi, rmi, dx, adx, willr, bop, aroon, avgprice, wcprice in binary64 on prices within 2^900 | the loop invariants bound every average below the overflow threshold, so divisors are finite and not zero; rnd(rnd(3H)+H) = 4H by cases on the bits of H |
| C54 | 23 running sums and averages, vidya, kama, zlema in binary64 on series with a NaN or an infinity; vidya, bbands and sma on ordinary prices | every operation of `SpecFloat` maps a NaN or an infinity to one; loop invariant "bad since bar k" |
| C55 | the QuantConnect classes: names of all 155, streaming classes of the streams of C30 and C33 (except gf4, pvt, vi), default class for any indicator | names by computation over `IndexData.v`; streams from C23/C30/C33-C35 one bar at a time; the filled buffer computed for any number of inputs |
| C56 | `equal_reals`, `equal_arrays`, `compare_answers` in any arithmetic, the tolerance over the reals and in binary64 | counting invariant; rounding lemmas of `F64Range.v` |

## 5. Axioms per theorem

From `Print Assumptions`, for every theorem named in MANIFEST.json.

* **no axioms (closed under the global context)**: C01_generated_lookup, C01_lookup, C02_generated_dispatch, C02_dispatch, C03_ring_history, C03_ring_last_values, C03_ring2_history, C04_find_max, C04_find_min, C04_find_max2_refuted, C05_buffer_get, C06_one_input, C06_two_inputs, C06_prices, C06_trunc_partial, C06_trunc_refuted, C07_sma_contract, C08_sum_contract, C09_wma_contract, C10_ema, C11_contracts, C13_max, C13_min, C13_nan_refuted, C14_aroon, C14_range_binary64_refuted, C15_willr, C16_rsi, C16_contracts, C17_cross, C18_nvi_pvi, C18_emv, C19_lookback, C19_lag0, C22_macd, C22_macd_12_26, C22_apo_ppo, C23_batch, C23_streaming_contracts, C23_arsi_refuted, C23_rank_refuted, C24_gap_filters, C24_gf4_partial, C24_gf4_refuted, C25_kst_partial, C25_vidya_partial, C25_kst_refuted, C25_vidya_refuted, C26_zlema_refuted, C26_dpo_refuted, C26_hma_refuted, C26_cvi_refuted, C26_ultosc_refuted, C26_pc_refuted, C26_pc_nan_refuted, C26_mesastoch_refuted, C26_mesastoch_nan_refuted, C27_dwma_partial, C27_dwma_refuted, C27_frama_partial, C27_frama_refuted, C27_hurst_partial, C27_hurst_refuted, C27_rmi_partial, C27_rmi_refuted, C27_edcf_partial, C27_edcf_refuted, C28_cmi_partial, C28_cmi_refuted, C28_partial, C28_ce_refuted, C28_mhlma_refuted, C28_smi_refuted, C28_smi_fraction_refuted, C29_rvi_partial, C29_rvi_refuted, C29_pbands_partial, C29_pbands_refuted, C29_posc_partial, C29_posc_refuted, C30_stream_is_batch, C30_vi_partial, C30_vi_refuted, C30_posc_fraction_refuted, C30_zero_sign_refuted, C30_arsi_refuted, C30_hfsma_refuted, C31_binary64_refuted, C32_pvt_partial, C32_pvt_refuted, C33_same_options, C33_kc_refuted, C33_frama_refuted, C34_progress, C35_causal, C36_same_code, C36_ahma, C36_hwma, C36_swma, C36_atr, C36_hf, C36_max, C36_hd, C36_mama_options_refuted, C36_mesastoch_refuted, C36_zero_test_refuted, C36_zero_test2_refuted, C36_hurst_refuted, C36_evwma_refuted, C36_ehma_refuted, C36_copp_refuted, C36_pvt_refuted, C36_short_refuted, C36_fraction_refuted, C36_ce_refuted, C37_emsd_refuted, C38_python_batch, C38_python_streams, C38_short_series_refuted, C39_names, C39_counts, C39_batch, C39_streams, C41_pc, C41_ichi, C52_ema_one_refuted, C52_sma_refuted, C52_typprice_refuted, C52_var_refuted, C52_cmo_refuted, C52_er_infinite_refuted, C52_adx_refuted, C52_stoch_refuted, C53_nan_refuted, C54_never_forgotten, C54_adaptive, C54_bbands_refuted, C54_hidden_refuted, C55_names, C55_streaming, C55_default_last_input, C55_default_ema, C55_streaming_warmup_refuted, C55_default_refuted, C55_clean, C55_default_invalid, C55_default_one_input, C55_streaming_throws, C56_compare, C56_arrays, C56_nonfinite_64, C56_transitive_refuted.
* **`ClassicalDedekindReals.sig_forall_dec`, `FunctionalExtensionality.functional_extensionality_dep`**: C11_var_nonneg, C43_extreme_meaning, C44_kama_share_range, C44_constant, C45_movement_meaning, C45_sum_meaning, C45_mean_meaning, C45_dx_range, C45_adx_range, C45_di_range, C46_average_meaning, C46_divisors, C46_mfi_range, C46_cmf_range, C47_extremes, C47_psar_side, C47_psar_ratchet, C47_ultosc_range, C47_stochrsi_range, C47_vhf_range, C47_fisher_domain, C47_kc_order, C48_settle, C48_tables, C48_mgdyn_rising, C48_gf4_unbounded, C48_gf4_sign_refuted, C49_hwma_level, C49_hwma_delay, C49_edcf_range, C49_rvi_range, C49_rvi_below, C50_arsi_range.
* **`ClassicalDedekindReals.sig_forall_dec`, `ClassicalDedekindReals.sig_not_dec`, `FunctionalExtensionality.functional_extensionality_dep`**: C44_recurrences, C44_vidya_divisor, C46_deviation_meaning, C48_solutions, C51_solutions, C51_position.
* **`ClassicalDedekindReals.sig_forall_dec`, `ClassicalDedekindReals.sig_not_dec`, `Classical_Prop.classic`, `FunctionalExtensionality.functional_extensionality_dep`**: C05_buffer_sum, C06_bop_range, C07_sma, C08_sum, C09_wma, C10_ema_range, C10_wilders, C11_var, C12_regression, C13_binary64, C14_aroon_exact, C15_willr_range, C15_stoch, C16_rsi_range, C16_cmo, C16_cmo_range, C18_obv, C18_ad, C18_wad, C20_tr, C20_atr, C21_bbands, C22_signal, C23_hma, C23_extremes_binary64, C26_pc_partial, C30_stream_is_batch_binary64, C30_extremes_binary64, C30_mesastoch_partial, C30_rank_partial, C31_sma_stream, C31_exact_streams, C31_extremes_exact, C33_same_options_exact, C33_extremes_binary64, C34_progress_exact, C34_extremes_binary64, C35_causal_exact, C35_extremes_binary64, C36_er, C36_t3, C36_fi, C36_idwma, C36_swma_exact, C36_pvt, C36_evwma, C36_vi, C36_tsi, C36_rmi, C36_vwap, C36_emsd, C36_lma, C36_dwma, C36_shmma, C36_copp, C36_pfe, C36_pbands, C36_posc, C36_pc, C36_ichi, C36_ce, C36_mhlma, C36_smi, C36_cmi, C36_hfsma, C36_hfema, C36_hurst, C36_abands, C36_kst, C36_mama, C36_mesastoch, C37_gf3_refuted, C38_python_exact, C39_streams_exact, C40_ranges, C42_hf_exact, C42_hf_binary64, C42_rmf_exact, C42_rmf_binary64, C42_hfsma_exact, C42_hfema_exact, C43_ema_meaning, C43_er, C43_vi, C43_tsi, C43_rmi, C43_vwap, C43_copp, C43_pfe, C43_dwma, C43_lma, C43_shmma, C43_idwma, C43_pwma, C43_swma, C43_t3, C43_fi, C43_pvt, C43_evwma, C43_emsd, C43_pbands, C43_posc, C43_window_extreme_meaning, C43_wilder_meaning, C43_true_range_meaning, C43_ce, C43_mhlma, C43_smi, C43_cmi, C43_hurst, C43_abands, C43_kst, C44_dema, C44_tema, C44_zlema_partial, C44_kama, C44_vidya_partial, C44_trima, C44_hma_partial, C44_rmta_partial, C44_rmta_refuted, C44_decay, C44_edecay, C45_dm, C45_di, C45_dx, C45_adx, C45_adxr, C46_adosc, C46_ao, C46_mass, C46_cvi, C46_kvo, C46_trix_partial, C46_cmf, C46_cci, C46_mfi, C46_vosc, C46_volatility, C46_trix_period1, C46_trix_refuted, C47_recurrences, C47_psar, C47_ultosc_partial, C47_stochrsi, C47_vhf, C47_fisher, C47_kc, C47_msw, C47_msw_range, C48_ssmooth, C48_roof, C48_lf, C48_mgdyn, C48_rema, C48_bf2, C48_bf3, C48_gf, C48_follow, C48_gf4_refuted, C48_lf_refuted, C48_mgdyn_refuted, C49_solutions, C49_hwma, C49_ahma, C49_ehma, C49_edcf, C49_rvi, C49_frama, C49_follow, C49_edcf_level_refuted, C49_frama_range, C49_frama_flat, C50_solutions, C50_hd, C50_mama, C50_arsi, C50_period_range, C50_first_period, C50_mama_angle_refuted, C50_mama_slow_unused, C50_mama_first, C50_mama_range, C50_mama_follow, C51_mesastoch, C51_line, C51_follow, C51_filters, C51_one_bar_cycle_refuted, C52_rsi, C52_stochrsi, C52_rmi, C52_dx, C52_dm, C52_adx_nonneg, C52_willr, C52_bop, C52_tr, C52_atr, C52_ema, C52_medprice, C53_rsi, C53_stochrsi, C53_rmi, C53_dx, C53_adx, C53_willr, C53_bop, C53_aroon, C53_avgprice, C53_wcprice, C54_vidya_constant, C54_sma_spike, C55_streaming_exact, C55_default_bop, C55_default_medprice, C55_default_sma, C56_reals, C56_sign_blind, C56_negated, C56_near_zero, C56_self_64, C56_sign_blind_64, C56_negated_64.
