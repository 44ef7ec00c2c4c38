{"id": "C01", "title": "Name lookup is exact", "statement": "ti_find_indicator(name) returns the table entry whose name equals `name` when one of the registered indicators has that name, and returns null for every other string; it terminates and never indexes outside the table, including for the empty string and for strings that sort before the first or after the last entry.", "quantifier": "every NUL-terminated byte string, and every sorted table of distinct names (the shipped 161-entry table is one instance)", "why_tests_cant": "the set of names that must be rejected is infinite and the search is a binary search whose correctness depends on an ordering invariant over the whole table", "anchors": ["codegen.py:ti_find_indicator", "codegen.py:ti_indicators", "indicators.yaml"]}
{"id": "C02", "title": "Generic stream calls reach the right indicator", "statement": "A stream object created by indicator X and handed to ti_stream_run / ti_stream_free / ti_stream_get_info is dispatched to X's own stream functions and X's own table entry, whatever X is; no two indicators share an index and every index is inside the table.", "quantifier": "every registered indicator and every set of registered names (the generator sorts them)", "why_tests_cant": "the index stored in the stream and the table position come from two different generated lists; agreement must hold for every entry and any future set of names", "anchors": ["codegen.py:TI_INDICATOR_X_INDEX", "codegen.py:ti_stream_run", "codegen.py:ti_stream_free", "codegen.py:ti_stream_get_info", "indicators.yaml"]}
{"id": "C03", "title": "Ring buffer gives access to exactly the recent history", "statement": "After any sequence of writes and steps, reading a ring buffer of capacity N at offset k (0<=k<N) gives the value most recently stored k steps ago, or 0 if there was no such step; no read or write touches memory outside the N slots.", "quantifier": "every capacity N>=1 (fixed-size, size-2 and run-time-size variants) and every sequence of operations", "why_tests_cant": "behaviour depends on the position of wrap-around relative to the whole operation history", "anchors": ["utils/ringbuf.hh:ringbuf", "utils/ringbuf.hh:ringbuf<2>", "utils/ringbuf.hh:ringbuf<0>"]}
{"id": "C04", "title": "Ring buffer extreme search returns a true extreme of the last `period` values", "statement": "find_max(period) / find_min(period) return an iterator to a value that is a maximum / minimum of the `period` most recent values, and iterator_to_age of that iterator is the number of steps ago that value was stored.", "quantifier": "every capacity N, every period 1..N, every write history of totally ordered values, every wrap position", "why_tests_cant": "correctness depends on where the window is split by wrap-around and on ties", "anchors": ["utils/ringbuf.hh:find_max", "utils/ringbuf.hh:find_min", "utils/ringbuf.hh:iterator_to_age"]}
{"id": "C05", "title": "Rolling buffer keeps the sum of the last `size` pushed values", "statement": "After any sequence of pushes into a ti_buffer of a given size, its running sum equals the sum of the last min(pushes,size) values in exact arithmetic, its get(-k) accessor returns the value pushed k pushes before the newest, and no uninitialised slot is ever used.", "quantifier": "every buffer size >=1, every sequence of pushes, every legal offset", "why_tests_cant": "drift and stale-slot errors appear only for particular interleavings of length and wrap-around", "anchors": ["utils/buffer.h:ti_buffer_push", "utils/buffer.h:ti_buffer_get", "utils/buffer.c:ti_buffer_new"]}
{"id": "C06", "title": "Element-wise functions write size values and map each bar independently", "statement": "Each element-wise function (add, sub, mul, div, abs, acos ... trunc, todeg, torad, avgprice, medprice, typprice, wcprice, bop, marketfi) returns TI_OKAY, writes exactly `size` values, touches nothing else, and output i is the stated function of bar i only.", "quantifier": "every size >=0 and every input series, any arithmetic (hence doubles including NaN and infinities)", "why_tests_cant": "quantifies over all sizes and all inputs", "anchors": ["indicators/simple1.h", "indicators/simple2.h", "indicators/avgprice.cc:ti_avgprice", "indicators/medprice.cc", "indicators/typprice.cc", "indicators/wcprice.cc", "indicators/bop.cc", "indicators/marketfi.cc"]}
{"id": "C07", "title": "sma is the mean of the window", "statement": "ti_sma writes, at output k, the arithmetic mean of inputs k .. k+period-1 (exact arithmetic); output count is size-period+1, or 0 when the series is too short; options below 1 are rejected with TI_INVALID_OPTION and nothing is written.", "quantifier": "every series, every size, every period", "why_tests_cant": "the running-sum implementation must agree with the definition after arbitrarily many updates", "anchors": ["indicators/sma.cc:ti_sma", "indicators/sma.cc:ti_sma_start"]}
{"id": "C08", "title": "sum is the window sum", "statement": "ti_sum writes at output k the sum of inputs k..k+period-1 (exact arithmetic), count size-period+1.", "quantifier": "every series, size and period", "why_tests_cant": "running sum vs definition after arbitrarily many updates", "anchors": ["indicators/sum.cc:ti_sum"]}
{"id": "C09", "title": "wma is the linearly weighted mean", "statement": "ti_wma writes at output k the weighted mean of inputs k..k+period-1 with weights 1..period (exact arithmetic).", "quantifier": "every series, size and period (period <= 46340 so that the weight sum is representable)", "why_tests_cant": "two coupled running sums must stay consistent for unbounded time", "anchors": ["indicators/wma.cc:ti_wma"]}
{"id": "C10", "title": "ema recurrence, closed form and range", "statement": "ti_ema's output 0 is input 0, output i is out[i-1]+2/(period+1)*(in[i]-out[i-1]); in exact arithmetic each output therefore lies between the smallest and the largest input seen so far. The same holds for wilders with factor 1/period and start = mean of the first period values.", "quantifier": "every series, size and period", "why_tests_cant": "range claims need an induction over unbounded histories", "anchors": ["indicators/ema.cc:ti_ema", "indicators/wilders.cc:ti_wilders"]}
{"id": "C11", "title": "Variance, standard deviation and standard error match their definitions and never go negative", "statement": "ti_var writes the population variance of the window (mean of squares minus square of mean, equal to mean squared deviation), which is >=0; ti_stddev and ti_stderr are its square root (and that divided by sqrt(period)), never the square root of a negative number in exact arithmetic; ti_md is the mean absolute deviation.", "quantifier": "every series, size and period", "why_tests_cant": "two running sums, unbounded time; a sign claim", "anchors": ["indicators/var.cc:ti_var", "indicators/stddev.cc:ti_stddev", "indicators/stderr.cc:ti_stderr", "indicators/md.cc:ti_md"]}
{"id": "C12", "title": "Linear-regression family is the least-squares line", "statement": "For period >=2, linregslope, linregintercept, linreg, tsf (and fosc) write the slope, fitted value at the first bar of the window (what the library calls the intercept), end-point, one-step forecast (and percentage forecast error) of the unique least-squares line through the points (1,x_1)..(period,x_period) of the window, in exact arithmetic.", "quantifier": "every series, size and period in 2..46340", "why_tests_cant": "incremental sums vs the minimisation property over all lines", "anchors": ["indicators/trend.h:LINEAR_REGRESSION", "indicators/linreg.cc", "indicators/linregslope.cc", "indicators/linregintercept.cc", "indicators/tsf.cc", "indicators/fosc.cc"]}
{"id": "C13", "title": "max / min are the exact window extremes and agree with the reference version", "statement": "ti_max / ti_min write at output k the largest / smallest of inputs k..k+period-1, bit for bit, and ti_max_ref / ti_min_ref write the same values.", "quantifier": "every totally ordered series (no NaN), size and period", "why_tests_cant": "the incremental scan keeps an index whose expiry interacts with ties and history", "anchors": ["indicators/max.cc:ti_max", "indicators/max.cc:ti_max_ref", "indicators/min.cc:ti_min", "indicators/min.cc:ti_min_ref"]}
{"id": "C14", "title": "Aroon reports the age of the window extremes", "statement": "ti_aroon writes 100*(period-age)/period where age is the number of bars since the lowest low / highest high of the last period+1 bars; both outputs lie in [0,100] and ti_aroonosc is their difference.", "quantifier": "every high/low series without NaN, size and period", "why_tests_cant": "index bookkeeping under ties and expiry for unbounded histories", "anchors": ["indicators/aroon.cc:ti_aroon", "indicators/aroonosc.cc:ti_aroonosc"]}
{"id": "C15", "title": "Williams %R and stochastic %K use true window extremes and stay in range", "statement": "For bars with low<=close<=high, ti_willr lies in [-100,0] and raw %K in [0,100]; both are computed from the true highest high and lowest low of the window.", "quantifier": "every such series, size and period(s)", "why_tests_cant": "range must hold for every history; depends on index expiry", "anchors": ["indicators/willr.cc:ti_willr", "indicators/stoch.cc:ti_stoch"]}
{"id": "C16", "title": "rsi and cmo are ratios of gains and losses and stay in range", "statement": "ti_rsi lies in [0,100] and ti_cmo in [-100,100] whenever some price change is non-zero in the smoothing memory; they are computed from upward and downward changes exactly as defined.", "quantifier": "every series, size and period", "why_tests_cant": "range claim over unbounded recursive smoothing", "anchors": ["indicators/rsi.cc:ti_rsi", "indicators/cmo.cc:ti_cmo"]}
{"id": "C17", "title": "Cross detection is exact", "statement": "ti_crossover writes 1 exactly at bars where the first series is above the second and was not above it on the bar before, otherwise 0; ti_crossany writes 1 exactly on crossings in either direction; count is size-1.", "quantifier": "every pair of series, any comparison semantics", "why_tests_cant": "for-all over series pairs", "anchors": ["indicators/crossover.cc:ti_crossover", "indicators/crossany.cc:ti_crossany"]}
{"id": "C18", "title": "Cumulative volume indicators accumulate exactly the signed contributions", "statement": "ti_obv's output i is the sum over bars j<=i of +volume/-volume/0 by the direction of close; ti_ad accumulates the close-location-value times volume and adds nothing on zero-range bars; ti_nvi/ti_pvi start at 1000 and change only on falling / rising volume, by the close's relative change; ti_wad and ti_emv follow their definitions.", "quantifier": "every series and size", "why_tests_cant": "accumulators over unbounded history", "anchors": ["indicators/obv.cc", "indicators/ad.cc", "indicators/nvi.cc", "indicators/pvi.cc", "indicators/wad.cc", "indicators/emv.cc"]}
{"id": "C19", "title": "Lookback indicators pair each bar with the bar `period` earlier", "statement": "ti_lag, ti_mom, ti_roc, ti_rocr write in[i-period], in[i]-in[i-period], (in[i]-in[i-period])/in[i-period], in[i]/in[i-period] for every i>=period; count is size-period.", "quantifier": "every series, size and period >=0 (as accepted)", "why_tests_cant": "off-by-one over all sizes and periods", "anchors": ["indicators/lag.cc", "indicators/mom.cc", "indicators/roc.cc", "indicators/rocr.cc"]}
{"id": "C20", "title": "True range and average true range", "statement": "For bars with low<=high, ti_tr output is the largest of high-low, |high-prevclose|, |low-prevclose| and is >=0; ti_atr and ti_natr are >=0 and follow Wilder smoothing of the true range.", "quantifier": "every OHLC series, size and period", "why_tests_cant": "sign and recurrence over unbounded history", "anchors": ["indicators/truerange.h:CALC_TRUERANGE", "indicators/tr.cc", "indicators/atr.cc", "indicators/natr.cc"]}
{"id": "C21", "title": "Bollinger bands bracket the mean symmetrically", "statement": "ti_bbands middle is the window mean, and upper-middle = middle-lower = stddev option times the population standard deviation of the window; lower<=middle<=upper when the option is >=0 (exact arithmetic).", "quantifier": "every series, size, period and multiplier", "why_tests_cant": "running sums and a sign claim", "anchors": ["indicators/bbands.cc:ti_bbands"]}
{"id": "C22", "title": "MACD outputs are consistent", "statement": "ti_macd histogram = macd - signal on every bar, macd = short ema - long ema (with the documented 12/26 special case), signal is the ema of macd started at its first output; ti_apo and ti_ppo use the same two emas.", "quantifier": "every series, size and options", "why_tests_cant": "recursive state over unbounded history", "anchors": ["indicators/macd.cc:ti_macd", "indicators/apo.cc:ti_apo", "indicators/ppo.cc:ti_ppo"]}
{"id": "C23", "title": "Batch calls are memory-safe and produce exactly size-start values", "statement": "For the batch-only indicators, for every option vector the function accepts whose values fit an int, and for every size, the call performs no out-of-bounds read or write, no read of uninitialised storage, no signed overflow, fails no assertion, and writes exactly max(0,size-start(options)) values to every output; rejected options give TI_INVALID_OPTION with no write.", "quantifier": "every size, every input contents (any arithmetic, including NaN), every option vector (integer overflow thresholds stated per indicator)", "why_tests_cant": "for-all over sizes, options and data; violations occur only on thin slices (size = period-1 etc.)", "anchors": ["indicators/*.cc:ti_*", "indicators/*.cc:ti_*_start"]}
{"id": "C24", "title": "Short series are handled by the gap filters", "statement": "ti_gf1..ti_gf4 called with any size>=0 read and write only inside the caller's buffers.", "quantifier": "every size (in particular 0..4), period and series", "why_tests_cant": "only sizes below the filter order expose it; test data are long", "anchors": ["indicators/gf1.cc", "indicators/gf2.cc", "indicators/gf3.cc", "indicators/gf4.cc:ti_gf4"]}
{"id": "C25", "title": "Short series are handled by kst and vidya", "statement": "ti_kst and ti_vidya called with size at or below the start offset read nothing outside the inputs, write nothing, and return TI_OKAY.", "quantifier": "every size and accepted options", "why_tests_cant": "thin slice of sizes", "anchors": ["indicators/kst.cc:ti_kst", "indicators/vidya.cc:ti_vidya"]}
{"id": "C26", "title": "Smallest accepted periods are safe", "statement": "Every accepted period, including 1 and 2, leads to in-bounds reads only (zlema, dpo, hma, cvi, pc, mesastoch, ultosc).", "quantifier": "every accepted option vector and every series", "why_tests_cant": "boundary options are not exercised by the tests", "anchors": ["indicators/zlema.cc", "indicators/dpo.cc", "indicators/hma.cc", "indicators/cvi.cc", "indicators/pc.cc", "indicators/mesastoch.cc", "indicators/ultosc.cc"]}
{"id": "C27", "title": "Fractional options never make the output longer than announced", "statement": "For every real option vector accepted by the function, the number of values written equals size - start(options) (dwma, frama, hurst, rmi, edcf).", "quantifier": "every real-valued accepted option", "why_tests_cant": "options are doubles; the two code paths truncate differently only for fractional values", "anchors": ["indicators/dwma.cc", "indicators/frama.cc", "indicators/hurst.cc", "indicators/rmi.cc", "indicators/edcf.cc"]}
{"id": "C28", "title": "Averaging period 1 still produces every output", "statement": "ce, cmi, mhlma and smi with an averaging period of 1 write size-start values, each the value for its own bar.", "quantifier": "every series and size with the averaging option equal to 1", "why_tests_cant": "boundary option", "anchors": ["indicators/ce.cc", "indicators/cmi.cc", "indicators/mhlma.cc", "indicators/smi.cc"]}
{"id": "C29", "title": "Large periods do not overflow", "statement": "rvi, pbands and posc with any accepted period evaluate no overflowing int expression.", "quantifier": "every accepted period up to INT_MAX", "why_tests_cant": "needs periods above 1023", "anchors": ["indicators/rvi.cc", "indicators/pbands.cc", "indicators/posc.cc", "indicators/ce.cc", "indicators/mhlma.cc", "indicators/smi.cc", "indicators/cmi.cc"]}
{"id": "C30", "title": "Streaming in any chunking equals the batch call, bit for bit", "statement": "Feeding a series to a stream in any sequence of chunks (including empty ones) yields, concatenated, exactly the values the batch call writes for the whole series, bit for bit, for the indicators whose stream performs the same operations in the same order (ssmooth, roof, lf, rema, ahma, mgdyn, gf2, gf3, gf4, bf2, bf3, er, tsi, t3, kc, swma, idwma, evwma, hd, mama, vi and others listed in the manifest).", "quantifier": "every series, every accepted options, every partition into chunks, any arithmetic including NaN", "why_tests_cant": "the number of chunkings is exponential and internal phase switches fall on every possible chunk boundary", "anchors": ["indicators/*.cc:ti_*_stream_run", "codegen.py:ti_stream_run"]}
{"id": "C31", "title": "sma stream equals sma batch in exact arithmetic", "statement": "Feeding a series in any chunking to an sma stream yields the same means as ti_sma (exact arithmetic).", "quantifier": "every series, period, chunking", "why_tests_cant": "exponentially many chunkings", "anchors": ["indicators/sma.cc:ti_sma_stream_run"]}
{"id": "C32", "title": "pvt stream equals pvt batch", "statement": "Feeding a series in any chunking to a pvt stream yields the values ti_pvt writes for the whole series.", "quantifier": "every close/volume series and chunking", "why_tests_cant": "differs only when particular data values occur", "anchors": ["indicators/pvt.cc:ti_pvt", "indicators/pvt.cc:ti_pvt_stream_run"]}
{"id": "C33", "title": "Batch and stream constructors accept the same options", "statement": "ti_X_stream_new returns TI_OKAY exactly for the option vectors for which ti_X returns TI_OKAY.", "quantifier": "every real option vector", "why_tests_cant": "option space is infinite", "anchors": ["indicators/*.cc:ti_*_stream_new", "indicators/*.cc:ti_*"]}
{"id": "C34", "title": "Stream progress counts bars", "statement": "ti_stream_get_progress is -start(options) right after creation and grows by exactly the chunk size with every run; a run that takes progress from p to q writes exactly max(0,q)-max(0,p) values.", "quantifier": "every options, every chunking", "why_tests_cant": "all chunkings", "anchors": ["codegen.py:ti_stream_get_progress", "indicators/*.cc:ti_*_stream_run"]}
{"id": "C35", "title": "Outputs are causal", "statement": "The first k outputs of a batch call depend only on the first start+k bars: extending the series never changes earlier outputs.", "quantifier": "every series, every extension, every options", "why_tests_cant": "for-all over extensions", "anchors": ["indicators/*.cc:ti_*"]}
{"id": "C36", "title": "Reference and optimised implementations agree", "statement": "ti_X_ref and ti_X write the same values (exact arithmetic) for the same accepted options.", "quantifier": "every series, size and accepted options", "why_tests_cant": "two algorithms, all inputs", "anchors": ["indicators/*.cc:ti_*_ref"]}
{"id": "C37", "title": "Every declared option influences the result", "statement": "For each declared option there are inputs for which changing it changes the output (emsd ma_period, gf3 period).", "quantifier": "all inputs", "why_tests_cant": "showing independence needs a for-all over inputs", "anchors": ["indicators/emsd.cc", "indicators/gf3.cc"]}
{"id": "C38", "title": "Python wrapper pads to the input length", "statement": "A Python call returns, for each output, an array as long as the input whose first start entries are the pad value and whose remaining entries are the C outputs in order.", "quantifier": "every input length and option", "why_tests_cant": "all lengths", "anchors": ["bindings/python"]}
{"id": "C39", "title": "The table describes the functions", "statement": "For every modelled function, the table entry of its name lists exactly as many inputs, options and outputs as the function reads and writes; in every entry the lists fit the arrays of ten pointers, terminator included, there is at least one input, and the output names are usable as Python tuple fields.", "quantifier": "every registered indicator; every option list the functions take", "why_tests_cant": "the metadata live in a different file from the functions; agreement must hold for each entry", "anchors": ["indicators.yaml", "codegen.py", "bindings/python/tindicators/impl.py"]}
{"id": "C40", "title": "Bounded oscillators stay in their range", "statement": "In exact arithmetic ti_er stays in [0,1], ti_rmi and ti_arsi in [0,100], ti_tsi in [-100,100].", "quantifier": "every series, size and accepted options", "why_tests_cant": "for-all over series; recursive smoothing makes the bound an invariant of the whole history", "anchors": ["indicators/er.cc", "indicators/rmi.cc", "indicators/tsi.cc", "indicators/arsi.cc"]}
{"id": "C41", "title": "Price channels are window extremes", "statement": "ti_pc writes for each window the lowest low and the highest high of its bars. ti_ichi writes the middle of the channel of the last p9 and p26 bars and, p26 bars later, their mean and the middle of the channel of p52 bars.", "quantifier": "every series without NaN, every size, every accepted periods (pc from 2 up)", "why_tests_cant": "the code follows the extreme incrementally and searches again only when it leaves the window; every order of values must be covered", "anchors": ["indicators/pc.cc:ti_pc", "indicators/ichi.cc:ti_ichi"]}
{"id": "C42", "title": "Hampel and median filters follow the median deviation rule", "statement": "ti_rmf smooths the medians of the last n prices. ti_hf, ti_hfsma and ti_hfema write, for each window of 2k+1 prices (or averages), either the candidate itself or the median of the window, by comparing its distance from the median with threshold*1.4826 times the median distance.", "quantifier": "every series (binary64 without NaN and infinities, or reals), every size, every accepted options", "why_tests_cant": "the multiset is updated incrementally and the median iterator moved by hand; every arrival order must be covered", "anchors": ["indicators/rmf.cc:ti_rmf", "indicators/hf.cc:ti_hf", "indicators/hfsma.cc:ti_hfsma", "indicators/hfema.cc:ti_hfema"]}
{"id": "C43", "title": "The streamed indicators compute their formulas", "statement": "In exact arithmetic each output of er, vi, tsi, rmi, vwap, copp, pfe, dwma, lma, shmma, idwma, pwma, swma, t3, fi, pvt, evwma, emsd, pbands, posc, ce, mhlma, smi, cmi, hurst, abands and kst is the closed formula of its window (or recurrence) of the inputs: ratios of sums, weighted means, smoothed ratios, standard deviation, projected extremes.", "quantifier": "every series and size, every accepted integer period, non-zero divisors", "why_tests_cant": "the code keeps running sums and ring buffers; equality with the formula is an invariant over the whole history", "anchors": ["indicators/er.cc", "indicators/vi.cc", "indicators/tsi.cc", "indicators/rmi.cc", "indicators/vwap.cc", "indicators/copp.cc", "indicators/pfe.cc", "indicators/dwma.cc", "indicators/lma.cc", "indicators/shmma.cc", "indicators/idwma.cc", "indicators/pwma.cc", "indicators/swma.cc", "indicators/t3.cc", "indicators/fi.cc", "indicators/pvt.cc", "indicators/evwma.cc", "indicators/emsd.cc", "indicators/pbands.cc", "indicators/posc.cc", "indicators/ce.cc", "indicators/mhlma.cc", "indicators/smi.cc", "indicators/cmi.cc", "indicators/hurst.cc", "indicators/abands.cc", "indicators/kst.cc"]}
{"id": "C44", "title": "Batch moving averages compute their formulas", "statement": "In exact arithmetic dema, tema, zlema, kama, vidya, trima, hma and rmta write the average their formula gives at each bar, and decay and edecay write the largest of the earlier prices, each lowered by its age.", "quantifier": "every series and size, every accepted integer period (zlema from 3, hma and rmta from 2, vidya except at long-1 bars)", "why_tests_cant": "running sums, rolled weights and a ring buffer stand for the window; equality with the formula is an invariant over the whole history", "anchors": ["indicators/dema.cc", "indicators/tema.cc", "indicators/zlema.cc", "indicators/kama.cc", "indicators/vidya.cc", "indicators/trima.cc", "indicators/hma.cc", "indicators/rmta.cc", "indicators/decay.cc", "indicators/edecay.cc"]}
{"id": "C45", "title": "The directional movement family computes Wilder's lines", "statement": "In exact arithmetic dm, di, dx, adx and adxr write the smoothed up and down movement, their share of the smoothed true range, the index of their difference, its Wilder average and the mean of that with its value period-1 bars earlier; dx and adx stay in [0,100].", "quantifier": "every series and size, every accepted integer period", "why_tests_cant": "the three sums are smoothed in place by one subtraction per bar over the whole history", "anchors": ["indicators/dm.cc", "indicators/di.cc", "indicators/dx.cc", "indicators/adx.cc", "indicators/adxr.cc"]}
{"id": "C46", "title": "The averaged oscillators compute their formulas", "statement": "In exact arithmetic adosc, ao, mass, cvi, kvo, trix, cmf, cci, mfi, vosc and volatility write their formula at each bar; mfi stays in [0,100] and cmf in [-1,1].", "quantifier": "every series and size, every accepted integer period (trix and cvi from 2), non-zero divisors", "why_tests_cant": "running sums and ring buffers over the whole history", "anchors": ["indicators/adosc.cc", "indicators/ao.cc", "indicators/mass.cc", "indicators/cvi.cc", "indicators/kvo.cc", "indicators/trix.cc", "indicators/cmf.cc", "indicators/cci.cc", "indicators/mfi.cc", "indicators/vosc.cc", "indicators/volatility.cc"]}
{"id": "C47", "title": "The parabolic stop, the range oscillators, the Keltner channel and the sine wave compute their formulas", "statement": "In exact arithmetic psar, ultosc, stochrsi, vhf, fisher, kc and msw write their formula at each bar. The parabolic stop lies outside the bar on the side of the trend and never moves away from the prices while the trend lasts; ultosc stays in [0,100], stochrsi and vhf in [0,1]; fisher takes logarithms of positive numbers only.", "quantifier": "every series and size, every accepted options (integer periods; ultosc with the third period above the second; the ranges on bars with low <= close <= high)", "why_tests_cant": "the stop depends on the whole history through its trend, and the extremes are followed incrementally; every order of values must be covered", "anchors": ["indicators/psar.cc", "indicators/ultosc.cc", "indicators/stochrsi.cc", "indicators/vhf.cc", "indicators/fisher.cc", "indicators/kc.cc", "indicators/msw.cc"]}
{"id": "C48", "title": "The recursive filters follow their equations and settle when the price does", "statement": "In exact arithmetic ssmooth, roof, lf, mgdyn, rema, bf2, bf3 and gf1 to gf4 write, bar by bar, the value their recursive equation gives with nothing before the first bar. Once the price stays at c, ssmooth, lf (damping below 1), rema, gf1, gf2, gf3 and gf4 tend to c, bf2 and bf3 to c within 1/20000 and 1/3000, and roof to 0. The coefficient tables are the rounded binomial ones.", "quantifier": "every series and size, every accepted options (lf damping below 1; gf4 periods up to 30)", "why_tests_cant": "the output depends on the whole history; a limit and the stability of the poles are statements about infinite runs", "anchors": ["indicators/ssmooth.cc", "indicators/roof.cc", "indicators/lf.cc", "indicators/mgdyn.cc", "indicators/rema.cc", "indicators/bf2.cc", "indicators/bf3.cc", "indicators/gf1.cc", "indicators/gf2.cc", "indicators/gf3.cc", "indicators/gf4.cc"]}
{"id": "C49", "title": "The Henderson, Ahrens and exponential Hull averages, edcf, rvi and frama compute their formulas", "statement": "In exact arithmetic hwma, ahma, ehma, edcf, rvi and frama write their formula at each bar. hwma, ahma, ehma, edcf and frama keep or tend to a constant price; hwma delays a straight line by a fixed time; edcf and frama stay among the prices they average; rvi stays in [0,100].", "quantifier": "every series and size, every accepted integer period (rvi from 2 and without overflow of p(p+1)(2p+1), frama even)", "why_tests_cant": "weights per bar, running sums and feedback over the whole history; the limits are statements about infinite runs", "anchors": ["indicators/hwma.cc", "indicators/ahma.cc", "indicators/ehma.cc", "indicators/edcf.cc", "indicators/rvi.cc", "indicators/frama.cc"]}
{"id": "C50", "title": "hd, mama and arsi follow the homodyne discriminator", "statement": "In exact arithmetic the discriminator's ten sequences satisfy one system of equations at every bar; hd writes its smoothed period, arsi the relative strength over a fraction of it, mama the two averages whose step depends on the phase. The period stays in (0,50], arsi in [0,100]; both averages of mama stay between 0 and the prices and follow a price that converges; the period mama measures depends on the angle.", "quantifier": "every series and size, every accepted options (arsi with cycle part times 50 within int)", "why_tests_cant": "ten coupled recursions with divisions, arc tangents and clamps over the whole history; the limits are statements about infinite runs", "anchors": ["indicators/hd.cc", "indicators/mama.cc", "indicators/arsi.cc"]}
{"id": "C51", "title": "mesastoch computes the stochastic of its two filters", "statement": "In exact arithmetic mesastoch passes the price through a two-pole high-pass filter and a smoother, takes where the result lies between the lowest and highest of the last n filtered prices (0 at the lowest) and smooths that again; it writes this from bar n+2. The position lies in [0,1]; the output tends to whatever the position tends to; a straight line of prices gives 0, and the filters remove any trend the prices approach.", "quantifier": "every series and size, every accepted integer options with period from 3 (and, for the removal of trends, max_cycle_considered from 2)", "why_tests_cant": "two recursive filters over the whole history feed a window search that starts at the infinities; the limits are statements about infinite runs", "anchors": ["indicators/mesastoch.cc"]}
{"id": "C52", "title": "Ranges that survive double arithmetic", "statement": "In binary64, with rounding, overflow, infinities and NaN, every value rsi, rmi and dx write is NaN or in [0,100], stochrsi NaN or in [0,1], dm and adx NaN or not negative, for any series of doubles; on ordered bars willr is NaN or in [-100,0], bop NaN or in [-1,1], tr and atr NaN or not negative; below a quarter of the overflow threshold ema with period from 2 stays between the bounds of its data and medprice between low and high. Rounding breaks the corresponding ranges of sma, typprice, var, cmo, er, adx (above 100), stoch and ema with period 1.", "quantifier": "every series of doubles, every size and option value, every math library", "why_tests_cant": "a test compares with a tolerance or on a few series; whether a range can be left by one unit in the last place, or by an overflow deep in a recursion, is a statement about all doubles", "anchors": ["indicators/rsi.cc", "indicators/stochrsi.cc", "indicators/rmi.cc", "indicators/dx.cc", "indicators/dm.cc", "indicators/adx.cc", "indicators/willr.cc", "indicators/bop.cc", "indicators/tr.cc", "indicators/atr.cc", "indicators/ema.cc", "indicators/medprice.cc", "indicators/cmo.cc", "indicators/er.cc", "indicators/sma.cc", "indicators/var.cc", "indicators/stoch.cc"]}
{"id": "C53", "title": "On prices of ordinary size the bounded indicators are numbers within tight limits", "statement": "In binary64, when the series stay within 2^900 in absolute value: rsi, rmi and dx write numbers in [0,100], stochrsi in [0,1] and adx in [0, 100+1/512], never NaN; on ordered bars willr writes numbers in [-100,0], bop in [-1,1], and avgprice and wcprice stay between the low and the high of their bar. aroon and aroonosc of any bars without NaN leave [0,100] and [-100,100] by at most the last place. Without the limit on the size rsi can write NaN.", "quantifier": "every series of doubles within the limit, every size and option value (the period of rmi within the same limit), every math library", "why_tests_cant": "the error of a recursion over arbitrarily many bars must be bounded, and a sum of four prices rounded three times must not pass the largest of them for any of the 2^256 bars", "anchors": ["indicators/rsi.cc", "indicators/stochrsi.cc", "indicators/rmi.cc", "indicators/dx.cc", "indicators/adx.cc", "indicators/willr.cc", "indicators/bop.cc", "indicators/avgprice.cc", "indicators/wcprice.cc", "indicators/aroon.cc", "indicators/aroonosc.cc"]}
{"id": "C54", "title": "A NaN or an infinity is never forgotten by running sums and recursive averages in double arithmetic", "statement": "In binary64, if one bar of the series is a NaN or an infinity then so is every output from that bar on, however long ago it left the window, for sum, sma, wilders, wma, trima, var, stddev, stderr, md, dpo, ema, dema, tema, trix, bbands, apo, ppo, macd, vosc, linreg, linregintercept, linregslope and tsf; a bad output of vidya, kama or zlema makes every later one bad. Ordinary prices are enough: after four bars at 0.3 vidya with periods 3 and 4 writes nothing but NaN or infinities, bbands of three bars at 1.3 are NaN, and after one value of 10^17 the two-bar sma of a series which stays at 1 is 0 for ever. rsi and cmo on the other hand can hide a NaN.", "quantifier": "every series and option value, every position of the bad bar, every later bar, every math library; every continuation of the series for vidya and every length for sma", "why_tests_cant": "the effect must persist over arbitrarily many later bars, and the failing constants depend on the last bit of the rounded sums", "anchors": ["indicators/sma.cc:36-41", "indicators/sum.cc", "indicators/wma.cc", "indicators/ema.cc", "indicators/vidya.cc:57-62", "indicators/bbands.cc:39", "indicators/macd.cc", "indicators/trix.cc", "indicators/linreg.cc", "indicators/kama.cc", "indicators/zlema.cc", "indicators/cmo.cc:10-11"]}
{"id": "C55", "title": "QuantConnect classes", "statement": "The C# classes generated for QuantConnect's LEAN are named consistently: the 155 indicators which do not take two series get distinct class names, and class, parameter and member names are valid identifiers without collisions. For the streams which agree with their batch function on every series (C30, C33; in any arithmetic or over the reals), the streaming class fed bar by bar passes on, from the announced start on, exactly the values the batch function computes for those bars, and IsReady becomes true with the first of them; on the bars before it passes on memory nobody wrote. A default class reuses one buffer for all inputs, so it depends on the last input only: the balance of power is always 0 and the median price is the low. A default class of one input is right while its window holds the whole series. With its default window size the exponential average is the current price; the simple average is right, and a rejected option or an error code of the stream throws.", "quantifier": "every indicator of the index; every such stream, series length, bar values and accepted options; every batch function, window size and bar for the default classes", "why_tests_cant": "the binding is generated code without tests; the streaming claim is about every prefix of every series, and the default class fails only with two or more inputs", "anchors": ["bindings/lean/generate-bindings.py:44-151", "bindings/python/tindicators/impl.py:73-75"]}
{"id": "C56", "title": "Comparison used by the tests", "statement": "The tests' comparison of answers reports no failure exactly if sizes agree and every pair of values passes equal_reals. That test accepts exactly values closer than 0.001 or with a quotient of absolute values closer than 0.001 to 1. So it cannot see the sign: every value passes against its negative, over the reals and for every finite double, and answers pass against outputs which are all of the wrong sign. All values below 0.0005 pass against each other. A finite double passes against itself, a NaN or an infinity passes against nothing, not even itself; the relation is not transitive.", "quantifier": "all arrays, sizes and numbers of outputs; all reals and all doubles", "why_tests_cant": "the tests are written with this comparison, so what it does not see no test of the repository can find", "anchors": ["utils/testing.cc:15-27", "utils/testing.cc:39-73"]}
