-Q theories Verif
theories/Monad.v
theories/Arith.v
theories/Spec.v
theories/RArith.v
theories/RSum.v
theories/F64.v
theories/F64Ord.v
theories/F64Laws.v
theories/Tactics.v
theories/Ring.v
theories/RingP.v
theories/BufferP.v
theories/M_basic.v
theories/C_basic.v
theories/M_window.v
theories/M_osc.v
theories/C_window.v
theories/C_osc.v
theories/C_osc2.v
theories/Fun_any.v
theories/Fun_basic.v
theories/Fun_lr.v
theories/Fun_range.v
theories/Fun_window.v
theories/Fun_window2.v
theories/Fun_osc.v
theories/SqrtLaw.v
theories/Stream.v
theories/StreamP.v
theories/M_stream1.v
theories/C_stream1.v
theories/M_stream2.v
theories/C_stream2.v
theories/C_stream2R.v
theories/M_stream3.v
theories/C_stream3.v
theories/C_vi.v
theories/Fun_tr.v
theories/C_atr.v
theories/C_stream3R.v
theories/M_stream4.v
theories/M_stream5.v
theories/M_stream6.v
theories/C_stream4.v
theories/C_stream4R.v
theories/C_stream5.v
theories/C_stream5R.v
theories/C_stream6.v
theories/M_stream7.v
theories/C_stream7.v
theories/StreamOut.v
theories/M_stream8.v
theories/C_stream8.v
theories/Fun_rank.v
theories/Fun_ext.v
theories/C_stream7R.v
theories/Fun_range2.v
theories/IndexData.v
theories/M_index.v
theories/M_python.v
theories/Properties_util.v
theories/Properties_basic.v
theories/Properties_window.v
theories/Properties_contracts.v
theories/Properties_stream.v
theories/Properties_stream2.v
theories/Properties_stream3.v
theories/Rank64.v
theories/Properties_stream4.v
theories/Properties_stream5.v
theories/Properties_stream6.v
theories/Properties_osc.v
theories/Properties_tr.v
theories/Properties_index.v
theories/Properties_python.v
theories/M_ref.v
theories/C_ref.v
theories/SpecR.v
theories/Fun_exact.v
theories/Fun_exact2.v
theories/Fun_exact3.v
theories/Fun_exact4.v
theories/Properties_value.v
theories/Properties_value2.v
theories/Fun_exact5.v
theories/Fun_exact6.v
theories/Properties_value3.v
theories/Properties_ref.v
theories/Properties_ref2.v
theories/Properties_ref3.v
theories/SpecR2.v
theories/Fun_batch1.v
theories/Fun_batch2.v
theories/Fun_batch3.v
theories/Fun_batch4.v
theories/Properties_batch1.v
theories/Properties_batch2.v
theories/SpecR3.v
theories/Fun_batch5.v
theories/Properties_batch3.v
theories/SpecR4.v
theories/Fun_batch6.v
theories/Properties_batch4.v
theories/SpecR5.v
theories/Fun_filter.v
theories/Recur.v
theories/Settle.v
theories/Grow.v
theories/Properties_filter.v
theories/SpecR6.v
theories/Fun_last.v
theories/Fun_cycle.v
theories/Settle2.v
theories/Properties_last.v
theories/M_ref2.v
theories/SpecM.v
theories/Fun_mesa.v
theories/XArith.v
theories/SpecR7.v
theories/Fun_mesaR.v
theories/Fun_ref2.v
theories/Properties_ref4.v
theories/Properties_mesa.v
theories/F64Range.v
theories/Fun_64.v
theories/Fun_64b.v
theories/Fun_64c.v
theories/Properties_64.v
theories/Fun_64d.v
theories/Fun_64e.v
theories/Fun_64f.v
theories/Fun_64g.v
theories/Properties_64b.v
theories/Fun_nf.v
theories/Properties_nf.v
theories/M_lean.v
theories/Fun_lean.v
theories/Properties_lean.v
theories/M_test.v
theories/Properties_test.v
