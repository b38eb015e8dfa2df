-Q theories Verif
theories/Base.v
theories/Num.v
theories/Sorting.v
theories/FillUp_model.v
theories/FillUp_spec.v
theories/FillUp_proofs.v
theories/FillUp_proofs2.v
theories/FillUp_proofs3.v
theories/FillUp_proofs4.v
theories/FillUp_proofs5.v
theories/FillUp_proofs6.v
theories/FillUp_props.v
theories/FillUp_spec2.v
theories/FillUp_proofs7.v
theories/FillUp_proofs8.v
theories/FillUp_props2.v
theories/Kernel_model.v
theories/Kernel_spec.v
theories/Kernel_proofs.v
theories/Kernel_proofs2.v
theories/Kernel_proofs3.v
theories/Kernel_proofs4.v
theories/Kernel_proofs5.v
theories/Kernel_proofs6.v
theories/Kernel_props.v
theories/Helpers_model.v
theories/Helpers_spec.v
theories/Helpers_proofs.v
theories/Helpers_proofs2.v
theories/Helpers_props.v
theories/Margins_model.v
theories/Margins_spec.v
theories/Margins_proofs.v
theories/Margins_proofs2.v
theories/Margins_proofs3.v
theories/Margins_props.v
theories/SR_model.v
theories/Detect_model.v
theories/Detect_spec.v
theories/Detect_proofs.v
theories/Detect_proofs2.v
theories/Detect_proofs3.v
theories/Detect_proofs4.v
theories/Detect_proofs5.v
theories/Detect_proofs6.v
theories/Detect_proofs7.v
theories/Detect_props.v
theories/SR_spec.v
theories/SR_proofs.v
theories/SR_proofs2.v
theories/SR_props.v
theories/Transform_model.v
theories/Transform_spec.v
theories/Transform_props.v
theories/Mv_model.v
theories/Mv_state.v
theories/Mv_spec.v
theories/Mv_spec2.v
theories/Mv_proofs.v
theories/Mv_proofs2.v
theories/Mv_proofs3.v
theories/Mv_proofs4.v
theories/Mv_proofs5.v
theories/Mv_proofs6.v
theories/Mv_proofs7.v
theories/Mv_proofs8.v
theories/Mv_toy.v
theories/Mv_props.v
theories/Mv_props2.v
theories/Mv_props3.v
theories/Mv_props4.v
theories/Mv_real.v
theories/Mv_real_props.v
theories/Dates_model.v
theories/Dates_spec.v
theories/Dates_proofs.v
theories/Dates_float.v
theories/Dates_index.v
theories/Dates_text.v
theories/Dates_props.v
theories/Request_model.v
theories/Request_spec.v
theories/Request_proofs.v
theories/Request_proofs2.v
theories/Request_proofs3.v
theories/Request_proofs4.v
theories/Request_proofs5.v
theories/Request_proofs6.v
theories/Request_proofs7.v
theories/Request_proofs8.v
theories/Request_props.v
theories/Kernel_props2.v
theories/Detect_spec2.v
theories/Detect_props2.v
theories/SR_spec2.v
theories/SR_proofs3.v
theories/SR_props2.v
theories/Period_model.v
theories/Period_spec.v
theories/Period_proofs.v
theories/Period_proofs2.v
theories/Period_proofs3.v
theories/Period_proofs4.v
theories/Period_proofs5.v
theories/Period_proofs6.v
theories/Period_props.v
theories/Stl_model.v
theories/Stl_spec.v
theories/Stl_proofs.v
theories/Stl_proofs2.v
theories/Stl_props.v
theories/Trend_model.v
theories/Trend_spec.v
theories/Trend_props.v
theories/Pipe_proofs.v
theories/Pipe_proofs2.v
theories/Pipe_model.v
theories/Pipe_spec.v
theories/Pipe_proofs3.v
theories/Pipe_props.v
theories/Net_model.v
theories/Net_spec.v
theories/Net_proofs.v
theories/Net_proofs2.v
theories/Net_proofs3.v
theories/Net_props.v
theories/Mv_spec3.v
theories/Mv_proofs9.v
theories/Mv_props5.v
theories/Pattern_model.v
theories/Pattern_spec.v
theories/Pattern_props.v
theories/Const_spec.v
theories/Const_proofs.v
theories/Const_proofs2.v
theories/Const_props.v
theories/Spectrum_model.v
theories/Spectrum_spec.v
theories/Spectrum_props.v
theories/Expect_spec.v
theories/Expect_proofs.v
theories/Expect_props.v
theories/Units_spec.v
theories/Units_proofs.v
theories/Units_proofs2.v
theories/Units_proofs3.v
theories/Units_proofs4.v
theories/Units_proofs5.v
theories/Units_proofs6.v
theories/Units_proofs7.v
theories/Units_proofs8.v
theories/Units_props.v
theories/Scale_spec.v
theories/Scale_proofs.v
theories/Limit_proofs.v
theories/Scale_props.v
theories/Shift_spec.v
theories/Shift_proofs.v
theories/Shift_props.v
theories/Hbos_model.v
theories/Hbos_spec.v
theories/Hbos_proofs.v
theories/Hbos_props.v
theories/Fmargins_model.v
theories/Fmargins_spec.v
theories/Fmargins_float.v
theories/Fmargins_proofs.v
theories/Fmargins_proofs2.v
theories/Fmargins_proofs3.v
theories/Fmargins_proofs4.v
theories/Fmargins_proofs5.v
theories/Fmargins_props.v
theories/Mirror_spec.v
theories/Mirror_proofs.v
theories/Mirror_proofs2.v
theories/Mirror_proofs3.v
theories/Mirror_proofs4.v
theories/Mirror_proofs5.v
theories/Mirror_proofs6.v
theories/Mirror_proofs7.v
theories/Mirror_props.v
theories/Strict_spec.v
theories/Strict_proofs.v
theories/Strict_props.v
theories/Strict_proofs2.v
theories/Strict_props2.v
theories/Trainnet_spec.v
theories/Trainnet_proofs.v
theories/Trainnet_props.v
theories/Fexpect_model.v
theories/Fexpect_spec.v
theories/Fexpect_proofs.v
theories/Fexpect_proofs2.v
theories/Fexpect_proofs3.v
theories/Fexpect_proofs4.v
theories/Fexpect_props.v
theories/Single_model.v
theories/Single_spec.v
theories/Single_proofs.v
theories/Single_proofs2.v
theories/Single_proofs3.v
theories/Single_proofs4.v
theories/Single_props.v
theories/Fnorm_model.v
theories/Fnorm_spec.v
theories/Fnorm_proofs.v
theories/Fnorm_props.v
theories/Cplx.v
theories/Fourier_model.v
theories/Fourier_spec.v
theories/Fourier_proofs.v
theories/Fourier_proofs2.v
theories/Fourier_props.v
theories/Spike_spec.v
theories/Spike_proofs.v
theories/Spike_proofs2.v
theories/Spike_proofs3.v
theories/Spike_props.v
theories/Lone_spec.v
theories/Lone_proofs.v
theories/Lone_props.v
theories/Table_data.v
theories/Table_model.v
theories/Table_proofs.v
theories/Table_props.v
theories/Lone_spec2.v
theories/Lone_proofs2.v
theories/Lone_props2.v
theories/Lone_props3.v
theories/Follow_spec.v
theories/Follow_proofs.v
theories/Follow_props.v
theories/Band_spec.v
theories/Band_proofs.v
theories/Band_props.v
theories/Defaults_spec.v
theories/Defaults_proofs.v
theories/Defaults_props.v
theories/Fminmax_model.v
theories/Fminmax_spec.v
theories/Fminmax_proofs.v
theories/Fminmax_props.v
theories/Labels_spec.v
theories/Labels_props.v
theories/Lenient_spec.v
theories/Lenient_props.v
theories/Lenient_props2.v
