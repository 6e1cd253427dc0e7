-Q theories Verif
theories/Base.v
theories/Py.v
theories/Dict.v
theories/PyLemmas.v
theories/RLists.v
theories/Sample_Model.v
theories/Sample_Spec.v
theories/Sample_Proofs.v
theories/Perf_Model.v
theories/ListLemmas.v
theories/Perf_Props.v
theories/Wrap_Model.v
theories/Wrap_Props.v
theories/Changelog_Model.v
theories/Changelog_Props.v
theories/Gui_Model.v
theories/Session_Model.v
theories/Utils_Model.v
theories/Np_Model.v
theories/Stft_Model.v
theories/Dsp_Model.v
theories/Beat_Model.v
theories/Bank_Model.v
theories/Report_Model.v
theories/Widget_Model.v
theories/Widget_Props.v
theories/StrLemmas.v
theories/Utils_Props.v
theories/Tracker_Model.v
theories/Tracker_Spec.v
theories/Tracker_Step.v
theories/Tracker_Run.v
theories/Tracker_Modal.v
theories/Tracker_Proofs.v
theories/Tracker_Props.v
theories/Train_Model.v
theories/Train_Props.v
theories/Dft_Model.v
theories/Pipe_Model.v
theories/Pipe_Spec.v
theories/Stft_Proofs.v
theories/Dft_Proofs.v
theories/Pipe_Proofs.v
theories/Np_Lemmas.v
theories/Dsp_Proofs.v
theories/Bank_Proofs.v
theories/Corr_Model.v
theories/Corr_Proofs.v
theories/Tone_Proofs.v
theories/Tone_Props.v
theories/Double_Model.v
theories/Double_Spec.v
theories/Double_Float.v
theories/Peak_Model.v
theories/Peak_Round.v
theories/Peak_Accuracy.v
theories/Peak_Proofs.v
theories/Clock_Model.v
theories/Clock_Proofs.v
theories/Ripple_Model.v
theories/Ripple_Proofs.v
theories/Ripple_Audio.v
theories/Ripple_Pi.v
theories/Ripple_Props.v
theories/Synth_Model.v
theories/Synth_Proofs.v
theories/Synth_Props.v
theories/Study_Model.v
theories/Study_Props.v
theories/Stft_Props.v
theories/Gui_Props.v
theories/Session_Proofs.v
theories/Session_Props.v
theories/Eval_Model.v
theories/Script_Model.v
theories/Script_Props.v
theories/Scale_Model.v
theories/Scale_Props.v
theories/Sample_Energy.v
theories/Sample_Props.v
theories/Level_Model.v
theories/Level_Proofs.v
theories/Rise_Model.v
theories/Rise_Props.v
theories/Ripple_Sound_Props.v
theories/Ripple_Decay_Props.v
theories/Psycho_Model.v
theories/Psycho_Proofs.v
theories/Beat_Proofs.v
theories/Beat_Trapz.v
theories/Beat_Props.v
theories/Gamma_Model.v
theories/Resid_Model.v
theories/Resid_Proofs.v
theories/Resid_Props.v
theories/Report_Props.v
theories/Psycho_Math.v
theories/Bank_Props.v
theories/Hinge_Props.v
theories/Pipe_Agree.v
theories/Pipe_Props.v
theories/Gain_Props.v
theories/Rate_Props.v
theories/Psycho_Props.v
theories/Plot_Model.v
theories/Plot_Props.v
theories/Phase_Props.v
theories/Double_Step.v
theories/Double_Run.v
theories/Double_Proofs.v
theories/Double_Props.v
theories/Peak_Props.v
theories/Params_Model.v
theories/Params_Proofs.v
theories/Params_Build.v
theories/Params_Clone.v
theories/Params_Props.v
theories/Opt_Model.v
theories/Opt_Proofs.v
theories/Opt_Props.v
theories/Optimizer_Props.v
theories/Onset_Proofs.v
theories/Nb_Model.v
theories/Nb_Proofs.v
theories/Nb_Props.v
theories/Named_Model.v
theories/Named_Props.v
theories/Mixer_Model.v
theories/Mixer_Proofs.v
theories/Mixer_Props.v
theories/Level_Props.v
theories/Kernel_Model.v
theories/Kernel_Props.v
theories/Half_Model.v
theories/Half_Props.v
theories/Gamma_Proofs.v
theories/Gamma_Props.v
theories/Conv_Proofs.v
theories/Dsp_Props.v
theories/Attack_Model.v
theories/Attack_Proofs.v
theories/Attack_Props.v
theories/Flux_Model.v
theories/Flux_Props.v
theories/Fig_Model.v
theories/Fig_Props.v
theories/Eval_Proofs.v
theories/Eval_Props.v
theories/Draw_Model.v
theories/Draw_Props.v
theories/Choice_Model.v
theories/Choice_Props.v
theories/Dist_Model.v
theories/Dist_Props.v
theories/Dft_Props.v
theories/Corr_Props.v
theories/Cochlea_Proofs.v
theories/Cochlea_Props.v
theories/Clock_Props.v
theories/Bisect_Model.v
theories/Bisect_Props.v
theories/BeatVar_Props.v
theories/Alias_Model.v
theories/Alias_Proofs.v
theories/Alias_Props.v
