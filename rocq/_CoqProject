-Q theories Verif
theories/Base.v
theories/PyStr.v
theories/Dict.v
theories/M_Task.v
theories/L_Task.v
theories/P_Task.v
theories/M_Options.v
theories/S_Options.v
theories/L_Options.v
theories/P_Options.v
theories/M_Util.v
theories/S_Util.v
theories/L_Util.v
theories/P_Util.v
theories/M_Hdf5.v
theories/S_Hdf5.v
theories/L_Hdf5.v
theories/P_Hdf5.v
theories/M_Pipeline.v
theories/S_Pipeline.v
theories/L_Pipeline.v
theories/P_Pipeline.v
theories/M_Version.v
theories/L_Str.v
theories/P_Version.v
theories/M_TargetList.v
theories/S_TargetList.v
theories/L_TargetList.v
theories/P_TargetList.v
theories/XR.v
theories/M_Table.v
theories/S_Table.v
theories/L_Table.v
theories/P_Table.v
theories/M_Noise.v
theories/S_Noise.v
theories/L_Noise.v
theories/P_Noise.v
theories/M_Signal.v
theories/S_Signal.v
theories/L_Signal.v
theories/P_Signal.v
theories/M_Optics.v
theories/S_Optics.v
theories/L_Optics.v
theories/P_Optics.v
theories/M_Light.v
theories/S_Light.v
theories/L_Light.v
theories/P_Light.v
theories/M_Bins.v
theories/S_Bins.v
theories/L_Bins.v
theories/P_Bins.v
theories/P_Windows.v
theories/M_Star.v
theories/S_Star.v
theories/L_Star.v
theories/P_Star.v
theories/M_Omega.v
theories/S_Omega.v
theories/P_Omega.v
theories/M_Psf.v
theories/S_Psf.v
theories/L_Psf.v
theories/P_Psf.v
theories/M_Source.v
theories/S_Planck.v
theories/P_Planck.v
theories/S_Source.v
theories/L_Source.v
theories/P_Source.v
theories/M_Foreground.v
theories/S_Foreground.v
theories/L_Foreground.v
theories/P_Foreground.v
theories/M_Observe.v
theories/S_Observe.v
theories/L_Observe.v
theories/L_Stages.v
theories/L_Outcome.v
theories/P_Observe.v
theories/P_Outcome.v
theories/S_Success.v
theories/P_Success.v
theories/S_Works.v
theories/P_Works.v
theories/S_Complete.v
theories/P_Complete.v
theories/P_Instance.v
theories/M_Build.v
theories/S_Build.v
theories/L_Build.v
theories/P_Build.v
theories/S_Ready.v
theories/L_Ready.v
theories/P_Ready.v
theories/P_Mission.v
theories/P_Telescope.v
theories/S_Parts.v
theories/P_Parts.v
theories/P_Emission.v
theories/L_Keep.v
theories/M_Payload.v
theories/S_Payload.v
theories/P_Payload.v
theories/P_Run.v
theories/P_Campaign.v
theories/M_Plot.v
theories/S_Plot.v
theories/P_Plot.v
theories/P_PlotCommand.v
theories/P_PlotObserve.v
theories/P_PlotTarget.v
theories/P_PlotMission.v
theories/M_Command.v
theories/S_Command.v
theories/L_Command.v
theories/P_Command.v
theories/P_CommandRun.v
theories/M_Full.v
theories/S_Full.v
theories/L_Full.v
theories/P_Full.v
theories/P_FullMission.v
theories/S_Bright.v
theories/L_Bright.v
theories/P_Bright.v
theories/P_BrightMission.v
theories/M_Log.v
theories/S_Log.v
theories/P_Log.v
theories/L_Compare.v
theories/S_Area.v
theories/P_Area.v
theories/S_Glow.v
theories/L_Glow.v
theories/P_Glow.v
theories/S_Filter.v
theories/L_Filter.v
theories/P_Filter.v
theories/S_Worse.v
theories/P_Worse.v
theories/S_Faded.v
theories/L_Faded.v
theories/P_Faded.v
theories/S_Files.v
theories/L_Files.v
theories/P_Files.v
theories/S_Warm.v
theories/L_Warm.v
theories/P_Warm.v
theories/M_Rebin.v
theories/S_Rebin.v
theories/P_Rebin.v
theories/S_Seen.v
theories/L_Seen.v
theories/P_Seen.v
theories/P_Auto.v
theories/M_Args.v
theories/S_Args.v
theories/P_Args.v
theories/M_Shell.v
theories/P_Shell.v
theories/P_Framed.v
theories/P_Wells.v
theories/P_Skies.v
theories/P_Hot.v
theories/M_Mpi.v
theories/P_Mpi.v
