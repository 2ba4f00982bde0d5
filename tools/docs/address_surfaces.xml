<minimc>
<general>
  <particles>neutron</particles>
  <histories>1</histories>
  <threads>1</threads>
  <chunksize>1</chunksize>
</general>
<nuclides>
  <multigroup groups="1">
    <nuclide name="absorber">
      <neutron>
        <capture>1</capture>
      </neutron>
    </nuclide>
  </multigroup>
</nuclides>
<materials>
  <material name="thin" aden="0.000001">
    <nuclide name="absorber" afrac="1"/>
  </material>
</materials>
<surfaces>
  <planex name="left" x="0"/>
  <planex name="wall" x="1"/>
  <sphere name="ball">
    <center x="0" y="0" z="0"/>
    <radius r="1"/>
  </sphere>
</surfaces>
<cells>
  <cell name="inside" material="thin">
    <surface name="left" sense="+1"/>
    <surface name="ball" sense="-1"/>
    <surface name="wall" sense="-1"/>
  </cell>
  <void>
    <surface name="left" sense="-1"/>
  </void>
  <void>
    <surface name="left" sense="+1"/>
    <surface name="ball" sense="+1"/>
  </void>
</cells>
<problemtype>
  <fixedsource>
    <position>
      <constant x="0.5" y="0" z="0"/>
    </position>
    <direction>
      <constant x="1" y="0" z="0"/>
    </direction>
    <energy>
      <constant energy="1"/>
    </energy>
    <particletype>
      <constant type="neutron"/>
    </particletype>
  </fixedsource>
</problemtype>
<estimators>
  <current name="at the wall" surface="wall"/>
  <current name="at the ball" surface="ball"/>
</estimators>
</minimc>
